(** * Sites without outgoing rates *)
From Coq Require Import ZArith List.
From Verif Require Import Base Num SiteModel SystemModel SystemSpec.
Import ListNotations.
Open Scope Z_scope.

Section Spec.
Context {N : Num}.
(** one of the calls was initializeSystem with a rate map in which [k] is the
    target of a rate but has no rates of its own *)
Definition drain (tr : list call) (k : Z) : Prop :=
  exists rates, In (KInit rates) tr /\ mentioned rates k /\ ~ In k (ukeys rates).
(** the calls of walker [p] itself *)
Definition own (p : Z) (c : call) : Prop := c = KHop p \/ c = KLeave p.
(** 0.001 < 0.001 * 1.1, the first test of the loop that solves the master
    equation of a new cluster *)
Definition fits : Prop := nltb (nlit 1 1000) (nmul (nlit 1 1000) (nlit 11 10)) = true.
End Spec.
