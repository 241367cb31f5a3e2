(** * Specification: programs that set the seed first (C41) *)
From Coq Require Import ZArith List Bool.
From Verif Require Import Base Num SiteModel SystemModel SystemSpec SystemRuns.
Import ListNotations.
Open Scope Z_scope.

Section SeedSpec.
Context {N : Num}.
(** the program calls setRandomSeed before any initializeSystem *)
Definition seeds_first (l : list act) : Prop :=
  forall l1 r l2, l = l1 ++ AInit r :: l2 -> exists s, In (ASeed s) l1.
(** every site that a rate map mentions has outgoing rates of its own *)
Definition no_drains (l : list act) : Prop :=
  forall r, In (AInit r) l -> forall k, mentioned r k -> In k (ukeys r).
End SeedSpec.

Section DrainSpec.
Context {N : Num} {G : Rng}.
(** The dwell time -log(u)*tau of a walker on a site without rates, where tau
    is 0, is the same for every number u that an engine can return. *)
Definition drains_keep_still : Prop :=
  forall (e1 e2 e1' e2' : eng) (u1 u2 : num), edraw e1 = (u1, e1') -> edraw e2 = (u2, e2') ->
  nmul (nmul (nofZ (-1)) (nlog u1)) n0 = nmul (nmul (nofZ (-1)) (nlog u2)) n0.
End DrainSpec.
