(** * Leaving and crossing a set of sites *)
From Coq Require Import ZArith List Bool Reals.
From Verif Require Import Base Num RSum SiteModel SiteSpec BasinSpec.
Import ListNotations.
Open Scope R_scope.

Section Spec.
Context {G : @Rng XR}.
Variables (h : @heap XR) (sites : umap (@site XR G)).

(** a walk from [i] to [j] that stays in [B] and takes 1/rate for each hop takes
    time [t] *)
Inductive walk (B : list Z) (i : Z) : Z -> R -> Prop :=
| walk_stay : In i B -> walk B i i 0
| walk_go j k t r : walk B i j t -> In k B -> rate_between h sites j k r -> walk B i k (t + 1 / r).
(** the shortest such time *)
Definition quickest (B : list Z) (i j : Z) (d : R) : Prop :=
  walk B i j d /\ forall t, walk B i j t -> d <= t.
(** [L] is the longest of the shortest times between two different sites of [B],
    one of which can be reached from the other *)
Definition crossing (B : list Z) (L : R) : Prop :=
  (forall i j d, i <> j -> quickest B i j d -> d <= L) /\
  ((L = 0 /\ forall i j d, i <> j -> ~ quickest B i j d) \/ exists i j, i <> j /\ quickest B i j L).
(** the sum of the rates from sites of [B] to other sites *)
Definition rates_out (B : list Z) (i : Z) : R :=
  match ulookup i sites with
  | Some s => Rsum (fun e => if existsb (Z.eqb (fst e)) B then 0 else realv (h (snd e))) (s_neigh s)
  | None => 0
  end.
Definition leaving (B : list Z) : R := Rsum (rates_out B) B.
(** every site of [B] can be reached from every other one inside [B] *)
Definition joined (B : list Z) : Prop := forall i j, In i B -> In j B -> exists t, walk B i j t.
(** every rate has a rate back *)
Definition mutual : Prop := forall i j r, rate_between h sites i j r -> exists r', rate_between h sites j i r'.
End Spec.
