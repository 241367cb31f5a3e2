(** * Specification vocabulary for the basin search *)
From Coq Require Import ZArith List Bool Reals Relations.
From Verif Require Import Base Num RSum SiteModel ClusterModel.
Import ListNotations.
Open Scope R_scope.

Section Spec.
Context {G : @Rng XR}.
Variables (h : @heap XR).

(** distinct ids, distinct neighbours of each site, finite positive rates *)
Definition good_sites (sites : umap (@site XR G)) : Prop :=
  NoDup (ukeys sites) /\
  forall k s, In (k, s) sites ->
    NoDup (ukeys (s_neigh s)) /\ forall n a, In (n, a) (s_neigh s) -> exists r, h a = Fin r /\ 0 < r.

(** the rate from [i] to [j] is [r] *)
Definition rate_between (sites : umap (@site XR G)) (i j : Z) (r : R) : Prop :=
  exists s a, In (i, s) sites /\ In (j, a) (s_neigh s) /\ h a = Fin r.

(** the largest of a set of rates, 0 if there is none *)
Definition top (P : R -> Prop) (r : R) : Prop :=
  (r = 0 /\ forall x, ~ P x) \/ (P r /\ forall x, P x -> x <= r).

(** The rate a basin around [k] is measured against: the fastest rate off the
    site, or off the cluster that [k] is part of. *)
Definition reference (sites : umap (@site XR G)) (clusters : umap (@cluster XR G)) (k : Z) (r : R) : Prop :=
  exists s, In (k, s) sites /\
    if (s_cluster s <? 0)%Z (* cluster ids are non-negative *)
    then top (fun x => exists j, rate_between sites k j x) r
    else exists c, In (s_cluster s, c) clusters /\ good_sites (c_sites c) /\
      top (fun x => exists i j, rate_between (c_sites c) i j x /\ ~ In j (ukeys (c_sites c))) r.

(** one hop inside [L] along a rate of at least [b] *)
Definition fast_hop (sites : umap (@site XR G)) (L : list Z) (b : R) (i j : Z) : Prop :=
  In i L /\ In j L /\ exists r, rate_between sites i j r /\ b <= r.
(** all of [L] can be reached from [k] by such hops *)
Definition reached (sites : umap (@site XR G)) (L : list Z) (b : R) (k : Z) : Prop :=
  forall j, In j L -> clos_refl_trans Z (fast_hop sites L b) k j.

(** each accepted rate may undercut the slowest one accepted so far by a factor
    .9999: the slowest possible after [m] of them *)
Definition slack (m : nat) (ref : R) : R := (9999 / 10000) ^ m * ref.
(** number of pairs of sites in [L], number of rates leaving sites of [L] *)
Definition pairs (L : list Z) : nat := length L * (length L - 1) / 2.
Definition rates_from (sites : umap (@site XR G)) (L : list Z) : nat :=
  length (flat_map (fun i => match ulookup i sites with Some s => s_neighIds s | None => [] end) L).

(** no rate of at least .9999 of the reference leaves [L] *)
Definition closed (sites : umap (@site XR G)) (L : list Z) (ref : R) : Prop :=
  forall i j r, In i L -> rate_between sites i j r -> ~ In j L -> r < 9999 / 10000 * ref.

(** the result of a search around [k] with at most [most] sites: empty, and then
    more than that many sites are held together by fast rates, or a basin *)
Definition basin_is (sites : umap (@site XR G)) (k : Z) (ref : R) (most : Z) (L : list Z) : Prop :=
  (L = [] /\ exists L', NoDup L' /\ In k L' /\ (most < Z.of_nat (length L'))%Z /\
     reached sites L' (slack (rates_from sites L') ref) k)
  \/ (NoDup L /\ In k L /\ ((Z.of_nat (length L) <= most)%Z \/ L = [k]) /\
      reached sites L (slack (pairs L) ref) k /\ closed sites L ref).
End Spec.

(** one hop inside [L] to a neighbour, whatever the rate *)
Definition hop_in {N : Num} {G : Rng} (sites : umap site) (L : list Z) (i j : Z) : Prop :=
  In i L /\ In j L /\ exists s, In (i, s) sites /\ In j (s_neighIds s).
