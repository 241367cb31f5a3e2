(** * Properties C67 to C69: clusters compared with a walker that hops site by site *)
From Coq Require Import ZArith List Bool Reals Lra Lia.
From Verif Require Import Base BaseProofs Num RSum SiteModel SiteSpec ClusterModel ClusterSpec ClusterHist ClusterOps ClusterUpdate ClusterNet
  EscapeSpec EscapeProofs EscapeNet.
Import ListNotations.
Open Scope R_scope.

(** ** C67 *)
(** [finer N t c]: at least N iterations, or a positive tolerance of at most
    t.  Every connected set of two or more sites with mutual rates has exactly
    one quasi-stationary distribution, and the occupation probabilities come
    as close to it as wanted. *)
Theorem C67_solver_converges :
  forall (I : Impl) (G : @Rng XR) (h : heap) (sites : umap site),
    members_ok h sites -> mutual sites -> joined sites -> (2 <= length sites)%nat ->
    exists Q : Z -> R, quasi_stationary h sites Q /\
      (forall Q', quasi_stationary h sites Q' -> forall k, In k (ukeys sites) -> Q' k = Q k) /\
      forall eps, 0 < eps -> exists (N : Z) (t : R), 0 < t /\
        forall (fuel : nat) (c c' : cluster), built c -> c_sites c = sites -> finer N t c -> c_update fuel h c = Ret tt c' ->
          forall k, In k (c_siteIds c) -> exists p, c_probOn k c' = Ret (Fin p) c' /\ Rabs (p - Q k) < eps.
Proof. exact @solver_limit. Qed.
Print Assumptions C67_solver_converges.
(** the settings ask for something: a cluster with any number of iterations *)
Example C67_nonvacuous : forall (I : Impl) (G : @Rng XR) (N : Z) (t : R), (0 <= N)%Z ->
  exists (c : @cluster XR G) c', built c /\ members_ok unit_heap (c_sites c) /\ mutual (c_sites c) /\ joined (c_sites c) /\
    (2 <= length (c_sites c))%nat /\ finer N t c /\ c_update 0 unit_heap c = Ret tt c'.
Proof.
  intros I G N t HN. destruct (pair_r (G := G) 0 0) as (c & _ & Hnu & Em & Hm & So & J & _).
  set (n := Z.max N 1). set (c1 := c_with_iters n c).
  assert (E1 : c_setIterations n c = Ret tt c1).
  { unfold c_setIterations, bind, cassert. assert (L : (0 <? n)%Z = true) by (apply Z.ltb_lt; unfold n; lia). rewrite L. reflexivity. }
  assert (Hnu1 : never_updated c1) by (eapply nu_iters; [exact Hnu | exact E1]).
  assert (So1 : sound unit_heap c1) by (destruct So; constructor; assumption).
  destruct (first_update 0 unit_heap c1 Hnu1 So1 Em) as (c' & E). exists c1, c'. pose proof So1 as [A B C D F].
  split; [apply never_updated_built; exact Hnu1|]. split; [exact A|]. split; [exact B|]. split; [exact J|]. split; [exact F|].
  split; [|exact E]. unfold finer. cbn [c_method c_with_iters c1 c_iters]. rewrite Em. unfold n. lia.
Qed.

(** ** C68 *)
(** Full statement: a cluster sends its walkers to its neighbours with the
    probabilities of a walker that hops site by site.  Proved: in the limit of
    many iterations or a small tolerance, for a walker whose first site is
    drawn from the quasi-stationary distribution; those probabilities sum to 1
    (the hop-by-hop walker leaves).  Missing: the walker that starts on the
    site it entered by (next theorem). *)
Theorem C68_exit_probabilities_partial :
  forall (I : Impl) (G : @Rng XR) (h : heap) (sites : umap site),
    members_ok h sites -> mutual sites -> joined sites -> (2 <= length sites)%nat -> has_exit sites ->
    exists Q L : Z -> R, quasi_stationary h sites Q /\ (forall m, leaves h sites Q m (L m)) /\
      (forall l, NoDup l -> (forall n, In n l <-> outside sites n) -> Rsum L l = 1) /\
      forall eps, 0 < eps -> exists (N : Z) (t : R), 0 < t /\
        forall (fuel : nat) (c c' : cluster), built c -> c_sites c = sites -> finer N t c -> c_update fuel h c = Ret tt c' ->
          forall m, outside sites m -> exists p, c_probToNeighbor c' m = Ok (Fin p) /\ Rabs (p - L m) < eps.
Proof. exact @exit_limit. Qed.
Print Assumptions C68_exit_probabilities_partial.
(** Two sites with unit rates: a walker that enters on site 1 should leave to
    its neighbour 3 with probability 2/3, one that enters on site 2 with 1/3;
    the cluster knows only 1/2. *)
Theorem C68_entry_site_refuted :
  forall (I : Impl) (G : @Rng XR) (i clock : Z),
  exists c c' : @cluster XR G, never_updated c /\ sound unit_heap c /\ joined (c_sites c) /\ c_update 0 unit_heap c = Ret tt c' /\
    In 1%Z (c_siteIds c) /\ In 2%Z (c_siteIds c) /\ outside (c_sites c) 3 /\
    leaves unit_heap (c_sites c) (on 1) 3 (2 / 3) /\ leaves unit_heap (c_sites c) (on 2) 3 (1 / 3) /\ c_probToNeighbor c' 3 = Ok (Fin (1 / 2)).
Proof. exact @entry_forgotten. Qed.
Print Assumptions C68_entry_site_refuted.
(** settings: C67_nonvacuous; a cluster with exits: *)
Example C68_nonvacuous : forall (I : Impl) (G : @Rng XR), exists (c : @cluster XR G),
  members_ok unit_heap (c_sites c) /\ mutual (c_sites c) /\ joined (c_sites c) /\ (2 <= length (c_sites c))%nat /\ has_exit (c_sites c).
Proof. intros I G. destruct (pair_r (G := G) 0 0) as (c & _ & _ & _ & _ & [A B C D F] & J & _). exists c. auto. Qed.

(** ** C69 *)
(** Full statement: the time constant of a cluster is the mean time a walker
    that hops site by site spends in it.  Proved: in the limit of many
    iterations or a small tolerance it is T'/s, where T' is the part of that
    mean time the walker spends on sites with a rate out of the cluster, and s
    the probability that a hop stays inside; T' is the whole mean time T
    when every site has a rate out.  Missing: it is neither a lower
    nor an upper bound, and no factor of it is (next theorems). *)
Theorem C69_mean_stay_partial :
  forall (I : Impl) (G : @Rng XR) (h : heap) (sites : umap site),
    members_ok h sites -> mutual sites -> joined sites -> (2 <= length sites)%nat -> has_exit sites ->
    exists (Q : Z -> R) (T T' : R), quasi_stationary h sites Q /\ 0 < stay_prob h sites Q < 1 /\
      mean_stay h sites Q T /\ mean_time h sites Q (edge_member h sites) T' /\
      0 < T' <= T /\ ((forall k, In k (ukeys sites) -> edge_member h sites k = true) -> T' = T) /\
      forall eps, 0 < eps -> exists (N : Z) (t : R), 0 < t /\
        forall (fuel : nat) (c c' : cluster), built c -> c_sites c = sites -> finer N t c -> c_update fuel h c = Ret tt c' ->
          exists tau, c_getTimeConstant c' = Fin tau /\ Rabs (tau - T' / stay_prob h sites Q) < eps.
Proof. exact @time_limit. Qed.
Print Assumptions C69_mean_stay_partial.
(** Two sites with unit rates: mean stay 1, time constant 2. *)
Theorem C69_too_long_refuted :
  forall (I : Impl) (G : @Rng XR) (i clock : Z),
  exists (c c' : @cluster XR G) (Q : Z -> R), never_updated c /\ sound unit_heap c /\ joined (c_sites c) /\ c_update 0 unit_heap c = Ret tt c' /\
    quasi_stationary unit_heap (c_sites c) Q /\ mean_stay unit_heap (c_sites c) Q 1 /\ c_getTimeConstant c' = Fin 2.
Proof. exact @stay_doubled. Qed.
Print Assumptions C69_too_long_refuted.
(** A slow site between two sites with exits: whatever the solver settings and
    the history, the time constant is at most 2, while the mean stay exceeds
    any bound. *)
Theorem C69_trap_refuted :
  forall (I : Impl) (G : @Rng XR) (i clock : Z) (B : R),
  exists (h : heap) (c c0 : @cluster XR G) (Q : Z -> R) (T : R),
    never_updated c /\ sound h c /\ joined (c_sites c) /\ c_update 0 h c = Ret tt c0 /\
    quasi_stationary h (c_sites c) Q /\ mean_stay h (c_sites c) Q T /\ B <= T /\
    forall (fuel : nat) (c1 c' : cluster), built c1 -> c_sites c1 = c_sites c -> c_update fuel h c1 = Ret tt c' ->
      exists tau, c_getTimeConstant c' = Fin tau /\ tau <= 2.
Proof. exact @trap_ignored. Qed.
Print Assumptions C69_trap_refuted.
(** hypotheses: C68_nonvacuous, settings: C67_nonvacuous *)
