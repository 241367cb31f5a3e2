(** * C21 to C29: clusters *)
From Coq Require Import ZArith List Bool Reals Lra Lia Permutation Floats.
From Verif Require Import Base BaseProofs Num F64 RSum SiteModel SiteSpec
  ClusterModel ClusterSpec ClusterHist ClusterStay ClusterTime ClusterUpdate ClusterProofs ClusterSome ClusterPick ClusterSolver ClusterNet.
Import ListNotations.
Open Scope R_scope.

Local Definition fn : Num := F64 (fun x => x).
Local Definition const_rng {N : Num} (x : num) : Rng := {| eng := unit; eseed := fun _ => tt; edraw := fun _ => (x, tt) |}.
(** the generator whose state is the next draw; every seed starts it at 1/2 *)
Local Definition half_rng : @Rng XR := {| eng := xr; eseed := fun _ => Fin (1 / 2); edraw := fun e => (e, e) |}.

(** Two sites 1 and 2 with rates 1 to each other and to 3 and 4: a built
    cluster that meets the hypotheses below, and its first update. *)
Example pair_example : forall (I : Impl) (G : @Rng XR), exists (c c' : @cluster XR G),
  never_updated c /\ sound unit_heap c /\ rates_moderate unit_heap c /\ joined (c_sites c) /\
  c_tol c = Fin (1 / 100) /\ c_update 0 unit_heap c = Ret tt c' /\
  (forall k, In k (c_siteIds c) <-> k = 1%Z \/ k = 2%Z).
Proof.
  intros I G. destruct (pair_cluster (G := G) 0 0) as (c & P & c' & A & B & C & D & M & E & _ & _ & F & _).
  exists c, c'. split; [exact A|]. split; [exact B|]. split; [exact C|]. split; [exact D|]. split; [exact E|]. split; [exact F|].
  intros k. rewrite (made_in _ _ M k). simpl. intuition lia.
Qed.

(** ** C21 *)
(** Full statement: positive probabilities with sum 1 for every cluster of two
    or more sites with mutual rates.  Proved when some rate stays inside, for
    every method, tolerance, iteration count and history; without any internal
    rate the code divides 0 by 0 (C28_unconnected_refuted). *)
Theorem C21_occupation_distribution :
  forall (I : Impl) (G : @Rng XR) (fuel : nat) (h : heap) (c c' : cluster),
    built c -> members_ok h (c_sites c) -> mutual (c_sites c) -> has_link (c_sites c) -> c_sites c <> [] ->
    c_update fuel h c = Ret tt c' ->
    exists P : Z -> R,
      (forall k, In k (c_siteIds c) -> 0 < P k /\ c_probOn k c' = Ret (Fin (P k)) c') /\
      Rsum P (c_siteIds c) = 1.
Proof. exact @occupation_distribution. Qed.
Print Assumptions C21_occupation_distribution.
(** Before the first update no probability is known: members are reported with
    0, also when asked again. *)
Theorem C21_before_update :
  forall (I : Impl) (N : Num) (G : Rng) (c : cluster) (k : Z),
    never_updated c -> In k (c_siteIds c) ->
    exists c', c_probOn k c = Ret n0 c' /\ c_probOn k c' = Ret n0 c'.
Proof.
  intros I N G c k H Hk. destruct (ClusterOps.never_updated_empty c H) as (_ & _ & _ & _ & _ & E & _).
  apply umem_In in Hk.
  exists (c_with_pon (uset [] k n0) c). unfold c_probOn, bind, gets, cassert, modify, ret. cbn [c_with_pon c_sites c_pon].
  rewrite Hk, E. cbn [umem ulookup]. split; [rewrite E; reflexivity|].
  rewrite uset_mem, Z.eqb_refl. unfold uget. rewrite uset_lookup_same by constructor. reflexivity.
Qed.
Print Assumptions C21_before_update.
Example C21_nonvacuous : forall (I : Impl) (G : @Rng XR), exists c c' : @cluster XR G,
  built c /\ members_ok unit_heap (c_sites c) /\ mutual (c_sites c) /\ has_link (c_sites c) /\ c_sites c <> [] /\
  c_update 0 unit_heap c = Ret tt c'.
Proof.
  intros I G. destruct (pair_example I G) as (c & c' & A & [So1 So2 So3 _ So5] & _ & _ & _ & E & _). exists c, c'.
  split; [apply ClusterOps.never_updated_built; exact A|]. split; [exact So1|]. split; [exact So2|].
  assert (X : c_sites c <> []) by (intros X; rewrite X in So5; simpl in So5; lia).
  split; [apply ClusterReal.linked_has; assumption|]. split; [exact X | exact E].
Qed.

(** ** C22 *)
(** [fuel] bounds the passes of the solver's while loop; [Halt Diverged] is
    the outcome of a loop that did not end within it.  The cluster need not be
    connected: one rate between two of its sites is enough. *)
Theorem C22_solver_stops :
  forall (I : Impl) (G : @Rng XR) (h : heap) (c : cluster) (tol : R),
    built c -> members_ok h (c_sites c) -> mutual (c_sites c) -> has_link (c_sites c) ->
    c_tol c = Fin tol -> 0 < tol ->
    exists n, forall fuel, (n < fuel)%nat -> c_update fuel h c <> Halt Diverged.
Proof. exact @solver_stops. Qed.
Print Assumptions C22_solver_stops.
Example C22_nonvacuous : forall (I : Impl) (G : @Rng XR), exists c : @cluster XR G,
  built c /\ c_method c = ByTolerance /\ members_ok unit_heap (c_sites c) /\ mutual (c_sites c) /\ joined (c_sites c) /\
  has_link (c_sites c) /\ c_tol c = Fin (1 / 100).
Proof.
  intros I G. destruct (pair_example I G) as (c & c' & A & [So1 So2 So3 _ So5] & _ & J & T & _). exists (c_with_method ByTolerance c).
  split; [apply ClusterOps.never_updated_built; eapply (nu_method ByTolerance); [exact A | reflexivity]|]. split; [reflexivity|].
  split; [exact So1|]. split; [exact So2|]. split; [exact J|]. split; [|exact T]. apply ClusterReal.linked_has; [|exact So3].
  intros X. cbn in X. rewrite X in So5. simpl in So5. lia.
Qed.

(** ** C23 *)
(** Internal picks after the first update: every draw yields a member, member
    [k] exactly for the draws in an interval of length [wt k], where [wt] is
    the occupation probability times the member's time constant, normalised. *)
Theorem C23_internal_picks :
  forall (I : Impl) (G : @Rng XR) (fuel : nat) (h : heap) (c c' : cluster),
    never_updated c -> sound h c -> c_update fuel h c = Ret tt c' ->
    exists P : Z -> R,
      (forall k, In k (c_siteIds c) -> 0 < P k /\ c_probOn k c' = Ret (Fin (P k)) c') /\
      let wt := fun k => P k * mtau h (c_sites c) k / Rsum (fun j => P j * mtau h (c_sites c) j) (c_siteIds c) in
      Rsum wt (c_siteIds c) = 1 /\
      (forall c2 u e, moves c' c2 -> edraw (c_rng c2) = (Fin u, e) -> 0 <= u < 1 ->
         exists k c3, c_pickInternal c2 = Ret k c3 /\ In k (c_siteIds c)) /\
      (forall k, In k (c_siteIds c) -> 0 < wt k /\ exists lo, 0 <= lo /\ lo + wt k <= 1 /\
         forall c2 u e j c3, moves c' c2 -> edraw (c_rng c2) = (Fin u, e) -> 0 <= u < 1 ->
           c_pickInternal c2 = Ret j c3 -> (j = k <-> lo <= u < lo + wt k)).
Proof. exact @fresh_picks. Qed.
Print Assumptions C23_internal_picks.
(** Exit picks after the first update: the listed neighbours are exactly the
    outside neighbours, the listed probabilities are positive with sum 1, every
    draw yields an outside neighbour, and [n] exactly for the draws in an
    interval as long as its listed probability.  [mprob k n] is the rate from
    k to n over the total rate of k, [P] the occupation probabilities. *)
Theorem C23_exit_picks :
  forall (I : Impl) (G : @Rng XR) (fuel : nat) (h : heap) (c c' : cluster) (w : Z),
    never_updated c -> sound h c -> c_update fuel h c = Ret tt c' ->
    NoDup (c_neighborIds c') /\ (forall n, In n (c_neighborIds c') <-> outside (c_sites c) n) /\
    exists P p : Z -> R, (forall k, In k (c_siteIds c) -> c_probOn k c' = Ret (Fin (P k)) c') /\
      (forall n, p n = Rsum (fun k => P k * mprob h (c_sites c) k n) (c_siteIds c) /
         Rsum (fun m => Rsum (fun k => P k * mprob h (c_sites c) k m) (c_siteIds c)) (c_neighborIds c')) /\
      (forall n, outside (c_sites c) n -> 0 < p n /\ c_probToNeighbor c' n = Ok (Fin (p n))) /\
      Rsum p (c_neighborIds c') = 1 /\
      (forall c2 u e, moves c' c2 -> edraw (c_rng c2) = (Fin u, e) -> 0 <= u < 1 ->
         exists k c3, c_pickNeighbor w c2 = Ret k c3 /\ outside (c_sites c) k) /\
      (forall n, outside (c_sites c) n -> exists lo, 0 <= lo /\ lo + p n <= 1 /\
         forall c2 u e j c3, moves c' c2 -> edraw (c_rng c2) = (Fin u, e) -> 0 <= u < 1 ->
           c_pickNeighbor w c2 = Ret j c3 -> (j = n <-> lo <= u < lo + p n)).
Proof. exact @fresh_exits. Qed.
Print Assumptions C23_exit_picks.
(** Which of the two picks pickNewSiteId makes: C26_next_answer. *)
Example C23_nonvacuous : forall (I : Impl) (G : @Rng XR), exists c c' : @cluster XR G,
  never_updated c /\ sound unit_heap c /\ c_update 0 unit_heap c = Ret tt c'.
Proof. intros I G. destruct (pair_example I G) as (c & c' & A & B & _ & _ & _ & E & _). eauto. Qed.

(** ** C24 *)
(** Full statement: after every update, picks follow the present membership.
    Proved: the neighbours and probabilities that can be asked for do.
    Missing: the picks, which do not (next theorems). *)
Theorem C24_listed_probabilities_partial :
  forall (I : Impl) (G : @Rng XR) (fuel : nat) (h : heap) (c c' : cluster),
    built c -> sound h c -> c_update fuel h c = Ret tt c' ->
    NoDup (c_neighborIds c') /\ (forall n, In n (c_neighborIds c') <-> outside (c_sites c) n) /\
    exists P p : Z -> R, (forall k, In k (c_siteIds c) -> c_probOn k c' = Ret (Fin (P k)) c') /\
      (forall n, p n = Rsum (fun k => P k * mprob h (c_sites c) k n) (c_siteIds c) /
         Rsum (fun m => Rsum (fun k => P k * mprob h (c_sites c) k m) (c_siteIds c)) (c_neighborIds c')) /\
      (forall n, In n (c_neighborIds c') -> 0 < p n /\ c_probToNeighbor c' n = Ok (Fin (p n))) /\
      Rsum p (c_neighborIds c') = 1.
Proof. exact @listed_follow. Qed.
Print Assumptions C24_listed_probabilities_partial.
(** Whatever is done after the first update, internal picks are members of the
    first cluster and exit picks are neighbours of the first cluster. *)
Theorem C24_picks_frozen :
  forall (I : Impl) (G : @Rng XR) (fuel : nat) (h : heap) (c c1 c2 : cluster) (w : Z) (u : R) (e : eng) (k : Z) (c3 : cluster),
    never_updated c -> sound h c -> c_update fuel h c = Ret tt c1 -> csteps c1 c2 ->
    edraw (c_rng c2) = (Fin u, e) -> 0 <= u < 1 ->
    (c_pickInternal c2 = Ret k c3 -> In k (c_siteIds c)) /\ (c_pickNeighbor w c2 = Ret k c3 -> outside (c_sites c) k).
Proof. exact @picks_frozen. Qed.
Print Assumptions C24_picks_frozen.
(** Sites 1 and 2, updated; then site 3 joins and the cluster is updated: every
    exit pick is the member 3, no internal pick is 3, and the only outside
    neighbour 4 is never picked. *)
Theorem C24_joined_site_refuted :
  forall (I : Impl) (G : @Rng XR) (i clock : Z),
  exists (c c1 c2 c3 : @cluster XR G) (s : site),
    never_updated c /\ sound unit_heap c /\ c_update 0 unit_heap c = Ret tt c1 /\
    c_addSites [s] c1 = Ret tt c2 /\ sound unit_heap c2 /\ c_update 0 unit_heap c2 = Ret tt c3 /\
    In 3%Z (c_siteIds c3) /\ (forall n, In n (c_neighborIds c3) -> n = 4%Z) /\
    forall w u e k c4, edraw (c_rng c3) = (Fin u, e) -> 0 <= u < 1 ->
      (c_pickNeighbor w c3 = Ret k c4 -> k = 3%Z) /\ (c_pickInternal c3 = Ret k c4 -> k <> 3%Z).
Proof. exact @stale_tables. Qed.
Print Assumptions C24_joined_site_refuted.
Example C24_nonvacuous : forall (I : Impl) (G : @Rng XR), exists c c1 c2 c3 : @cluster XR G,
  never_updated c /\ sound unit_heap c /\ c_update 0 unit_heap c = Ret tt c1 /\ csteps c1 c2 /\
  built c2 /\ sound unit_heap c2 /\ c_update 0 unit_heap c2 = Ret tt c3.
Proof.
  intros I G. destruct (stale_tables (G := G) 0 0) as (c & c1 & c2 & c3 & s & A & B & C & D & E & F & _). exists c, c1, c2, c3.
  split; [exact A|]. split; [exact B|]. split; [exact C|].
  assert (S : cstep c1 c2) by (eapply cs_sys, ss_add; exact D).
  split; [eapply css_step; [apply css_refl | exact S]|]. split; [|auto].
  eapply built_step; [|exact S]. eapply built_step; [apply ClusterOps.never_updated_built; exact A | eapply cs_sys, ss_update; exact C].
Qed.

(** ** C25 *)
(** Full statement: the time constant is the mean of 1/(rate off) under
    weights that sum to 1.  Proved: the time constant times some S in (0,1] is
    that mean; so the time constant is at least the smallest 1/(rate off).
    The weights are occupation times the probability to leave the cluster from
    the member, S is the probability to hop inside.  Missing: S = 1, which fails (next theorem). *)
Theorem C25_time_constant_partial :
  forall (I : Impl) (G : @Rng XR) (fuel : nat) (h : heap) (c c' : cluster),
    built c -> sound h c -> c_update fuel h c = Ret tt c' ->
    exists (P : Z -> R) (t S : R) (wt : Z -> R), (forall k, In k (c_siteIds c) -> c_probOn k c' = Ret (Fin (P k)) c') /\
      c_getTimeConstant c' = Fin t /\ 0 < S <= 1 /\
      S = Rsum (fun k => P k * (minner h (c_sites c) k * mtau h (c_sites c) k)) (c_siteIds c) /\
      (forall k, wt k = P k * moff h (c_sites c) k * mtau h (c_sites c) k /
         Rsum (fun j => P j * moff h (c_sites c) j * mtau h (c_sites c) j) (c_siteIds c)) /\
      (forall k, In k (c_siteIds c) -> 0 <= wt k) /\ Rsum wt (c_siteIds c) = 1 /\
      (forall k, In k (c_siteIds c) -> 0 < wt k <-> 0 < moff h (c_sites c) k) /\
      t * S = Rsum (fun k => if Rltb 0 (moff h (c_sites c) k) then / moff h (c_sites c) k * wt k else 0) (c_siteIds c) /\
      (forall m, (forall k, In k (c_siteIds c) -> 0 < moff h (c_sites c) k -> m <= / moff h (c_sites c) k) -> m <= t * S) /\
      (forall m, (forall k, In k (c_siteIds c) -> 0 < moff h (c_sites c) k -> / moff h (c_sites c) k <= m) -> t * S <= m).
Proof. exact @time_constant. Qed.
Print Assumptions C25_time_constant_partial.
(** Both members leave with rate 1, but the time constant is 2. *)
Theorem C25_time_constant_refuted :
  forall (I : Impl) (G : @Rng XR) (i clock : Z),
  exists c c' : @cluster XR G,
    built c /\ sound unit_heap c /\ c_update 0 unit_heap c = Ret tt c' /\
    (forall k, In k (c_siteIds c) -> moff unit_heap (c_sites c) k = 1) /\ c_getTimeConstant c' = Fin 2.
Proof.
  exact (fun I G i clock => match tau_doubled i clock with
    | ex_intro _ c (ex_intro _ c' (conj A (conj B (conj _ (conj _ (conj E (conj _ (conj _ (conj _ (conj F H))))))))) ) =>
        ex_intro _ c (ex_intro _ c' (conj (ClusterOps.never_updated_built c A) (conj B (conj E (conj F H))))) end).
Qed.
Print Assumptions C25_time_constant_refuted.

(** ** C26 *)
(** A walker enters with draw [u]: its escape time is T = - ln u * tau.  At
    any point of its stay, whatever the others do, the dwell times so far are
    the increments, their sum is below T, the next dwell time is the smaller
    of the increment and the time left, and it leaves exactly when that uses
    up T. *)
Theorem C26_next_answer :
  forall (I : Impl) (G : @Rng XR) (w : Z) (c : cluster) (u : R) (e : eng) (tau : R),
    neat c -> entering w c -> edraw (c_rng c) = (Fin u, e) -> 0 < u < 1 -> c_tau c = Fin tau -> 0 < tau ->
    forall (tr : list (xr * xr)) (c1 : cluster) (d : R),
      staying w c tr c1 -> (forall x, In x tr -> exists d, fst x = Fin d /\ 0 < d) ->
      c_getTimeIncrement c1 = Fin d -> 0 < d -> c_getTimeConstant c1 <> Fin dbl_min ->
      (forall x, In x tr -> snd x = fst x) /\ used tr < - ln u * tau /\
      exists c2, c_getDwellTime w c1 = Ret (Fin (Rmin d (- ln u * tau - used tr))) c2 /\
        forall c3, others w c2 c3 ->
          (used tr + d < - ln u * tau -> c_pick w c3 = c_pickInternal c3) /\
          (- ln u * tau <= used tr + d -> c_pick w c3 = c_pickNeighbor w c3).
Proof. exact @stay_next. Qed.
Print Assumptions C26_next_answer.
(** A complete stay: the dwell times sum to T, each is positive and at most
    the increment, and with a constant increment d there are ceil(T/d). *)
Theorem C26_stay_adds_up :
  forall (I : Impl) (G : @Rng XR) (w : Z) (c : cluster) (u : R) (e : eng) (tau : R),
    neat c -> entering w c -> edraw (c_rng c) = (Fin u, e) -> 0 < u < 1 -> c_tau c = Fin tau -> 0 < tau ->
    forall (tr : list (xr * xr)) (c4 : cluster),
      stay w c tr c4 -> (forall x, In x tr -> exists d, fst x = Fin d /\ 0 < d) ->
      Rsum (fun x => realv (snd x)) tr = - ln u * tau /\ entering w c4 /\
      (forall x, In x tr -> exists d t, x = (Fin d, Fin t) /\ 0 < t <= d) /\
      (forall d, (forall x, In x tr -> fst x = Fin d) ->
         (INR (length tr) - 1) * d < - ln u * tau <= INR (length tr) * d).
Proof. exact @stay_total. Qed.
Print Assumptions C26_stay_adds_up.
(** every cluster a program can own is [neat] *)
Theorem C26_clusters_neat : forall (I : Impl) (N : Num) (G : Rng) (c : cluster), built c -> neat c.
Proof. exact @built_neat. Qed.
Print Assumptions C26_clusters_neat.
Example C26_nonvacuous : forall (I : Impl), exists (c c4 : @cluster XR (const_rng (Fin (99 / 100)))) tr,
  built c /\ entering 7 c /\ edraw (c_rng c) = (Fin (99 / 100), tt) /\ c_getTimeConstant c = Fin 2 /\
  stay 7 c tr c4 /\ tr <> [] /\ (forall x, In x tr -> exists d, fst x = Fin d /\ 0 < d).
Proof. intros I. apply (quick_stay (G := const_rng (Fin (99 / 100))) 0 0 0 7 (99 / 100) tt); [reflexivity | lra]. Qed.

(** ** C27 *)
(** Full statement: after removeWalker the same id gets a fresh escape time.
    Proved: after leaving through an exit it does, whatever happens in
    between; so it does after a complete stay (C26_stay_adds_up).  Missing:
    removal from inside, where it does not (next theorems). *)
Theorem C27_left_walker_partial :
  forall (I : Impl) (N : Num) (G : Rng) (w : Z) (c : cluster) (k : Z) (c1 c2 : cluster) (d : num) (c3 : cluster),
    built c -> c_pickNeighbor w c = Ret k c1 -> others w c1 c2 -> c_getDwellTime w c2 = Ret d c3 ->
    d = c_getTimeIncrement c2 \/ d = dwell_of (fst (edraw (c_rng c2))) (c_getTimeConstant c2).
Proof. exact @left_forgotten. Qed.
Print Assumptions C27_left_walker_partial.
(** A removed walker is always remembered: whatever happens in between, the
    next dwell time for its id does not depend on the generator. *)
Theorem C27_removed_walker_remembered :
  forall (I : Impl) (N : Num) (G : Rng) (w k clock : Z) (c0 : cluster) (d : num) (c c1 c2 c3 : cluster) (e : eng) (d' : num) (c4 : cluster),
    built c0 -> c_getDwellTime w c0 = Ret d c -> others w c c1 ->
    c_removeWalker clock w k c1 = Ret tt c2 -> others w c2 c3 ->
    c_getDwellTime w c3 = Ret d' c4 -> c_getDwellTime w (c_with_rng e c3) = Ret d' (c_with_rng e c4).
Proof. exact @removed_remembered. Qed.
Print Assumptions C27_removed_walker_remembered.
(** Such a history: walker [w] enters, is removed, and comes back; every next
    draw gives the same dwell time. *)
Theorem C27_removed_walker_refuted :
  forall (I : Impl) (G : @Rng XR) (i clock seed w : Z) (u : R) (e : @eng XR G),
    edraw (eseed seed) = (Fin u, e) -> 0 < u <= 1 / 2 ->
    exists (c c1 c2 c3 : @cluster XR G) (d d2 : xr), built c /\ entering w c /\
      c_getDwellTime w c = Ret d c1 /\ c_removeWalker clock w 1 c1 = Ret tt c2 /\ c_getDwellTime w c2 = Ret d2 c3 /\
      forall e', c_getDwellTime w (c_with_rng e' c2) = Ret d2 (c_with_rng e' c3).
Proof. exact @comes_back. Qed.
Print Assumptions C27_removed_walker_refuted.
Example C27_nonvacuous : @edraw XR half_rng (@eseed XR half_rng 0) = (Fin (1 / 2), Fin (1 / 2)) /\ 0 < 1 / 2 <= 1 / 2.
Proof. split; [reflexivity | lra]. Qed.

(** ** C28 *)
(** Full statement: the update succeeds on every cluster of two or more sites
    with mutual rates and an exit.  [firm]: two or more sites with positive
    finite rates, mutual internal rates, an exit and at least one internal
    rate.  Proved in exact arithmetic under these conditions and two more: no
    rate off the cluster reaches 2^1022, and the recorded visits can be read
    (their conversion to int does not overflow).  With the tolerance method the
    tolerance must be positive. *)
Theorem C28_update_succeeds_partial :
  forall (I : Impl) (G : @Rng XR) (h : heap) (c : cluster),
    built c -> firm h c -> rates_moderate h c ->
    (forall k, In k (ukeys (c_svisits c)) -> exists z c2, c_getVisits k c = Ret z c2) ->
    (c_method c = ByTolerance -> exists tol, c_tol c = Fin tol /\ 0 < tol) ->
    exists n, forall fuel, (n < fuel)%nat -> exists c', c_update fuel h c = Ret tt c'.
Proof. exact @update_returns. Qed.
Print Assumptions C28_update_succeeds_partial.
Example C28_nonvacuous : forall (I : Impl) (G : @Rng XR), exists c : @cluster XR G,
  built c /\ firm unit_heap c /\ rates_moderate unit_heap c /\
  (forall k, In k (ukeys (c_svisits c)) -> exists z c2, c_getVisits k c = Ret z c2) /\
  c_method c = ByTolerance /\ c_tol c = Fin (1 / 100).
Proof.
  intros I G. destruct (pair_example I G) as (c & c' & A & B & C & J & T & _). exists (c_with_method ByTolerance c).
  assert (A' : never_updated (c_with_method ByTolerance c)) by (eapply (nu_method ByTolerance); [exact A | reflexivity]).
  split; [apply ClusterOps.never_updated_built; exact A'|]. split; [apply sound_firm; destruct B; constructor; assumption|]. split; [exact C|].
  split; [|split; [reflexivity | exact T]].
  destruct (ClusterOps.never_updated_empty _ A') as (_ & _ & _ & _ & -> & _). intros k [].
Qed.

(** Two sites without rates between them (1 with a rate to 3, 2 with a rate to
    4): every internal rate has a reverse rate and there are exits, but the
    solver divides 0 by 0 in doubles and hands NaN to std::sort. *)
Local Definition g0 : @Rng fn := const_rng (N := fn) (0.5)%float.
Local Definition ones : @heap fn := fun _ => 1%float.
Local Definition lone (i : Z) (n : Z) : @site fn g0 :=
  match (s_setId i ;; @s_setRates impl0 fn g0 ones [(n, 0%Z)]) (@site_new fn g0 0) with Ret _ s => s | _ => @site_new fn g0 0 end.
Local Definition lonely : @cluster fn g0 :=
  match @c_addSites impl0 fn g0 [lone 1 3; lone 2 4] (@cluster_new fn g0 0 0) with Ret _ c => c | _ => @cluster_new fn g0 0 0 end.
Theorem C28_unconnected_refuted :
  exists (I : Impl) (N : Num) (G : Rng) (h : heap) (c : cluster),
    built c /\ (2 <= length (c_sites c))%nat /\ mutual (c_sites c) /\ has_exit (c_sites c) /\
    c_update 0 h c = Halt Undefined.
Proof.
  exists impl0, fn, g0, ones, lonely. split; [|split; [|split; [|split]]].
  - refine (@built_step impl0 fn g0 _ _ (built_new 0 0) (cs_sys None _ _ (ss_add [lone 1 3; lone 2 4] _ _ _))). reflexivity.
  - exact (le_n 2).
  - intros i k (s & Hs & Hk & Hm). simpl in Hs. exfalso.
    destruct Hs as [E|[E|[]]]; injection E as <- <-; simpl in Hk, Hm; intuition lia.
  - exists 1%Z, (snd (nth 0 (c_sites lonely) (0%Z, lone 1 3))), 3%Z. split; [left; reflexivity|]. split; [left; reflexivity|].
    simpl. intuition lia.
  - reflexivity.
Qed.
Print Assumptions C28_unconnected_refuted.

(** ** C29 *)
(** Per site, over every history with any interleaving: the answer is the
    last thing that happened to the site. *)
Theorem C29_site_occupancy_partial :
  forall (I : Impl) (N : Num) (G : Rng) (k : Z) (c : cluster) (x : bool) (c' : cluster) (y : bool),
    marks k c x c' y -> neat c ->
    (exists s, ulookup k (c_sites c) = Some s /\ (s_occ s <= 1)%Z) -> c_isOccupied c k = Ok x ->
    neat c' /\ (exists s, ulookup k (c_sites c') = Some s /\ (s_occ s <= 1)%Z) /\ c_isOccupied c' k = Ok y.
Proof. exact @site_marks. Qed.
Print Assumptions C29_site_occupancy_partial.
(** isOccupied() without a site never notices an occupied member. *)
Theorem C29_cluster_occupancy_unseen :
  forall (I : Impl) (N : Num) (G : Rng) (k : Z) (c c' : cluster),
    c_isOccupied0 c = false -> NoDup (c_siteIds c) -> c_occupy k c = Ret tt c' ->
    c_isOccupied c' k = Ok true /\ c_isOccupied0 c' = false.
Proof. exact @occupied_unseen. Qed.
Print Assumptions C29_cluster_occupancy_unseen.
Theorem C29_cluster_occupancy_refuted :
  forall (I : Impl) (G : @Rng XR) (i clock : Z),
  exists c c' : @cluster XR G,
    built c /\ (exists s, ulookup 1%Z (c_sites c) = Some s /\ (s_occ s <= 1)%Z) /\ c_isOccupied c 1 = Ok false /\
    c_occupy 1 c = Ret tt c' /\ c_isOccupied c' 1 = Ok true /\ c_isOccupied0 c' = false.
Proof. exact @occupied_hidden. Qed.
Print Assumptions C29_cluster_occupancy_refuted.
Example C29_nonvacuous : forall (I : Impl) (G : @Rng XR), exists c c' : @cluster XR G,
  marks 1 c false c' true /\ neat c /\ (exists s, ulookup 1%Z (c_sites c) = Some s /\ (s_occ s <= 1)%Z) /\ c_isOccupied c 1 = Ok false.
Proof.
  intros I G. destruct (occupied_hidden (G := G) 0 0) as (c & c' & B & S & O & E & _). exists c, c'.
  split; [eapply mk_put; [apply mk_refl | exact E]|]. split; [apply built_neat; exact B|]. auto.
Qed.

(** ** C54 *)
(** [relaxed n] is the uniform distribution after n relaxation steps (mean of
    the old distribution and the normalised inflow from the members); [change]
    is the Euclidean length of a step.  The three convergence methods stop
    after iterations, iterations * size, and the first step that is not
    longer than the tolerance. *)
Theorem C54_solver_result :
  forall (I : Impl) (G : @Rng XR) (fuel : nat) (h : heap) (c c' : cluster),
    built c -> members_ok h (c_sites c) -> mutual (c_sites c) -> has_link (c_sites c) -> c_sites c <> [] ->
    c_update fuel h c = Ret tt c' ->
    exists n, (forall k, In k (c_siteIds c) -> c_probOn k c' = Ret (Fin (relaxed h (c_sites c) n k)) c') /\
      match c_method c with
      | PerCluster => n = Z.to_nat (c_iters c)
      | PerSite => n = Z.to_nat (c_iters c * Z.of_nat (length (c_sites c)))
      | ByTolerance => forall t, c_tol c = Fin t -> 0 < t ->
          exists m, n = S m /\ change h (c_sites c) m <= t /\ forall j, (j < m)%nat -> t < change h (c_sites c) j
      end.
Proof. exact @solver_result. Qed.
Print Assumptions C54_solver_result.
(** The same in terms of the calls that choose the settings, made in the order
    in which a program makes them before the update. *)
Theorem C54_settings_are_followed :
  forall (I : Impl) (G : @Rng XR) (fuel : nat) (h : heap) (c c' : cluster) (iterations : Z) (t : R),
    built c -> members_ok h (c_sites c) -> mutual (c_sites c) -> has_link (c_sites c) -> c_sites c <> [] ->
    let reports n := forall k, In k (c_siteIds c) -> c_probOn k c' = Ret (Fin (relaxed h (c_sites c) n k)) c' in
    ((c_setMethod PerCluster ;; c_setIterations iterations ;; c_update fuel h) c = Ret tt c' -> reports (Z.to_nat iterations)) /\
    ((c_setMethod PerSite ;; c_setIterations iterations ;; c_update fuel h) c = Ret tt c' ->
       reports (Z.to_nat (iterations * Z.of_nat (length (c_sites c))))) /\
    (0 < t -> (c_setMethod ByTolerance ;; c_setTolerance (Fin t : @num XR) ;; c_update fuel h) c = Ret tt c' ->
       exists m, reports (S m) /\ change h (c_sites c) m <= t /\ forall j, (j < m)%nat -> t < change h (c_sites c) j).
Proof.
  intros I G fuel h c c' n t B Mo Mu Hl Hs reports. split; [|split].
  - intros E. unfold bind at 1, c_setMethod, modify in E. apply bind_ret_inv in E. destruct E as ([] & c2 & E2 & E).
    assert (E2' := E2). unfold c_setIterations, cassert in E2. destruct (0 <? n)%Z; [|discriminate]. inversion E2; subst c2. clear E2.
    assert (B2 : built (c_with_iters n (c_with_method PerCluster c))).
    { eapply built_step; [|eapply cs_sys, ss_iters; exact E2']. eapply built_step; [exact B|eapply cs_sys, (ss_method PerCluster); reflexivity]. }
    destruct (solver_result fuel h _ c' B2 Mo Mu Hl Hs E) as (m & R1 & R2). cbn in R2. subst m. exact R1.
  - intros E. unfold bind at 1, c_setMethod, modify in E. apply bind_ret_inv in E. destruct E as ([] & c2 & E2 & E).
    assert (E2' := E2). unfold c_setIterations, cassert in E2. destruct (0 <? n)%Z; [|discriminate]. inversion E2; subst c2. clear E2.
    assert (B2 : built (c_with_iters n (c_with_method PerSite c))).
    { eapply built_step; [|eapply cs_sys, ss_iters; exact E2']. eapply built_step; [exact B|eapply cs_sys, (ss_method PerSite); reflexivity]. }
    destruct (solver_result fuel h _ c' B2 Mo Mu Hl Hs E) as (m & R1 & R2). cbn in R2. subst m. exact R1.
  - intros Ht E. unfold bind at 1, c_setMethod, modify in E. apply bind_ret_inv in E. destruct E as ([] & c2 & E2 & E).
    assert (E2' := E2). unfold c_setTolerance, cassert in E2. destruct (nleb n0 (Fin t : @num XR)); [|discriminate]. inversion E2; subst c2. clear E2.
    assert (B2 : built (c_with_tol (Fin t : @num XR) (c_with_method ByTolerance c))).
    { eapply built_step; [|eapply cs_sys, ss_tol; exact E2']. eapply built_step; [exact B|eapply cs_sys, (ss_method ByTolerance); reflexivity]. }
    destruct (solver_result fuel h _ c' B2 Mo Mu Hl Hs E) as (m & R1 & R2). cbn in R2. destruct (R2 t eq_refl Ht) as (j & -> & R3 & R4).
    exists j. split; [exact R1|]. split; assumption.
Qed.
Print Assumptions C54_settings_are_followed.
(** The distributions that relaxation leaves alone are the quasi-stationary
    ones: the inflow is everywhere the same multiple of the occupation. *)
Theorem C54_fixed_points :
  forall (G : @Rng XR) (h : heap) (sites : umap site) (P : Z -> R),
    Rsum (in_flow h sites P) (ukeys sites) <> 0 ->
    (forall k, In k (ukeys sites) -> relax h sites P k = P k) <->
    (forall k, In k (ukeys sites) -> in_flow h sites P k = Rsum (in_flow h sites P) (ukeys sites) * P k).
Proof. exact @relax_fixed. Qed.
Print Assumptions C54_fixed_points.
(** hypotheses: C21_nonvacuous *)
