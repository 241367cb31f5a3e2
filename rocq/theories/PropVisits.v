(** * C38: coarse graining and visit counts

    A hop both moves a walker, which adds a visit, and may coarse grain.  To tell
    the two apart the hop is compared with the same hop of the same state in which
    only coarse graining was switched off. *)
From Coq Require Import ZArith List Bool Reals Lra Floats Lia.
From Verif Require Import Base BaseProofs Num F64 F64Whole OrdLaws WalkerModel SiteModel ClusterModel ClusterReal ClusterProofs ClusterCounts ContainerModel BasinModel BasinSpec CrossSpec
  SystemModel SystemSpec SystemShape SystemHop SystemCoarse SystemProofs SystemFacts SystemControl SystemInit SystemRuns ValidSpec SystemEffect SystemEquil
  ClusterLive SystemLive SystemTotal SystemChain SystemValid SystemVisits PropSystem PropControl PropValid.
Import ListNotations.
Open Scope Z_scope.

Lemma XR_whole : @whole_numbers XR.
Proof.
  split; [exact trunc_round|]. intros [r| | |] z; try discriminate. cbn [ntrunc XR xtrunc].
  destruct (in_int (Rtrunc r)) eqn:E; [|discriminate]. intros X. injection X as <-. exact E.
Qed.

(** ** C38 *)
(** Full statement: creating or merging clusters leaves the count of every site
    unchanged.  Proved: for every arithmetic in which ints survive the way through
    double and every reachable state, a hop gives every site whose count can be
    read afterwards the count it has without coarse graining.  Missing: that the
    count can be read, which is false (C38_left_behind_refuted). *)
Theorem C38_counts_agree_partial :
  forall (I : Impl) (N : Num) (G : Rng) (U : Ugly) (clk : Z -> Z) (g g' : world) (ws : list Z) (fuel : nat) (id p : Z),
    whole_numbers -> reach clk g ws -> In p ws -> sys_hop clk fuel id p g = Ret tt g' ->
    exists g0 g0', sys_setThreshold inf_iterations g = Ret tt g0 /\ sys_hop clk fuel id p g0 = Ret tt g0' /\
      forall k v v', visits g0' k v -> visits g' k v' -> v = v'.
Proof. intros I N G U clk g g' ws fuel id p W [tr R]. exact (hop_counts clk W tr fuel id p g g' ws R). Qed.
Print Assumptions C38_counts_agree_partial.
(** the arithmetics are real numbers and binary64 *)
Theorem C38_ints_survive : @whole_numbers XR /\ forall lnf, @whole_numbers (F64 lnf).
Proof. exact (conj XR_whole F64_whole). Qed.
Print Assumptions C38_ints_survive.
(** clusters {1, 2} and {3, 4} are merged; the count of each site was one *)
Example C38_nonvacuous :
  exists (g g' : @world fz rh) (ws : list Z),
    @whole_numbers fz /\ reachf g ws /\ In 10 ws /\ hopf 20%nat 0 10 g = Ret tt g' /\
    listedf g 0 1 /\ listedf g 2 3 /\ listedf g' 0 1 /\ listedf g' 0 3 /\
    @visits impl0 fz rh g' 1 1 /\ @visits impl0 fz rh g' 3 1.
Proof.
  exists (final1 calls2), (final1 calls3), (inside1 calls2). split; [apply F64_whole|]. split; [apply reach1; vm_compute; reflexivity|].
  split; [vm_compute; auto|]. split; [apply final_hop; vm_compute; reflexivity|]. split; [listing|]. split; [listing|]. split; [listing|]. split; [listing|].
  split; apply visits_by; vm_compute; reflexivity.
Qed.

Section Valid.
Context {I : Impl} {G : @Rng XR} {U : @Ugly XR}.
Variables (clk : Z -> Z) (lo hi : R).
Hypothesis (HD : open_draws G) (HB : rate_bounds lo hi).
Lemma valid_counts tr (g g0 g' g0' : @world XR G) ws fuel id p : valid_reach clk lo hi tr g ws -> few_hops lo hi (hops tr + 1) -> In p ws ->
  sys_hop clk fuel id p g = Ret tt g' -> sys_setThreshold inf_iterations g = Ret tt g0 -> sys_hop clk fuel id p g0 = Ret tt g0' ->
  forall k v, visits g0' k v <-> visits g' k v.
Proof.
  intros Va F Hp E E0 E0' k v. pose proof Va as (R & Fv & Fp). pose proof (valid_inv clk lo hi _ _ _ Va) as V.
  destruct (hop_counts clk XR_whole tr fuel id p g g' ws R Hp E) as (h0 & h0' & X1 & X2 & Ag).
  assert (h0 = g0) by congruence. subst h0. assert (h0' = g0') by congruence. subst h0'.
  assert (V0 : valid_reach clk lo hi (tr ++ [KThr inf_iterations]) g0 ws).
  { inversion E0; subst g0. split; [|split; apply Forall_app; split; try assumption; repeat constructor; cbn; unfold inf_iterations, INT_MAX; lia].
    destruct R as (m & h & count & tick & A & B & C). exists m, h, count, tick. split; [exact A|]. split; [exact B|]. eapply sts_step; [exact C|]. constructor. reflexivity. }
  pose proof (hop_reach clk lo hi _ _ _ _ _ _ _ Va Hp E) as V'. pose proof (hop_reach clk lo hi _ _ _ _ _ _ _ V0 Hp E0') as V0'.
  assert (F' : few_hops lo hi (hops (tr ++ [KHop p]))) by (rewrite hops_app; exact F).
  assert (F0' : few_hops lo hi (hops ((tr ++ [KThr inf_iterations]) ++ [KHop p]))).
  { rewrite !hops_app. change (hops [KThr inf_iterations]) with 0. rewrite Z.add_0_r. exact F. }
  assert (Kn : forall h t j x, valid_reach clk lo hi t h ws -> visits h j x -> In j (ukeys (g_sites h))).
  { intros h t j x _ [h' Eh]. apply SystemProofs.getVisits_inv in Eh. destruct Eh as (s & Es & _). eapply ulookup_In_key; exact Es. }
  assert (Ks : ukeys (g_sites g') = ukeys (g_sites g0')).
  { destruct (hop_off clk fuel id p g g' ws V Hp E) as (g1 & V1 & _ & Eo & d & Ea). inversion E0; subst g0. change (off g) with (g_with_thr inf_iterations (g_with_thrmin inf_iterations g)) in Eo.
    rewrite E0' in Eo. injection Eo as ->. destruct (attempt_step clk _ _ _ _ _ V1 Ea) as [_ Gr]. exact (r_keys _ _ Gr). }
  assert (Rd : forall h t j, valid_reach clk lo hi t h ws -> few_hops lo hi (hops t) -> In j (ukeys (g_sites h)) -> exists x, visits h j x).
  { intros h t j Vh Fh Hj. apply (valid_visits clk lo hi HD HB t h ws j Vh Fh). apply (known_site h ws j (valid_inv clk lo hi _ _ _ Vh)).
    apply ukeys_In in Hj. exact Hj. }
  split; intros Hv.
  - destruct (Rd _ _ k V' F') as [x Hx]; [rewrite Ks; apply (Kn _ _ _ _ V0' Hv)|]. rewrite (Ag k v x Hv Hx). exact Hx.
  - destruct (Rd _ _ k V0' F0') as [x Hx]; [rewrite <- Ks; apply (Kn _ _ _ _ V' Hv)|]. rewrite <- (Ag k x v Hx Hv). exact Hx.
Qed.
End Valid.
(** For valid programs (ValidSpec.v; a ratio of at least 1/2, mutual rates) in exact
    arithmetic nothing is missing: a hop leaves exactly the counts that it leaves
    with coarse graining switched off. *)
Theorem C38_valid_counts_partial :
  forall (I : Impl) (G : @Rng XR) (U : @Ugly XR) (clk : Z -> Z) (lo hi : R) (tr : list call) (g g0 g' g0' : world) (ws : list Z) (fuel : nat) (id p : Z),
    open_draws G -> rate_bounds lo hi -> valid_reach clk lo hi tr g ws -> few_hops lo hi (hops tr + 1) -> In p ws ->
    sys_hop clk fuel id p g = Ret tt g' -> sys_setThreshold inf_iterations g = Ret tt g0 -> sys_hop clk fuel id p g0 = Ret tt g0' ->
    forall k v, visits g0' k v <-> visits g' k v.
Proof. intros I G U clk lo hi tr g g0 g' g0' ws fuel id p HD HB. exact (valid_counts clk lo hi HD HB tr g g0 g' g0' ws fuel id p). Qed.
Print Assumptions C38_valid_counts_partial.
Example C38_valid_nonvacuous :
  exists (g g0 g' g0' : @world XR rng_c) (n : nat) (c : Z),
    open_draws rng_c /\ rate_bounds 1 101 /\ @valid_reach impl0 rng_c ugly_c clk_c 1 101 calls_c g [10] /\ few_hops 1 101 (hops calls_c + 1) /\
    @sys_hop impl0 XR rng_c ugly_c clk_c n 0 10 g = Ret tt g' /\ sys_setThreshold inf_iterations g = Ret tt g0 /\
    @sys_hop impl0 XR rng_c ugly_c clk_c n 0 10 g0 = Ret tt g0' /\
    @listed impl0 XR rng_c g' c 1 /\ @listed impl0 XR rng_c g' c 2.
Proof.
  destruct chain_c as (g & g' & n & c & V & _ & E & _ & L1 & L2).
  destruct (@hop_counts impl0 XR rng_c ugly_c clk_c XR_whole calls_c n 0 10 g g' [10] (proj1 V) (or_introl eq_refl) E) as (g0 & g0' & E0 & E0' & _).
  exists g, g0, g', g0', n, c. split; [exact fair_c|]. split; [exact bounds_c|]. split; [exact V|]. split; [apply few_c; cbn; lia|]. auto.
Qed.
(** With a performance ratio of 1/64 (the program of C35_left_behind_refuted) a hop
    that merges clusters makes the count of site 4 unreadable; without coarse
    graining the same hop leaves it one. *)
Theorem C38_left_behind_refuted :
  exists (g g' g0 g0' : @world fz rh),
    @reach_by impl0 fz rh uz cz (map call_of calls_left) g [10; 20] /\ @sys_hop impl0 fz rh uz cz 200 0 10 g = Ret tt g' /\
    sys_setThreshold inf_iterations g = Ret tt g0 /\ @sys_hop impl0 fz rh uz cz 200 0 10 g0 = Ret tt g0' /\
    @visits impl0 fz rh g0' 4 1 /\ exists g2, @sys_getVisits impl0 fz rh 4 g' = Thr InvalidArgument g2.
Proof.
  exists (final2 calls_left), (final2 (calls_left ++ [AHop 200 0 10])), (final2 (calls_left ++ [AThr inf_iterations])),
    (final2 ((calls_left ++ [AThr inf_iterations]) ++ [AHop 200 0 10])). split.
  - assert (R : @runs impl0 fz rh uz cz calls_left start2 = true) by (vm_compute; reflexivity).
    assert (E : @inside impl0 fz rh uz cz calls_left start2 = [10; 20]) by (vm_compute; reflexivity).
    rewrite <- E. apply (@runs_reach_by impl0 fz rh uz cz [(10, wz 1); (20, wz 5)] heap2 0 0); [repeat constructor; cbn; intuition lia|lia|exact R].
  - split; [apply final_hop; vm_compute; reflexivity|]. split; [apply (@final_thr impl0 fz rh uz cz); vm_compute; reflexivity|].
    split; [apply final_hop; vm_compute; reflexivity|]. split; [apply visits_by; vm_compute; reflexivity|].
    eexists. apply (thrown_by _ InvalidArgument (final2 calls_left)). vm_compute. reflexivity.
Qed.
Print Assumptions C38_left_behind_refuted.
