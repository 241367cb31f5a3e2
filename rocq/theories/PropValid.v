(** * C34, C35, C46, C48, C51, C55: valid programs

    Exact arithmetic; every rate map, number of walkers, schedule, stream of
    draws, clock, hash order and tie-breaking of the graph library. *)
From Coq Require Import ZArith List Bool Reals Lra Floats Permutation Lia.
From Verif Require Import Base BaseProofs Num F64 RSum WalkerModel SiteModel SiteSpec ClusterModel ContainerModel BasinModel BasinSpec CrossSpec
  SystemModel SystemSpec SystemShape SystemHop SystemCoarse SystemProofs SystemFacts SystemControl SystemInit SystemRuns ValidSpec SystemEffect SystemEquil SystemValid
  ClusterLive Fuel SystemLive SystemTotal SystemStart DueSpec SystemDue SystemChain PropSystem PropControl.
Import ListNotations.
Open Scope R_scope.

Section Valid.
Context {I : Impl} {G : @Rng XR} {U : @Ugly XR}.
Variables (clk : Z -> Z) (lo hi : R).
Hypothesis (HD : open_draws G) (HB : rate_bounds lo hi).

Lemma few_fits n : (0 <= n)%Z -> few_hops lo hi n -> fits (most_gain lo hi) n.
Proof. intros Hn [A B]. destruct HB as [[X Y] _]. split; [apply gain_nonneg; assumption|]. split; [exact Hn|exact A]. Qed.
Lemma few_less m n : (0 <= m <= n)%Z -> few_hops lo hi n -> few_hops lo hi m.
Proof.
  intros [A B] F. pose proof (few_fits n ltac:(lia) F) as F'. apply (fits_less _ m n ltac:(lia)) in F'. destruct F as [_ F]. split; [apply F'|lia].
Qed.
Lemma valid_living tr g ws : valid_reach clk lo hi tr g ws -> few_hops lo hi (hops tr) -> living lo hi (hops tr) g ws.
Proof.
  intros (R & Fv & Fp) F. destruct HB as [[X Y] Z]. pose proof (hops_nonneg tr).
  apply (living_reach clk lo hi X Z HD); try assumption; [apply few_fits; assumption|apply F].
Qed.
Lemma valid_inv tr g ws : valid_reach clk lo hi tr g ws -> inv g ws.
Proof. intros (R & _). apply (reach_inv clk). eexists; exact R. Qed.
Lemma valid_hop tr g ws id p : valid_reach clk lo hi tr g ws -> few_hops lo hi (hops tr + 1) -> In p ws ->
  exists g', exists n, forall f, (n <= f)%nat -> sys_hop clk f id p g = Ret tt g'.
Proof.
  intros (R & Fv & Fp) F Hp. destruct HB as [[X Y] Z]. pose proof (hops_nonneg tr).
  destruct (hop_runs clk lo hi X Z HD tr g ws id p R Fv Fp) as (g' & E & _); [apply few_fits; [lia|exact F]|destruct F; lia|exact Hp|eauto].
Qed.
Lemma hop_reach tr g ws f id p g' : valid_reach clk lo hi tr g ws -> In p ws -> sys_hop clk f id p g = Ret tt g' -> valid_reach clk lo hi (tr ++ [KHop p]) g' ws.
Proof.
  intros V Hp E. pose proof (valid_inv _ _ _ V) as W. destruct V as (R & Fv & Fp).
  assert (S : step clk g ws (KHop p) g' ws) by (eapply st_hop; eauto).
  destruct (step_settings clk _ _ _ _ _ W S) as ([X|X] & _); [discriminate|].
  split; [|rewrite X; split; apply Forall_app; split; try assumption; repeat constructor].
  destruct R as (m & h & count & tick & A & B & C). exists m, h, count, tick. split; [exact A|]. split; [exact B|]. eapply sts_step; eauto.
Qed.
Lemma valid_leave tr g ws id p : valid_reach clk lo hi tr g ws -> few_hops lo hi (hops tr) -> In p ws ->
  exists g', sys_removeWalker clk id p g = Ret tt g'.
Proof.
  intros V F Hp. pose proof (valid_living _ _ _ V F) as [A Rs Ai _ Nm _ _ _ _ _ _]. pose proof (valid_inv _ _ _ V) as W.
  destruct HB as [[X Y] Z]. destruct (Ai p Hp) as (w & Ew & _). destruct (v_on _ _ W p Hp) as (k & (w' & Ew' & <-) & Ps).
  assert (w' = w) by congruence. subst w'.
  destruct (leave_live clk lo hi X (gain_nonneg lo hi X Y) (hops tr) g id p w ws A Rs Ai Ew Ps (Nm _ Ps)) as (g' & E & _). eauto.
Qed.
Lemma valid_visits tr g ws k : valid_reach clk lo hi tr g ws -> few_hops lo hi (hops tr) -> knows g k -> exists v, visits g k v.
Proof.
  intros V F Hk. pose proof (valid_living _ _ _ V F) as [A Rs Ai _ Nm _ _ _ _ _ _]. pose proof (valid_inv _ _ _ V) as W.
  destruct HB as [[X Y] Z]. apply (known_site g ws k W) in Hk. destruct Hk as [s Es].
  destruct (visits_run clk lo hi (hops tr) g ws k W A Rs) as (v & g' & E & _); [apply few_fits; [apply hops_nonneg|exact F]|eapply ulookup_In_key; exact Es|].
  exists v, g'. exact E.
Qed.

(** rates and neighbours *)
Lemma touch_rate g k n : solid g -> touch g k n -> exists r, rate_between (g_heap g) (g_sites g) k n r.
Proof.
  intros So (s & Es & Hn). unfold s_neighIds, ukeys in Hn. apply in_map_iff in Hn. destruct Hn as ([n' a] & E & Ha). cbn [fst] in E. subst n'.
  apply ulookup_In in Es. destruct (proj2 (o_good _ So) k s Es) as [_ P]. destruct (P n a Ha) as (r & Er & _). exists r, s, a. auto.
Qed.
Lemma next_follow g ws k n : inv g ws -> solid g -> next_to g k n -> may_follow g k n.
Proof.
  intros V So. pose proof (h_ndc _ _ _ (v_shape _ _ V)) as N2. intros [X|(c & i & Hk & Hi & X)]; [left; apply touch_rate; assumption|right].
  exists c, i. rewrite !listed_holds by exact N2. split; [exact Hk|]. split; [exact Hi|]. destruct X as [X|X]; [left; exact X|right; apply touch_rate; assumption].
Qed.
Lemma valid_aim tr g ws p k n : valid_reach clk lo hi tr g ws -> few_hops lo hi (hops tr) -> In p ws -> walker_on g p k -> walker_to g p n -> may_follow g k n.
Proof.
  intros V F Hp (w & Ew & <-) (w' & Ew' & <-). assert (w' = w) by congruence. subst w'. pose proof (valid_living _ _ _ V F) as L.
  pose proof (i_aims _ _ _ _ _ L p Hp) as (w' & Ew'' & Nx & _). assert (w' = w) by congruence. subst w'.
  apply (next_follow g ws); [apply (valid_inv _ _ _ V)|apply (i_alive _ _ _ _ _ L)|exact Nx].
Qed.
Lemma valid_timed tr g ws p : valid_reach clk lo hi tr g ws -> few_hops lo hi (hops tr) -> In p ws ->
  exists w d, ulookup p (g_walkers g) = Some w /\ w_getDwellTime w = Ret (Fin d : @num XR) w /\ 0 < d.
Proof.
  intros V F Hp. pose proof (valid_living _ _ _ V F) as L. destruct (i_aims _ _ _ _ _ L p Hp) as (w & Ew & _ & d & Ed & Hd).
  exists w, d. split; [exact Ew|]. unfold w_getDwellTime, gets. rewrite Ed. auto.
Qed.
Lemma valid_move tr g ws f id p g' k k' : valid_reach clk lo hi tr g ws -> few_hops lo hi (hops tr) -> In p ws -> sys_hop clk f id p g = Ret tt g' ->
  walker_on g p k -> walker_on g' p k' -> k' = k \/ may_follow g k k'.
Proof.
  intros V F Hp E Hk Hk'. pose proof (valid_inv _ _ _ V) as W. destruct (hop_on clk _ _ _ _ _ E) as (src & dst & Hs & Hd).
  destruct (hop_facts clk _ _ _ src dst _ _ _ W Hp Hs Hd E) as (On & _).
  assert (src = k) by (destruct Hs as (? & ? & <-), Hk as (? & ? & <-); congruence). subst src.
  assert (X : k' = if here g ws dst then k else dst) by (destruct On as (? & ? & <-), Hk' as (? & ? & <-); congruence).
  destruct (here g ws dst); [left; exact X|right; subst k'; eapply valid_aim; eauto].
Qed.
Lemma valid_dwell tr g ws c : valid_reach clk lo hi tr g ws -> few_hops lo hi (hops tr) -> is_cluster g c ->
  (exists cl t, ulookup c (g_clusters g) = Some cl /\ c_getTimeConstant cl = Fin t /\ dbl_min < t) /\
  forall k w, listed g c k -> exists t g', f_getDwellTime k w g = Ret t g'.
Proof.
  intros V F Hc. pose proof (valid_living _ _ _ V F) as L. destruct HB as [[X Y] Z]. pose proof (valid_inv _ _ _ V) as W.
  pose proof (h_ndc _ _ _ (v_shape _ _ W)) as N2. pose proof (i_alive _ _ _ _ _ L) as A. split.
  - destruct (listed_two g ws c W Hc) as (i & _ & _ & Hi & _). rewrite listed_holds in Hi by exact N2. destruct Hi as (m & cl & Ec & _).
    destruct (a_cl _ _ _ _ A c cl Ec) as (_ & Lv). destruct (lv_tau _ _ _ _ _ Lv) as (t & Et & Ht). exists cl, t. auto.
  - intros k w Hk. rewrite listed_holds in Hk by exact N2. destruct Hk as (m & Hm). destruct (h_mem _ _ _ (v_shape _ _ W) c k m Hm) as (s & Es & _).
    destruct (dwell_live clk lo hi X HD (gain_nonneg lo hi X Y) (hops tr) g k w A (i_rests _ _ _ _ _ L)) as (t & g' & E & _); [eapply ulookup_In_key; exact Es|]. eauto.
Qed.
Lemma valid_merge tr g ws f id p g' c : valid_reach clk lo hi tr g ws -> few_hops lo hi (hops tr + 2) -> In p ws -> sys_hop clk f id p g = Ret tt g' ->
  is_cluster g c -> exists c', is_cluster g' c' /\
    (forall k, listed g c k -> listed g' c' k /\ cluster_of g' k c' /\ exists v, visits g' k v) /\
    (forall q jd, In q ws -> exists g'' n, forall f, (n <= f)%nat -> sys_hop clk f jd q g' = Ret tt g'').
Proof.
  intros V F Hp E Hc. pose proof (valid_inv _ _ _ V) as W. pose proof (hops_nonneg tr) as H0.
  pose proof (hop_reach _ _ _ _ _ _ _ V Hp E) as V'. pose proof (valid_inv _ _ _ V') as W'.
  assert (Eh : hops (tr ++ [KHop p]) = (hops tr + 1)%Z) by (rewrite hops_app; reflexivity).
  assert (F1 : few_hops lo hi (hops (tr ++ [KHop p]))) by (rewrite Eh; apply (few_less _ (hops tr + 2)); [lia|exact F]).
  destruct (listed_two g ws c W Hc) as (i & _ & _ & Hi & _).
  destruct (stay_together clk g g' ws ws [KHop p] c i i W) as (c' & Hi' & _); [eapply (sts_step clk g ws []); [constructor|eapply st_hop; eauto]|exact Hi|exact Hi|].
  assert (All : forall k, listed g c k -> listed g' c' k).
  { intros k Hk. destruct (stay_together clk g g' ws ws [KHop p] c i k W) as (c2 & Hi2 & Hk2); [eapply (sts_step clk g ws []); [constructor|eapply st_hop; eauto]|exact Hi|exact Hk|].
    assert (c2 = c') by (apply (listed_once g' ws i c2 c' W'); assumption). subst. exact Hk2. }
  assert (Nc : c' <> unassignedId).
  { pose proof (h_ndc _ _ _ (v_shape _ _ W')) as N2. rewrite listed_holds in Hi' by exact N2. apply holds_known in Hi'.
    pose proof (small_ids g' ws c' W' Hi'). unfold unassignedId, INT_MIN. lia. }
  exists c'. split; [destruct Hi' as (l & El & _); exists l; exact El|]. split.
  - intros k Hk. apply All in Hk. split; [exact Hk|]. pose proof V' as (R' & Fv' & _).
    assert (Cl : cluster_of g' k c') by (apply (valid_label clk _ _ _ R' Fv' k c' Nc); exact Hk). split; [exact Cl|].
    eapply valid_visits; [exact V'|exact F1|]. exists c'; exact Cl.
  - intros q jd Hq. apply (valid_hop _ _ _ jd q V'); [|exact Hq]. rewrite Eh. replace (hops tr + 1 + 1)%Z with (hops tr + 2)%Z by lia. exact F.
Qed.
End Valid.

(** ** The example: the chain 3 - 1 - 2 - 4 of SystemChain.v, before and after its
    first hop, which puts sites 1 and 2 into a cluster *)
Lemma bounds_c : rate_bounds 1 101.
Proof. split; [lra|exact small_c]. Qed.
Lemma few_c n : (n <= 10)%Z -> few_hops 1 101 n.
Proof. intros Hn. split; [|lia]. apply IZR_le in Hn. replace (101 / (2 * (1 * 1)) + 1) with (103 / 2) by field. lra. Qed.
Notation reach_c := (@valid_reach impl0 rng_c ugly_c clk_c 1 101).
Notation listed_c := (@listed impl0 XR rng_c).
Notation hop_c := (@sys_hop impl0 XR rng_c ugly_c clk_c).
Lemma chain_valid h : h = heap_c -> Forall (valid_call h) calls_c /\ Forall (paced_call h 1 101) calls_c.
Proof.
  intros ->. split.
  - constructor; [exists 1; split; [reflexivity|lra]|]. constructor; [exists 1; reflexivity|]. constructor; [exact Logic.I|].
    constructor; [exact mutual_c|]. constructor; [exact Logic.I|constructor].
  - constructor; [exact Logic.I|]. constructor; [exact Logic.I|]. constructor; [cbn; lia|]. constructor; [exact paced_c|]. constructor; [exact Logic.I|constructor].
Qed.
Lemma chain_c : exists (g g' : @world XR rng_c) (n : nat) (c : Z),
  reach_c calls_c g [10%Z] /\ walker_to g 10 1 /\ hop_c n 0 10 g = Ret tt g' /\ reach_c (calls_c ++ [KHop 10]) g' [10%Z] /\
  listed_c g' c 1 /\ listed_c g' c 2.
Proof.
  destruct cluster_c as (g & g' & n & c & R & Eh & To & E & L1 & L2 & _). exists g, g', n, c.
  assert (V : reach_c calls_c g [10%Z]) by (split; [exact R|apply chain_valid, Eh]).
  split; [exact V|]. split; [exact To|]. split; [apply E; lia|]. split; [|auto].
  apply (hop_reach clk_c 1 101 calls_c g [10%Z] n 0 10 g' V (or_introl eq_refl)). apply E. lia.
Qed.

(** ** C48 *)
(** Full statement: with mutual positive rates that are not changed, distinct
    start sites, draws in (0,1), a ratio of at least 1/2 and a bounded number of
    hops, every hop and removal returns.  Proved: so do all other calls, if
    moreover no site has a rate to itself (next theorem), no site has the
    reserved id and the minimum threshold is not negative.  Missing: nothing
    else; the number of hops must be below a bound that depends on the rates,
    as the visit counters are ints. *)
Theorem C48_hop_returns_partial :
  forall (I : Impl) (G : @Rng XR) (U : @Ugly XR) (clk : Z -> Z) (lo hi : R) (tr : list call) (g : world) (ws : list Z) (id p : Z),
    open_draws G -> rate_bounds lo hi -> valid_reach clk lo hi tr g ws -> few_hops lo hi (hops tr + 1) -> In p ws ->
    exists g' n, forall fuel, (n <= fuel)%nat -> sys_hop clk fuel id p g = Ret tt g'.
Proof. intros I G U clk lo hi tr g ws id p HD HB. exact (valid_hop clk lo hi HD HB tr g ws id p). Qed.
Print Assumptions C48_hop_returns_partial.
Theorem C48_removal_returns_partial :
  forall (I : Impl) (G : @Rng XR) (U : @Ugly XR) (clk : Z -> Z) (lo hi : R) (tr : list call) (g : world) (ws : list Z) (id p : Z),
    open_draws G -> rate_bounds lo hi -> valid_reach clk lo hi tr g ws -> few_hops lo hi (hops tr) -> In p ws ->
    exists g', sys_removeWalker clk id p g = Ret tt g'.
Proof. intros I G U clk lo hi tr g ws id p HD HB. exact (valid_leave clk lo hi HD HB tr g ws id p). Qed.
Print Assumptions C48_removal_returns_partial.
Theorem C48_visits_return_partial :
  forall (I : Impl) (G : @Rng XR) (U : @Ugly XR) (clk : Z -> Z) (lo hi : R) (tr : list call) (g : world) (ws : list Z) (k : Z),
    open_draws G -> rate_bounds lo hi -> valid_reach clk lo hi tr g ws -> few_hops lo hi (hops tr) -> knows g k ->
    exists v, visits g k v.
Proof. intros I G U clk lo hi tr g ws k HD HB. exact (valid_visits clk lo hi HD HB tr g ws k). Qed.
Print Assumptions C48_visits_return_partial.
(** A whole simulation, from the constructor on: settings, initializeSystem,
    initializeWalkers on distinct sites, and any schedule of hops. *)
Theorem C48_simulation_runs_partial :
  forall (I : Impl) (G : @Rng XR) (U : @Ugly XR) (clk : Z -> Z) (lo hi : R)
         (walkers : umap walker) (h : heap) (count tick : Z) (rho T : R) (t : Z) (rates : umap (umap Z)) (l : list (Z * Z)) (schedule : list Z),
    open_draws G -> rate_bounds lo hi -> NoDup (ukeys walkers) -> (0 <= count)%Z ->
    1 / 2 <= rho -> 0 < T -> (0 <= t)%Z -> NoDup (ukeys rates) -> mutual_map h rates -> paced_call h lo hi (KInit rates) ->
    l <> [] -> NoDup (map snd l) -> (forall p, In p (map snd l) -> exists w, ulookup p walkers = Some w /\ In (w_cur w) (ukeys rates)) ->
    (forall p q w w', In p (map snd l) -> In q (map snd l) -> ulookup p walkers = Some w -> ulookup q walkers = Some w' -> w_cur w = w_cur w' -> p = q) ->
    (forall p, In p schedule -> In p (map snd l)) -> few_hops lo hi (Z.of_nat (length schedule)) ->
    exists g : @world XR G, steps clk (world_new walkers h count tick) []
      ([KPerf (Fin rho : @num XR); KRes (Fin T : @num XR); KThr t; KInit rates; KEnter l] ++ map KHop schedule) g (map snd l ++ []).
Proof.
  intros I G U clk lo hi m h count tick rho T t rates l ps HD HB NDm Hc Hr HT Ht NDr Mm Pc Nl NDl On Di Hs F.
  pose proof HB as [[X Y] Z].
  destruct (program_starts clk lo hi X Y Z HD m h count tick rho T t rates l NDm Hc Hr HT Ht NDr Mm Pc Nl NDl On Di) as (g & S & Eh & _).
  assert (R : reach_by clk (preface rho T t rates ++ [KEnter l]) g (map snd l ++ [])) by (exists m, h, count, tick; auto).
  destruct (hops_run clk lo hi X Z HD ps _ g _ R) as (g' & S' & _).
  - rewrite Eh. constructor; [exists rho; auto|]. constructor; [exists T; reflexivity|]. constructor; [exact Logic.I|].
    constructor; [exact Mm|]. constructor; [exact Logic.I|constructor].
  - rewrite Eh. constructor; [exact Logic.I|]. constructor; [exact Logic.I|]. constructor; [exact Ht|]. constructor; [exact Pc|]. constructor; [exact Logic.I|constructor].
  - change (hops (preface rho T t rates ++ [KEnter l])) with 0%Z. apply few_fits; [exact HB|lia|exact F].
  - change (hops (preface rho T t rates ++ [KEnter l])) with 0%Z. destruct F. lia.
  - intros p Hp. rewrite app_nil_r. auto.
  - exists g'. clear -S S'. rename S' into S2. revert S. change ([KPerf (Fin rho : @num XR); KRes (Fin T : @num XR); KThr t; KInit rates; KEnter l]) with (preface rho T t rates ++ [KEnter l]).
    generalize (preface rho T t rates ++ [KEnter l]) as tr0. intros tr0 S. induction S2; [rewrite app_nil_r; exact S|].
    rewrite app_assoc. eapply sts_step; eauto.
Qed.
Print Assumptions C48_simulation_runs_partial.
(** the chain; a schedule of ten hops *)
Example C48_nonvacuous :
  (exists g c, reach_c (calls_c ++ [KHop 10]) g [10%Z] /\ open_draws rng_c /\ rate_bounds 1 101 /\
    few_hops 1 101 (hops (calls_c ++ [KHop 10]) + 1) /\ In 10%Z [10%Z] /\ listed_c g c 1 /\ @knows XR rng_c g 1%Z) /\
  mutual_map heap_c rates_c /\ paced_call heap_c 1 101 (KInit rates_c) /\ few_hops 1 101 (Z.of_nat (length (repeat 10%Z 10))).
Proof.
  destruct chain_c as (g & g' & n & c & _ & _ & _ & V & L1 & _). split; [|split; [exact mutual_c|split; [exact paced_c|apply few_c; cbn; lia]]].
  exists g', c. split; [exact V|]. split; [exact fair_c|]. split; [exact bounds_c|]. split; [apply few_c; cbn; lia|].
  split; [left; reflexivity|]. split; [exact L1|]. exists c. destruct V as (R & Fv & _).
  apply (valid_label clk_c _ _ _ R Fv); [|exact L1].
  assert (W : inv g' [10%Z]) by (apply (@reach_inv impl0 XR rng_c ugly_c clk_c); eexists; exact R).
  pose proof (h_ndc _ _ _ (v_shape _ _ W)) as N2. rewrite listed_holds in L1 by exact N2. apply holds_known in L1.
  pose proof (small_ids g' _ c W L1). unfold unassignedId, INT_MIN. lia.
Qed.
(** Rates may lead from a site to itself in the full statement.  Sites 1 and 2,
    rates 100 from 1 to 1 and 1 between 1 and 2: the hop to site 1 tries to make a
    cluster of one site and fails an assertion. *)
Definition halted {S A} (o : outcome S A) (h : halt) : bool :=
  match o, h with Halt AssertFailed, AssertFailed | Halt Undefined, Undefined => true | _, _ => false end.
Lemma halted_by {S A} (o : outcome S A) h : halted o h = true -> o = Halt h.
Proof. destruct o as [? ?|? ?|[]], h; try discriminate; reflexivity. Qed.
Definition self_rates : umap (umap Z) := [(1, [(1, 0); (2, 1)]); (2, [(1, 1)])]%Z.
Definition start_self : @world fz rh * list Z := (world_new [(10%Z, wz 2)] heap1 0 0, []).
Definition calls_self : list (@act fz) := [ARes (5%float : @num fz); AThr 0; AInit self_rates; AEnter [(0, 10)]]%Z.
Theorem C48_self_rate_refuted :
  exists (g : @world fz rh), @reach_by impl0 fz rh uz cz (map call_of calls_self) g [10%Z]
    /\ @sys_hop impl0 fz rh uz cz 20 0 10 g = Halt AssertFailed.
Proof.
  exists (@final impl0 fz rh uz cz calls_self start_self). split.
  - assert (R : @runs impl0 fz rh uz cz calls_self start_self = true) by (vm_compute; reflexivity).
    assert (E : @inside impl0 fz rh uz cz calls_self start_self = [10%Z]) by (vm_compute; reflexivity).
    rewrite <- E. apply (@runs_reach_by impl0 fz rh uz cz [(10%Z, wz 2)] heap1 0 0); [repeat constructor; cbn; tauto|lia|exact R].
  - apply halted_by. vm_compute. reflexivity.
Qed.
Print Assumptions C48_self_rate_refuted.

(** ** C51 *)
(** A hop changes clusters only if the walker's target lies in a set [B] that is
    left slowly enough and crossed quickly enough; then [B], and the clusters it
    meets, are one cluster. *)
Theorem C51_only_in_equilibrium :
  forall (I : Impl) (G : @Rng XR) (U : @Ugly XR) (clk : Z -> Z) (tr : list call) (g g' : world) (ws : list Z) (fuel : nat) (id p : Z) (rho : R),
    reach_by clk tr g ws -> In p ws -> good_sites (g_heap g) (g_sites g) ->
    ratio tr = Fin rho -> 0 <= rho -> (forall t, resolution tr = Some t -> exists T, t = Fin T) ->
    sys_hop clk fuel id p g = Ret tt g' ->
    (forall c k, listed g' c k <-> listed g c k) \/
    exists (T : R) (k : Z) (B : list Z) (L : R) (c : Z),
      resolution tr = Some (Fin T) /\ walker_to g p k /\ In k B /\ NoDup B /\
      crossing (g_heap g) (g_sites g) B L /\ 0 < leaving (g_heap g) (g_sites g) B /\
      2 * rho * L < 1 / leaving (g_heap g) (g_sites g) B /\ 2 * L < T /\
      (forall j, In j B -> listed g' c j) /\
      (forall x j, listed g' x j -> listed g x j \/ (x = c /\ (In j B \/ exists y i, In i B /\ listed g y i /\ listed g y j))).
Proof. intros I G U clk tr g g' ws fuel id p rho R Hp Hg Er H0 Ht E. exact (hop_balance clk tr g ws fuel id p g' rho R Hp Hg Er H0 Ht E). Qed.
Print Assumptions C51_only_in_equilibrium.
(** Conversely, when an attempt is due (C37), the basin around the target
    (C42) becomes part of one cluster if it satisfies the condition. *)
Theorem C51_whenever_in_equilibrium :
  forall (I : Impl) (G : @Rng XR) (U : @Ugly XR) (clk : Z -> Z) (tr : list call) (g g' : world) (ws : list Z) (fuel : nat) (id p k : Z) (ref rho T : R),
    reach_by clk tr g ws -> Forall (valid_call (g_heap g)) tr -> In p ws -> sys_hop clk fuel id p g = Ret tt g' ->
    walker_to g p k -> (g_thr g <= g_iter g)%Z -> g_thrmin g <> inf_iterations ->
    fastest_off_of g k ref -> ratio tr = Fin rho -> resolution tr = Some (Fin T) ->
    exists B, basin_is (g_heap g) (g_sites g) k ref 5 B /\
      forall L, crossing (g_heap g) (g_sites g) B L -> 0 < leaving (g_heap g) (g_sites g) B ->
        2 * rho * L < 1 / leaving (g_heap g) (g_sites g) B -> 2 * L < T ->
        exists c, forall j, In j B -> listed g' c j.
Proof.
  intros I G U clk tr g g' ws fuel id p k ref rho T R F Hp E Hw Hd Hm Ho Er Et.
  exact (hop_due clk tr g ws fuel id p g' k ref rho T R F Hp E Hw Hd Hm Ho Er Et).
Qed.
Print Assumptions C51_whenever_in_equilibrium.
(** with a minimum threshold of 0 every hop makes an attempt *)
Theorem C51_every_hop :
  forall (I : Impl) (G : @Rng XR) (U : @Ugly XR) (clk : Z -> Z) (tr : list call) (g : @world XR G) (ws : list Z),
    reach_by clk tr g ws -> min_thr tr = 0%Z -> (g_thr g <= g_iter g)%Z /\ g_thrmin g <> inf_iterations.
Proof. intros I G U clk tr g ws R. exact (zero_due clk tr g ws R). Qed.
Print Assumptions C51_every_hop.
(** the first hop of the chain meets all hypotheses, and it does make a cluster *)
Example C51_nonvacuous :
  exists (g g' : @world XR rng_c) (n : nat) (c : Z),
    reach_c calls_c g [10%Z] /\ hop_c n 0 10 g = Ret tt g' /\ walker_to g 10 1 /\ good_sites (g_heap g) (g_sites g) /\
    (g_thr g <= g_iter g)%Z /\ g_thrmin g <> inf_iterations /\ @fastest_off_of impl0 rng_c g 1 100 /\
    ratio (N := XR) calls_c = Fin 1 /\ resolution (N := XR) calls_c = Some (Fin 1 : @num XR) /\ min_thr (N := XR) calls_c = 0%Z /\
    listed_c g' c 1 /\ listed_c g' c 2 /\ ~ listed_c g c 1 /\
    forall B, basin_is (g_heap g) (g_sites g) 1 100 5 B -> pair_of B /\ crossing (g_heap g) (g_sites g) B (1 / 100) /\ leaving (g_heap g) (g_sites g) B = 2.
Proof.
  destruct cluster_c as (g & g' & n & c & R & Eh & To & E & L1 & L2 & Un & Off & D1 & D2 & Rc & Bs).
  assert (V : reach_c calls_c g [10%Z]) by (split; [exact R|apply chain_valid, Eh]).
  assert (W : inv g [10%Z]) by (apply (valid_inv clk_c 1 101 _ _ _ V)).
  assert (So : solid g) by (apply (valid_solid clk_c _ _ _ R), V).
  exists g, g', n, c. split; [exact V|]. split; [apply E; lia|]. split; [exact To|]. split; [apply So|].
  split; [exact D1|]. split; [exact D2|]. split; [exact Off|]. split; [reflexivity|]. split; [reflexivity|]. split; [reflexivity|].
  split; [exact L1|]. split; [exact L2|]. split; [|rewrite Eh; exact Bs].
  intros X. pose proof (h_ndc _ _ _ (v_shape _ _ W)) as N2. rewrite listed_holds in X by exact N2. destruct X as [m Hm].
  destruct (h_mem _ _ _ (v_shape _ _ W) c 1%Z m Hm) as (s & Es & Ns & _).
  destruct (proj1 (cluster_of_iff _ _ _) (proj2 (Un 1%Z) ltac:(lia))) as (s' & Es' & X). congruence.
Qed.

(** ** C34, for valid programs *)
Theorem C34_labels_of_valid_programs :
  forall (I : Impl) (G : @Rng XR) (U : @Ugly XR) (clk : Z -> Z) (tr : list call) (g : @world XR G) (ws : list Z),
    reach_by clk tr g ws -> Forall (valid_call (g_heap g)) tr ->
    forall k c, c <> unassignedId -> (cluster_of g k c <-> listed g c k).
Proof. intros I G U clk tr g ws. exact (valid_label clk tr g ws). Qed.
Print Assumptions C34_labels_of_valid_programs.
Example C34_labels_nonvacuous :
  exists (g : @world XR rng_c) (c : Z), @reach_by impl0 XR rng_c ugly_c clk_c (calls_c ++ [KHop 10]) g [10%Z] /\
    Forall (valid_call (g_heap g)) (calls_c ++ [KHop 10%Z]) /\ listed_c g c 1 /\ c <> unassignedId.
Proof.
  destruct chain_c as (g & g' & n & c & _ & _ & _ & V & L1 & _). exists g', c. split; [apply V|]. split; [apply V|]. split; [exact L1|].
  pose proof (valid_inv clk_c 1 101 _ _ _ V) as W.
  pose proof (h_ndc _ _ _ (v_shape _ _ W)) as N2. rewrite listed_holds in L1 by exact N2. apply holds_known in L1.
  pose proof (small_ids g' _ c W L1). unfold unassignedId, INT_MIN. lia.
Qed.

(** ** C35 *)
(** Full statement: for every history.  Proved for valid programs (a performance
    ratio of at least 1/2, mutual rates): whatever a hop does, the sites of a
    cluster are afterwards together in one cluster, each says so, each can be
    queried, and every walker can hop on.  Missing: smaller ratios, for which it
    is false (C35_left_behind_refuted). *)
Theorem C35_none_left_behind_partial :
  forall (I : Impl) (G : @Rng XR) (U : @Ugly XR) (clk : Z -> Z) (lo hi : R) (tr : list call) (g g' : world) (ws : list Z) (fuel : nat) (id p c : Z),
    open_draws G -> rate_bounds lo hi -> valid_reach clk lo hi tr g ws -> few_hops lo hi (hops tr + 2) -> In p ws ->
    sys_hop clk fuel id p g = Ret tt g' -> is_cluster g c ->
    exists c', is_cluster g' c' /\
      (forall k, listed g c k -> listed g' c' k /\ cluster_of g' k c' /\ exists v, visits g' k v) /\
      (forall q jd, In q ws -> exists g'' n, forall f, (n <= f)%nat -> sys_hop clk f jd q g' = Ret tt g'').
Proof.
  intros I G U clk lo hi tr g g' ws fuel id p c HD HB. exact (valid_merge clk lo hi HD HB tr g ws fuel id p g' c).
Qed.
Print Assumptions C35_none_left_behind_partial.
Example C35_nonvacuous :
  exists (g g' : @world XR rng_c) (n : nat) (c : Z),
    open_draws rng_c /\ rate_bounds 1 101 /\ reach_c (calls_c ++ [KHop 10]) g [10%Z] /\ few_hops 1 101 (hops (calls_c ++ [KHop 10%Z]) + 2) /\
    hop_c n 0 10 g = Ret tt g' /\ listed_c g c 1 /\ listed_c g c 2.
Proof.
  destruct chain_c as (g0 & g & n0 & c & _ & _ & _ & V & L1 & L2).
  destruct (valid_hop clk_c 1 101 fair_c bounds_c _ g [10%Z] 0 10 V) as (g' & n & E); [apply few_c; cbn; lia|left; reflexivity|].
  exists g, g', n, c. split; [exact fair_c|]. split; [exact bounds_c|]. split; [exact V|]. split; [apply few_c; cbn; lia|].
  split; [apply E; lia|]. auto.
Qed.
(** With a performance ratio of 1/64 and otherwise valid calls: sites 3, 4 and 5
    are cluster 2; the next hop moves them to cluster 0, but 4 and 5 still say that
    they are in cluster 2, which is gone: asking for their visits throws, and the
    next hop from 4 to 5 uses the deleted cluster. *)
Definition calls_left : list (@act fz) :=
  [APerf (0.015625%float : @num fz); ARes (5%float : @num fz); AThr 0; AInit ladder; AEnter [(0, 10); (1, 20)]; AHop 200 0 10; AHop 200 1 20]%Z.
Theorem C35_left_behind_refuted :
  exists (g g' : @world fz rh),
    @reach_by impl0 fz rh uz cz (map call_of calls_left) g [10; 20]%Z /\ @sys_hop impl0 fz rh uz cz 200 0 10 g = Ret tt g' /\
    listedf g 2 3 /\ listedf g 2 4 /\ listedf g 2 5 /\
    listedf g' 0 4 /\ cluster_of g' 4 2 /\ ~ @is_cluster impl0 fz rh g' 2 /\
    (exists g2, @sys_getVisits impl0 fz rh 4 g' = Thr InvalidArgument g2) /\
    walker_on g' 20 4 /\ walker_to g' 20 5 /\ @sys_hop impl0 fz rh uz cz 200 1 20 g' = Halt Undefined.
Proof.
  exists (final2 calls_left), (final2 (calls_left ++ [AHop 200 0 10])). split.
  - assert (R : @runs impl0 fz rh uz cz calls_left start2 = true) by (vm_compute; reflexivity).
    assert (E : @inside impl0 fz rh uz cz calls_left start2 = [10; 20]%Z) by (vm_compute; reflexivity).
    rewrite <- E. apply (@runs_reach_by impl0 fz rh uz cz [(10, wz 1); (20, wz 5)]%Z heap2 0 0); [repeat constructor; cbn; intuition lia|lia|exact R].
  - split; [apply final_hop; vm_compute; reflexivity|]. split; [listing|]. split; [listing|]. split; [listing|].
    split; [listing|]. split; [labelled|]. split.
    { intros [l E]. assert (X : ulookup 2 (match @sys_getClusters impl0 fz rh (final2 (calls_left ++ [AHop 200 0 10])) with Ret m _ => m | _ => [] end) = None)
        by (vm_compute; reflexivity). congruence. }
    split; [eexists; apply (thrown_by _ InvalidArgument (final2 calls_left)); vm_compute; reflexivity|].
    split; [on|]. split; [goes|]. apply halted_by. vm_compute. reflexivity.
Qed.
Print Assumptions C35_left_behind_refuted.

(** ** C46 *)
(** Full statement: for every history with static positive rates.  Proved for
    valid programs.  Missing: smaller performance ratios, for which it is false. *)
Theorem C46_clusters_can_be_left_partial :
  forall (I : Impl) (G : @Rng XR) (U : @Ugly XR) (clk : Z -> Z) (tr : list call) (g : @world XR G) (ws : list Z) (c : Z),
    reach_by clk tr g ws -> Forall (valid_call (g_heap g)) tr -> is_cluster g c ->
    exists B L, NoDup B /\ (forall j, In j B <-> listed g c j) /\ (2 <= length B)%nat /\
      0 < leaving (g_heap g) (g_sites g) B /\ joined (g_heap g) (g_sites g) B /\
      crossing (g_heap g) (g_sites g) B L /\ L < 1 / leaving (g_heap g) (g_sites g) B.
Proof.
  intros I G U clk tr g ws c R F Hc. destruct (valid_cluster clk tr g ws R F c Hc) as (B & L & H1 & H2 & H3 & H4 & H5 & H6 & H7).
  exists B, L. auto 8.
Qed.
Print Assumptions C46_clusters_can_be_left_partial.
(** its time constant is a positive number, and dwell times are drawn *)
Theorem C46_dwell_times_partial :
  forall (I : Impl) (G : @Rng XR) (U : @Ugly XR) (clk : Z -> Z) (lo hi : R) (tr : list call) (g : world) (ws : list Z) (c : Z),
    open_draws G -> rate_bounds lo hi -> valid_reach clk lo hi tr g ws -> few_hops lo hi (hops tr) -> is_cluster g c ->
    (exists cl t, ulookup c (g_clusters g) = Some cl /\ c_getTimeConstant cl = Fin t /\ dbl_min < t) /\
    forall k w, listed g c k -> exists t g', f_getDwellTime k w g = Ret t g'.
Proof. intros I G U clk lo hi tr g ws c HD HB. exact (valid_dwell clk lo hi HD HB tr g ws c). Qed.
Print Assumptions C46_dwell_times_partial.
Example C46_nonvacuous :
  exists (g : @world XR rng_c) (c : Z),
    open_draws rng_c /\ rate_bounds 1 101 /\ reach_c (calls_c ++ [KHop 10]) g [10%Z] /\ few_hops 1 101 (hops (calls_c ++ [KHop 10%Z])) /\
    @is_cluster impl0 XR rng_c g c.
Proof.
  destruct chain_c as (g0 & g & n0 & c & _ & _ & _ & V & (l & L1 & _) & _). exists g, c.
  split; [exact fair_c|]. split; [exact bounds_c|]. split; [exact V|]. split; [apply few_c; cbn; lia|]. exists l. exact L1.
Qed.
(** With a performance ratio of 1/64 the third hop on five sites merges all of
    them: no rate leads out of the cluster, and an assertion fails. *)
Definition ladder5 : umap (umap Z) :=
  [(1, [(2, 0)]); (2, [(1, 0); (3, 3)]); (3, [(2, 2); (4, 1)]); (4, [(3, 0); (5, 0)]); (5, [(4, 0)])]%Z.
Definition calls_all : list (@act fz) :=
  [APerf (0.015625%float : @num fz); ARes (5%float : @num fz); AThr 0; AInit ladder5; AEnter [(0, 10); (1, 20)]; AHop 200 0 10; AHop 200 1 20]%Z.
Theorem C46_whole_system_refuted :
  exists (g : @world fz rh),
    @reach_by impl0 fz rh uz cz (map call_of calls_all) g [10; 20]%Z /\
    listedf g 0 1 /\ listedf g 0 2 /\ listedf g 2 3 /\ listedf g 2 4 /\ listedf g 2 5 /\ (forall k, knows g k -> (1 <= k <= 5)%Z) /\
    @sys_hop impl0 fz rh uz cz 200 0 10 g = Halt AssertFailed.
Proof.
  exists (final2 calls_all). split.
  - assert (R : @runs impl0 fz rh uz cz calls_all start2 = true) by (vm_compute; reflexivity).
    assert (E : @inside impl0 fz rh uz cz calls_all start2 = [10; 20]%Z) by (vm_compute; reflexivity).
    rewrite <- E. apply (@runs_reach_by impl0 fz rh uz cz [(10, wz 1); (20, wz 5)]%Z heap2 0 0); [repeat constructor; cbn; intuition lia|lia|exact R].
  - split; [listing|]. split; [listing|]. split; [listing|]. split; [listing|]. split; [listing|]. split.
    { intros k [c Hc]. apply cluster_of_iff in Hc. destruct Hc as (s & Es & _). apply ulookup_In_key in Es.
      assert (X : forallb (fun k => (1 <=? k) && (k <=? 5))%Z (ukeys (g_sites (final2 calls_all))) = true) by (vm_compute; reflexivity).
      rewrite forallb_forall in X. specialize (X k Es). lia. }
    apply halted_by. vm_compute. reflexivity.
Qed.
Print Assumptions C46_whole_system_refuted.

(** ** C55 *)
Theorem C55_walkers_aim_along_rates :
  forall (I : Impl) (G : @Rng XR) (U : @Ugly XR) (clk : Z -> Z) (lo hi : R) (tr : list call) (g : world) (ws : list Z) (p k n : Z),
    open_draws G -> rate_bounds lo hi -> valid_reach clk lo hi tr g ws -> few_hops lo hi (hops tr) -> In p ws ->
    walker_on g p k -> walker_to g p n -> may_follow g k n.
Proof. intros I G U clk lo hi tr g ws p k n HD HB. exact (valid_aim clk lo hi HD HB tr g ws p k n). Qed.
Print Assumptions C55_walkers_aim_along_rates.
Theorem C55_walkers_move_along_rates :
  forall (I : Impl) (G : @Rng XR) (U : @Ugly XR) (clk : Z -> Z) (lo hi : R) (tr : list call) (g g' : world) (ws : list Z) (fuel : nat) (id p k k' : Z),
    open_draws G -> rate_bounds lo hi -> valid_reach clk lo hi tr g ws -> few_hops lo hi (hops tr) -> In p ws ->
    sys_hop clk fuel id p g = Ret tt g' -> walker_on g p k -> walker_on g' p k' -> k' = k \/ may_follow g k k'.
Proof. intros I G U clk lo hi tr g g' ws fuel id p k k' HD HB. exact (valid_move clk lo hi HD HB tr g ws fuel id p g' k k'). Qed.
Print Assumptions C55_walkers_move_along_rates.
(** the hop of the chain that makes a cluster; site 3 has one neighbour *)
Example C55_nonvacuous :
  exists (g g' : @world XR rng_c) (n : nat) (k : Z),
    open_draws rng_c /\ rate_bounds 1 101 /\ reach_c calls_c g [10%Z] /\ few_hops 1 101 (hops (N := XR) calls_c) /\
    walker_on g 10 k /\ walker_to g 10 1 /\ hop_c n 0 10 g = Ret tt g'.
Proof.
  destruct chain_c as (g & g' & n & c & V & To & E & _). pose proof (valid_inv clk_c 1 101 _ _ _ V) as W.
  destruct (v_on _ _ W 10%Z (or_introl eq_refl)) as (k & On & _). exists g, g', n, k.
  split; [exact fair_c|]. split; [exact bounds_c|]. split; [exact V|]. split; [apply few_c; cbn; lia|]. auto.
Qed.

(** ** C60 *)
(** Every walker in the system has a positive and finite dwell time. *)
Theorem C60_positive_dwell_times :
  forall (I : Impl) (G : @Rng XR) (U : @Ugly XR) (clk : Z -> Z) (lo hi : R) (tr : list call) (g : world) (ws : list Z) (p : Z),
    open_draws G -> rate_bounds lo hi -> valid_reach clk lo hi tr g ws -> few_hops lo hi (hops tr) -> In p ws ->
    exists w d, ulookup p (g_walkers g) = Some w /\ w_getDwellTime w = Ret (Fin d : @num XR) w /\ 0 < d.
Proof. intros I G U clk lo hi tr g ws p HD HB. exact (valid_timed clk lo hi HD HB tr g ws p). Qed.
Print Assumptions C60_positive_dwell_times.
(** after the hop of the chain that makes a cluster *)
Example C60_nonvacuous :
  exists (g : @world XR rng_c) (c : Z),
    open_draws rng_c /\ rate_bounds 1 101 /\ reach_c (calls_c ++ [KHop 10]) g [10%Z] /\ few_hops 1 101 (hops (calls_c ++ [KHop 10%Z])) /\
    @is_cluster impl0 XR rng_c g c.
Proof. exact C46_nonvacuous. Qed.
