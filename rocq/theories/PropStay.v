(** * C72, C73: dwell times of walkers in a running system

    Exact arithmetic; valid programs (ValidSpec.v); every number of walkers,
    schedule, stream of draws, clock, hash order and tie-breaking of the graph
    library. *)
From Coq Require Import ZArith List Bool Reals Lra Lia Permutation.
From Verif Require Import Base BaseProofs Num RSum WalkerModel SiteModel SiteSpec ClusterModel ClusterHist ContainerModel BasinModel BasinSpec SystemModel SystemSpec
  SystemShape SystemProofs SystemFacts SystemInit SystemRuns ValidSpec SystemEffect SystemLive SystemTotal SystemChain SystemControl ReportSpec SystemReport PropReport PropValid SystemOps StaySpec SystemStay ExitSpec SystemFree.
Import ListNotations.
Open Scope R_scope.

(** ** C72 *)
(** A walker that arrives in a cluster with the time constant [tau] is to stay
    for [T = - ln u * tau] if [u] is the next number of the cluster's generator.
    While it hops within the cluster, and whatever other calls are made in
    between, its dwell times are the increments of the cluster until the last
    one, which is what is left of [T]. *)
Theorem C72_dwell_times :
  forall (I : Impl) (G : @Rng XR) (U : @Ugly XR) (clk : Z -> Z) (lo hi : R) (tr : list call) (g0 : world) (ws0 : list Z)
    (w p c : Z) (u tau : R) (tr' : list call) (l : list (R * R)) (g : world) (ws : list Z),
    open_draws G -> rate_bounds lo hi -> valid_reach clk lo hi tr g0 ws0 ->
    cluster_draw g0 c u -> time_constant g0 c (Fin tau : @num XR) ->
    stay clk w p c g0 ws0 tr' l g ws ->
    Forall (valid_call (g_heap g0)) tr' -> Forall (paced_call (g_heap g0) lo hi) tr' -> few_hops lo hi (hops (tr ++ tr')) ->
    0 < - ln u * tau /\ spent l <= - ln u * tau /\
    forall l1 i d l2, l = l1 ++ (i, d) :: l2 -> d = Rmin i (- ln u * tau - spent l1) /\ 0 < d /\ spent l1 < - ln u * tau.
Proof.
  intros I G U clk lo hi tr g0 ws0 w p c u tau tr' l g ws HD HB V0 Hu Ht St Fv Fp F.
  destruct (stay_run clk lo hi HD HB w p c tr g0 ws0 u tau V0 Hu Ht tr' l g ws St Fv Fp F) as [[V Hp Cn Fa Le Lf Pl] _].
  split; [|split; [exact Le|]].
  - apply (stay_T clk lo hi HD HB c tr g0 ws0 u tau V0 Hu Ht). rewrite hops_app in F.
    pose proof (hops_nonneg tr). pose proof (hops_nonneg tr'). eapply few_less; [exact HB| |exact F]; lia.
  - intros l1 i d l2 E. destruct (Fa l1 i d l2 E) as (A & B & _ & C). auto.
Qed.
Print Assumptions C72_dwell_times.
(** The cluster, unless another one absorbed it, keeps a remaining time for the
    walker exactly as long as less than [T] is spent, so a stay that ends took
    [T] in total.  As long as it does, the walker is on a site of the cluster
    and goes to a site of the cluster. *)
Theorem C72_total :
  forall (I : Impl) (G : @Rng XR) (U : @Ugly XR) (clk : Z -> Z) (lo hi : R) (tr : list call) (g0 : world) (ws0 : list Z)
    (w p c : Z) (u tau : R) (tr' : list call) (l : list (R * R)) (g : world) (ws : list Z),
    open_draws G -> rate_bounds lo hi -> valid_reach clk lo hi tr g0 ws0 ->
    cluster_draw g0 c u -> time_constant g0 c (Fin tau : @num XR) ->
    stay clk w p c g0 ws0 tr' l g ws ->
    Forall (valid_call (g_heap g0)) tr' -> Forall (paced_call (g_heap g0) lo hi) tr' -> few_hops lo hi (hops (tr ++ tr')) ->
    is_cluster g c ->
    (running g c w <-> spent l < - ln u * tau) /\ (~ running g c w <-> spent l = - ln u * tau) /\
    (running g c w -> exists k n, walker_on g p k /\ walker_to g p n /\ listed g c k /\ listed g c n).
Proof.
  intros I G U clk lo hi tr g0 ws0 w p c u tau tr' l g ws HD HB V0 Hu Ht St Fv Fp F Hc.
  destruct (stay_running clk lo hi HD HB w p c tr g0 ws0 u tau V0 Hu Ht tr' l g ws St Fv Fp F Hc) as [A B].
  split; [exact A|]. split; [exact B|]. exact (stay_home clk lo hi HD HB w p c tr g0 ws0 u tau V0 Hu Ht tr' l g ws St Fv Fp F).
Qed.
Print Assumptions C72_total.
(** As long as the cluster keeps a time, the walker's next hop continues the
    stay. *)
Theorem C72_goes_on :
  forall (I : Impl) (G : @Rng XR) (U : @Ugly XR) (clk : Z -> Z) (lo hi : R) (tr : list call) (g0 : world) (ws0 : list Z)
    (w p c : Z) (u tau : R) (tr' : list call) (l : list (R * R)) (g : world) (ws : list Z) (fuel : nat) (g' : world),
    open_draws G -> rate_bounds lo hi -> valid_reach clk lo hi tr g0 ws0 ->
    cluster_draw g0 c u -> time_constant g0 c (Fin tau : @num XR) ->
    stay clk w p c g0 ws0 tr' l g ws ->
    Forall (valid_call (g_heap g0)) tr' -> Forall (paced_call (g_heap g0) lo hi) tr' -> few_hops lo hi (hops (tr ++ tr') + 1) ->
    running g c w -> sys_hop clk fuel w p g = Ret tt g' ->
    exists i d, stay clk w p c g0 ws0 (tr' ++ [KHop p]) (l ++ [(i, d)]) g' ws.
Proof.
  intros I G U clk lo hi tr g0 ws0 w p c u tau tr' l g ws fuel g' HD HB V0 Hu Ht St Fv Fp F.
  assert (F1 : few_hops lo hi (hops (tr ++ tr'))) by (pose proof (hops_nonneg (tr ++ tr')); eapply few_less; [exact HB| |exact F]; lia).
  exact (stay_next_hop clk lo hi HD HB w p c tr g0 ws0 u tau V0 Hu Ht tr' l g ws St Fv Fp F1 fuel g' F).
Qed.
Print Assumptions C72_goes_on.
(** If the cluster gained no sites since the arrival, all dwell times but the last
    one are the increment [i] that it had then, and the number of hops is what
    is needed for [T]: a walker that goes on hopping leaves after [T / i] hops,
    rounded up. *)
Theorem C72_hops :
  forall (I : Impl) (G : @Rng XR) (U : @Ugly XR) (clk : Z -> Z) (lo hi : R) (tr : list call) (g0 : world) (ws0 : list Z)
    (w p c : Z) (u tau : R) (tr' : list call) (l : list (R * R)) (g : world) (ws : list Z) (i : R),
    open_draws G -> rate_bounds lo hi -> valid_reach clk lo hi tr g0 ws0 ->
    cluster_draw g0 c u -> time_constant g0 c (Fin tau : @num XR) -> increment g0 c (Fin i : @num XR) ->
    stay clk w p c g0 ws0 tr' l g ws ->
    Forall (valid_call (g_heap g0)) tr' -> Forall (paced_call (g_heap g0) lo hi) tr' -> few_hops lo hi (hops (tr ++ tr')) ->
    is_cluster g c -> (forall k, listed g c k -> listed g0 c k) ->
    (INR (length l) - 1) * i < - ln u * tau /\
    (running g c w <-> INR (length l) * i < - ln u * tau) /\
    (forall l1 x d y l2, l = l1 ++ (x, d) :: y :: l2 -> d = i).
Proof.
  intros I G U clk lo hi tr g0 ws0 w p c u tau tr' l g ws i HD HB V0 Hu Ht Hi St Fv Fp F Hc Hl.
  pose proof (stay_increments clk w p c g0 ws0 tr' l g ws i (valid_inv clk lo hi _ _ _ V0) St Hc Hl Hi) as Hx.
  destruct (stay_count clk lo hi HD HB w p c tr g0 ws0 u tau V0 Hu Ht tr' l g ws St Fv Fp F i Hx) as (A & B & C & D).
  destruct (stay_running clk lo hi HD HB w p c tr g0 ws0 u tau V0 Hu Ht tr' l g ws St Fv Fp F Hc) as [R1 R2].
  split; [exact A|]. split; [|exact D]. split; [intros Rn; apply B, R1, Rn|].
  intros X. apply R1. destruct (stay_run clk lo hi HD HB w p c tr g0 ws0 u tau V0 Hu Ht tr' l g ws St Fv Fp F) as [[_ _ _ _ Le _ _] _].
  destruct (Rle_lt_or_eq_dec _ _ Le) as [Y|Y]; [exact Y|]. specialize (C Y). lra.
Qed.
Print Assumptions C72_hops.
(** In a program that gives every walker its own id and did not remove the
    walker, a cluster keeps a time for it only while it is on a site of that
    cluster: whoever arrives from elsewhere starts a new stay. *)
Theorem C72_arrivals :
  forall (I : Impl) (G : @Rng XR) (U : @Ugly XR) (clk : Z -> Z) (lo hi : R) (ids : Z -> Z) (p : Z)
    (walkers : umap walker) (h : heap) (count tick : Z) (tr : list call) (g : world) (ws : list Z) (c : Z),
    open_draws G -> rate_bounds lo hi -> (forall q q', ids q = ids q' -> q = q') -> NoDup (ukeys walkers) -> (0 <= count)%Z ->
    with_ids clk ids (world_new walkers h count tick) [] tr g ws ->
    Forall (valid_call (g_heap g)) tr -> Forall (paced_call (g_heap g) lo hi) tr -> few_hops lo hi (hops tr) -> ~ In (KLeave p) tr ->
    running g c (ids p) -> In p ws /\ exists k n, walker_on g p k /\ walker_to g p n /\ listed g c k /\ listed g c n.
Proof.
  intros I G U clk lo hi ids p m h count tick tr g ws c HD HB Inj ND Hc Wi Fv Fp F Nl. exact (placed clk lo hi HD HB ids p m h count tick tr g ws Inj ND Hc Wi Fv Fp F Nl c).
Qed.
Print Assumptions C72_arrivals.

(** ** C73 *)
(** A site with the sum of rates [S]: the numbers from 0 to 1 are divided among
    its neighbours once and for all, each having a share as large as the share
    of its rate in [S].  Whenever later a hop ends on the site while it is
    outside of all clusters, with [u] and [v] the next two numbers of the
    site's generator, the dwell time is [- ln u / S] and the walker is sent to
    the neighbour whose part [v] falls into. *)
Theorem C73_free_sites :
  forall (I : Impl) (G : @Rng XR) (U : @Ugly XR) (clk : Z -> Z) (lo hi : R) (tr : list call) (g : world) (ws : list Z) (k : Z) (S : R),
    open_draws G -> rate_bounds lo hi -> valid_reach clk lo hi tr g ws -> few_hops lo hi (hops tr) -> exit_rate g k S ->
    0 < S /\
    exists (share a : Z -> R) (nbrs : list Z),
      (forall j, In j nbrs <-> exists r, site_rate g k j r) /\ (forall j r, site_rate g k j r -> share j = r / S) /\
      divided share a nbrs /\
      forall tr' g2 ws2 fuel id p g3 u v, steps clk g ws tr' g2 ws2 -> In p ws2 ->
        sys_hop clk fuel id p g2 = Ret tt g3 -> walker_on g3 p k -> cluster_of g2 k unassignedId -> site_draws g2 k u v ->
        dwells g3 p (- ln u / S) /\ exists n, In n nbrs /\ walker_to g3 p n /\ a n <= v < a n + share n.
Proof.
  intros I G U clk lo hi tr g ws k S HD HB. exact (free_sends clk lo hi HD HB tr g ws k S).
Qed.
Print Assumptions C73_free_sites.

(** ** The chain 3 - 1 - 2 - 4 of SystemChain.v *)
Notation stay_c := (@stay impl0 rng_c ugly_c clk_c).
(** the first hop: from site 3 to site 1, which is then not in a cluster *)
Lemma first_c : exists (g g' : @world XR rng_c) (n : nat) (c : Z),
  reach_c calls_c g [10%Z] /\ hop_c n 0 10 g = Ret tt g' /\ walker_on g' 10 1 /\ cluster_of g 1 unassignedId /\
  site_draws g 1 (1 / 2) (1 / 2) /\ exit_rate g 1 101 /\ site_rate g 1 2 100 /\
  reach_c (calls_c ++ [KHop 10]) g' [10%Z] /\ listed_c g' c 1 /\ listed_c g' c 2 /\ (forall x, ~ is_cluster (I := impl0) g x) /\ g_heap g' = heap_c.
Proof.
  destruct cluster_c as (g & g' & n & c & Rb & Eh & To & E & L1 & L2 & Un & _ & _ & _ & Rc & _). exists g, g', n, c.
  assert (V : reach_c calls_c g [10%Z]) by (split; [exact Rb|apply chain_valid, Eh]). pose proof (valid_inv clk_c 1 101 _ _ _ V) as W.
  assert (Hin : In 10%Z [10%Z]) by (left; reflexivity).
  assert (En : hop_c n 0 10 g = Ret tt g') by (apply E; lia).
  pose proof (hop_reach clk_c 1 101 calls_c g [10%Z] n 0 10 g' V Hin En) as V'.
  destruct (v_on _ _ W 10%Z Hin) as (k0 & Ok0 & _). destruct (hop_facts clk_c _ _ _ _ _ _ _ _ W Hin Ok0 To En) as (On & _).
  assert (U1 : cluster_of g 1 unassignedId) by (apply Un; lia).
  destruct (proj1 (cluster_of_iff _ _ _) U1) as (s & Es & Ns).
  pose proof (valid_living clk_c 1 101 fair_c bounds_c _ _ _ V ltac:(apply few_c; cbn; lia)) as Lv.
  destruct (a_site _ _ _ _ (i_alive _ _ _ _ _ Lv) 1%Z s Es) as ((Hg & _) & _ & _). destruct Hg as (Ne & ND & Hpos).
  pose proof (h_nds _ _ _ (v_shape _ _ W)) as NDs.
  assert (NoC : forall x, ~ is_cluster (I := impl0) g x).
  { intros x Hx. apply is_cluster_known in Hx; [|apply (v_shape _ _ W)]. apply ukeys_In in Hx. destruct Hx as [cl Ec].
    destruct (h_cl _ _ _ (v_shape _ _ W) x cl Ec) as (_ & _ & _ & i & _ & _ & Hi & _). apply ukeys_In in Hi. destruct Hi as [m Em].
    destruct (h_mem _ _ _ (v_shape _ _ W) x i m) as (si & Esi & Nsi & _); [exists cl; auto|].
    destruct (a_site _ _ _ _ (i_alive _ _ _ _ _ Lv) i si Esi) as ((Hg & _) & _ & _). destruct Hg as (Nei & _ & Hposi).
    destruct (s_neigh si) as [|[j a] r] eqn:En0; [contradiction|]. destruct (Hposi j a (or_introl eq_refl)) as (q & Eq & _).
    assert (X : rate_between heap_c (g_sites g) i j q).
    { exists si, a. split; [apply ulookup_In, Esi|]. split; [rewrite En0; left; reflexivity|rewrite <- Eh; exact Eq]. }
    apply Rc in X. assert (Hi14 : (1 <= i <= 4)%Z).
    { destruct X as [[X _]|[[X _]|[[X _]|[[X _]|[[X _]|[X _]]]]]]; inversion X; lia. }
    apply Un in Hi14. apply cluster_of_iff in Hi14. destruct Hi14 as (si' & Esi' & X'). congruence. }
  assert (Ok1 : walker_on g' 10 1).
  { destruct (here g [10%Z] 1) eqn:Hh; [|exact On]. exfalso. apply here_true in Hh. destruct Hh as (q & [<-|[]] & O1).
    assert (Ow : walker_on g 10 1) by exact O1.
    destruct (@valid_aim impl0 rng_c ugly_c clk_c 1 101 fair_c bounds_c _ _ _ 10%Z 1%Z 1%Z V ltac:(apply few_c; cbn; lia) Hin Ow To) as [[r Hr]|(x & i & Hl & _)].
    - rewrite Eh in Hr. apply Rc in Hr. destruct Hr as [[X _]|[[X _]|[[X _]|[[X _]|[[X _]|[X _]]]]]]; inversion X.
    - destruct Hl as (l & El & _). apply (NoC x). exists l. exact El. }
  assert (Rt : forall j a, In (j, a) (s_neigh s) <-> (exists x, heap_c a = Fin x /\ ((j, x) = (2%Z, 100) \/ (j, x) = (3%Z, 1))) /\ In (j, a) (s_neigh s)).
  { intros j a. split; [|intros [_ X]; exact X]. intros Ha. split; [|exact Ha]. destruct (Hpos j a Ha) as (x & Ex & _). rewrite Eh in Ex. exists x. split; [exact Ex|].
    assert (X : rate_between heap_c (g_sites g) 1 j x) by (exists s, a; split; [apply ulookup_In, Es|auto]).
    apply Rc in X. destruct X as [[X ->]|[[X ->]|[[X _]|[[X _]|[[X _]|[X _]]]]]]; inversion X; subst; auto. }
  assert (Perm : Permutation (map (fun e => (fst e, heap_c (snd e))) (s_neigh s)) [(2%Z, Fin 100); (3%Z, Fin 1)]).
  { apply NoDup_Permutation.
    - apply NoDup_map_inv with (f := fst). rewrite map_map. exact ND.
    - repeat constructor; cbn; intuition congruence.
    - intros [j y]. rewrite in_map_iff. cbn [In fst snd]. split.
      + intros ([j' a] & X & Ha). cbn [fst snd] in X. injection X as <- <-. apply Rt in Ha. destruct Ha as [(x & -> & [X|X]) _]; injection X as -> ->; auto.
      + assert (Get : forall x, rate_between heap_c (g_sites g) 1 j x -> exists a, (j, heap_c a) = (j, Fin x) /\ In (j, a) (s_neigh s)).
        { intros x (s' & a & Hs' & Ha & Ex). apply (In_ulookup _ _ _ NDs) in Hs'. assert (s' = s) by congruence. subst s'. exists a. rewrite Ex. auto. }
        intros [X|[X|[]]]; injection X as <- <-.
        * destruct (Get 100) as (a & X & Ha); [apply Rc; auto|]. exists (2%Z, a). cbn [fst snd]. auto.
        * destruct (Get 1) as (a & X & Ha); [apply Rc; auto|]. exists (3%Z, a). cbn [fst snd]. auto. }
  assert (Eh' : g_heap g' = heap_c).
  { destruct (step_settings clk_c _ _ _ _ _ W (st_hop clk_c g [10%Z] n 0 10 g' Hin En)) as ([X|X] & _); [discriminate|]. rewrite X. exact Eh. }
  split; [exact V|]. split; [exact En|]. split; [exact Ok1|]. split; [exact U1|]. split; [exists s, tt, tt; auto|]. split.
  { exists s. split; [exact Es|]. unfold total_rate. rewrite Eh. change (Rsum (fun e : Z * Z => realv (heap_c (snd e))) (s_neigh s)) with
      (Rsum (fun e : Z * Z => (fun y : Z * @num XR => realv (snd y)) ((fun e : Z * Z => (fst e, heap_c (snd e))) e)) (s_neigh s)).
    rewrite <- Rsum_map. rewrite (Rsum_perm _ _ _ Perm). cbn. lra. }
  split.
  { exists s. split; [exact Es|]. destruct (proj2 (Rc 1%Z 2%Z 100) (or_introl (conj eq_refl eq_refl))) as (s' & a & Hs' & Ha & Ex).
    apply (In_ulookup _ _ _ NDs) in Hs'. assert (s' = s) by congruence. subst s'. exists a. rewrite Eh. auto. }
  auto.
Qed.
Lemma ln_half : 1 / 2 < - ln (1 / 2).
Proof.
  replace (1 / 2) with (/ 2) at 2 by lra. rewrite ln_Rinv by lra. rewrite Ropp_involutive.
  apply exp_lt_inv. rewrite exp_ln by lra. destruct (Rlt_le_dec (exp (1 / 2)) 2) as [|X]; [assumption|exfalso].
  pose proof exp_le_3 as E. assert (Q : exp 1 = exp (1 / 2) * exp (1 / 2)) by (rewrite <- exp_plus; f_equal; lra). nra.
Qed.
Notation calls_s := ((calls_c ++ [KHop 10%Z]) ++ [KThr inf_iterations]).
Definition ids_c (q : Z) : Z := (q - 10)%Z.
Lemma no_hops ids (g : @world XR rng_c) ws tr g' ws' : @steps impl0 XR rng_c ugly_c clk_c g ws tr g' ws' -> forallb (fun a => negb (is_hop a)) tr = true ->
  @with_ids impl0 rng_c ugly_c clk_c ids g ws tr g' ws'.
Proof.
  induction 1 as [|tr g1 ws1 a g2 ws2 S IH St]; intros H; [apply wi_refl|]. rewrite forallb_app in H. apply andb_true_iff in H. destruct H as [H1 H2].
  cbn in H2. rewrite andb_true_r in H2. eapply wi_call; [apply IH, H1|exact St|]. destruct (is_hop a); [discriminate|reflexivity].
Qed.
(** no further clusters from then on, and a stay: the second hop, to site 2, and
    a third one *)
Lemma stay_c_two : exists (g g1 g2 : @world XR rng_c) (c : Z) (tau i d i' d' : R) (n : nat),
  reach_c calls_s g [10%Z] /\ cluster_draw g c (1 / 2) /\ time_constant g c (Fin tau : @num XR) /\
  stay_c 0%Z 10%Z c g [10%Z] [KHop 10] [(i, d)] g1 [10%Z] /\ @running rng_c g1 c 0 /\ is_cluster (I := impl0) g1 c /\
  hop_c n 0 10 g1 = Ret tt g2 /\
  stay_c 0%Z 10%Z c g [10%Z] ([KHop 10] ++ [KHop 10]) ([(i, d)] ++ [(i', d')]) g2 [10%Z] /\ is_cluster (I := impl0) g2 c /\
  @increment impl0 XR rng_c g c (Fin i) /\ (forall k, listed_c g2 c k -> listed_c g c k) /\
  reach_c (calls_s ++ [KHop 10]) g1 [10%Z] /\
  exists walkers h count tick, NoDup (ukeys walkers) /\ (0 <= count)%Z /\
    @with_ids impl0 rng_c ugly_c clk_c ids_c (world_new walkers h count tick) [] (calls_s ++ [KHop 10]) g1 [10%Z].
Proof.
  destruct first_c as (g0 & gh & n & c & V0 & E0 & O1' & Un & Sd & Er & Sr & Vh & L1' & L2' & NoC & Eh).
  pose proof (valid_inv clk_c 1 101 _ _ _ V0) as W0. assert (Hin : In 10%Z [10%Z]) by (left; reflexivity).
  destruct (hop_free clk_c 1 101 fair_c bounds_c _ g0 [10%Z] n 0 10 gh 1 (1 / 2) (1 / 2) 101 V0 ltac:(apply few_c; cbn; lia) Hin E0 O1' Un Sd Er) as (_ & _ & _ & Iv).
  destruct (Iv 2%Z 100 Sr) as (a & A1 & A2 & A3). assert (To' : walker_to gh 10 2) by (apply A3; lra).
  assert (Nr' : ~ @running rng_c gh c 0).
  { intros (cl' & Ec' & Ne). destruct (hop_away clk_c _ _ _ _ c _ _ _ W0 Hin E0 O1') with (cl' := cl') as [(cl0 & _ & Ec0 & _)|(_ & X)]; [|exact Ec'| |exact (Ne (X 0%Z))].
    - intros (l & El & _). apply (NoC c). exists l. exact El.
    - apply (NoC c). eapply cluster_there; eauto. }
  set (g := g_with_thr inf_iterations (g_with_thrmin inf_iterations gh)).
  assert (St : @step impl0 XR rng_c ugly_c clk_c gh [10%Z] (KThr inf_iterations) g [10%Z]) by (constructor; reflexivity).
  destruct (valid_call_step clk_c 1 101 _ _ _ _ _ _ Vh St Logic.I) as [V _]; [cbn; unfold inf_iterations, INT_MAX; lia|].
  assert (O1 : walker_on g 10 1) by exact O1'. assert (To : walker_to g 10 2) by exact To'. assert (Nr : ~ @running rng_c g c 0) by exact Nr'.
  assert (L1 : listed_c g c 1) by exact L1'. assert (L2 : listed_c g c 2) by exact L2'. assert (Thr : g_thrmin g = inf_iterations) by reflexivity.
  clearbody g. pose proof (valid_inv clk_c 1 101 _ _ _ V) as W.
  assert (Stays : forall (h h' : @world XR rng_c) f, inv h [10%Z] -> inv h' [10%Z] -> g_thrmin h = inf_iterations -> hop_c f 0 10 h = Ret tt h' -> is_cluster (I := impl0) h c ->
     is_cluster (I := impl0) h' c /\ g_thrmin h' = inf_iterations /\ (forall k, listed_c h' c k -> listed_c h c k)).
  { intros h h' f Wh Wh' Th E Hc. destruct (hop_counts clk_c _ _ _ _ _ _ Wh Hin E) as (_ & Et & Hh).
    assert (Sh : same_holds h h') by (destruct Hh as [(_ & _ & _ & X)|[(_ & _ & _ & _ & X)|(_ & X & _)]]; [exact X|exact X|contradiction]).
    split; [|split; [congruence|intros k Lk; apply (listed_same h [10%Z] h' [10%Z] Wh Wh' Sh), Lk]].
    destruct (listed_two h [10%Z] c Wh Hc) as (i & _ & _ & Hi & _). apply is_cluster_known; [apply (v_shape _ _ Wh')|].
    apply listed_holds in Hi; [|apply (v_shape _ _ Wh)]. apply Sh in Hi. eapply holds_known; exact Hi. }
  destruct (listed_cluster _ _ _ _ W L1) as (cl & Ec).
  destruct (valid_hop clk_c 1 101 fair_c bounds_c _ g [10%Z] 0 10 V) as (g1 & n1 & E1); [apply few_c; cbn; lia|exact Hin|]. specialize (E1 n1 (le_n _)).
  destruct (hop_facts clk_c _ _ _ _ _ _ _ _ W Hin O1 To E1) as (On & _).
  assert (On' : exists k, walker_on g1 10 k /\ listed_c g c k) by (eexists; split; [exact On|destruct (here g [10%Z] 2); assumption]).
  destruct On' as (k & Ok & Lk).
  assert (Fe : few_hops 1 101 (hops (calls_s : list (@call XR)))) by (apply few_c; cbn; lia).
  destruct (budget_pos clk_c 1 101 fair_c bounds_c _ _ _ _ 0%Z _ V Fe Ec) as (B & i & _ & _ & Hi & _).
  assert (Inc : @increment impl0 XR rng_c g c (Fin i)).
  { exists (@per_cluster impl0 XR rng_c _ c_getTimeIncrement (g_clusters g)). eexists. split; [reflexivity|].
    unfold per_cluster. rewrite fold_uset_lookup; [|constructor|apply (v_shape _ _ W)]. rewrite Ec. unfold c_getTimeIncrement. rewrite Hi. reflexivity. }
  destruct (reported_half clk_c 1 101 fair_c bounds_c _ _ _ _ _ V Fe Inc) as (tau & r & Tc & _ & Hr & Ei & Hti). injection Ei as Ei.
  pose proof (hop_reach clk_c 1 101 _ _ _ _ _ _ _ V Hin E1) as V1. pose proof (valid_inv clk_c 1 101 _ _ _ V1) as W1.
  destruct (valid_timed clk_c 1 101 fair_c bounds_c _ _ _ 10%Z V1 ltac:(apply few_c; cbn; lia) Hin) as (wk & d & Ewk & Ed & _).
  assert (Cd : @cluster_draw rng_c g c (1 / 2)) by (exists cl, tt; auto).
  assert (S1 : stay_c 0%Z 10%Z c g [10%Z] [KHop 10] [(i, d)] g1 [10%Z]).
  { eapply sy_arrive; [exact Hin|exact Nr|exact E1|exact Ok|exact Lk|exact Inc|exists wk; auto]. }
  assert (Fv : Forall (valid_call (g_heap g)) [KHop 10%Z]) by (repeat constructor).
  assert (Fp : Forall (paced_call (g_heap g) 1 101) [KHop 10%Z]) by (repeat constructor).
  assert (F1 : few_hops 1 101 (hops (calls_s ++ [KHop 10] : list (@call XR)))) by (apply few_c; cbn; lia).
  destruct (Stays g g1 n1 W W1 Thr E1) as (Hc & Thr1 & Ls1); [eapply cluster_there; eauto|].
  assert (Sp : spent [(i, d)] < - ln (1 / 2) * tau).
  { destruct (stay_run clk_c 1 101 fair_c bounds_c 0%Z 10%Z c _ g [10%Z] (1 / 2) tau V Cd Tc _ _ _ _ S1 Fv Fp F1) as [[_ _ _ Fa _ _ _] _].
    destruct (Fa [] i d [] eq_refl) as (Hd & _). unfold spent at 1. unfold spent in Hd. simpl in *. pose proof (Rmin_l i (- ln (1 / 2) * tau - 0)) as X. rewrite <- Hd in X.
    pose proof ln_half. assert (0 < tau) by (destruct Hti; lra). assert (1 / 2 * tau < - ln (1 / 2) * tau) by (apply Rmult_lt_compat_r; assumption). lra. }
  assert (Rn : @running rng_c g1 c 0).
  { apply (stay_running clk_c 1 101 fair_c bounds_c 0%Z 10%Z c _ g [10%Z] (1 / 2) tau V Cd Tc _ _ _ _ S1 Fv Fp F1 Hc), Sp. }
  destruct (valid_hop clk_c 1 101 fair_c bounds_c _ g1 [10%Z] 0 10 V1) as (g2 & n2 & E2); [apply few_c; cbn; lia|exact Hin|]. specialize (E2 n2 (le_n _)).
  destruct (stay_next_hop clk_c 1 101 fair_c bounds_c 0%Z 10%Z c _ g [10%Z] (1 / 2) tau V Cd Tc _ _ _ _ S1 Fv Fp F1 n2 g2) as (i' & d' & S2);
    [apply few_c; cbn; lia|exact Rn|exact E2|].
  pose proof (hop_reach clk_c 1 101 _ _ _ _ _ _ _ V1 Hin E2) as V2.
  destruct (Stays g1 g2 n2 W1 (valid_inv clk_c 1 101 _ _ _ V2) Thr1 E2 Hc) as (Hc2 & _ & Ls2).
  assert (Ls : forall k, listed_c g2 c k -> listed_c g c k) by auto.
  exists g, g1, g2, c, tau, i, d, i', d', n2. repeat (split; [assumption|]).
  destruct V0 as ((m & h & count & tick & ND & H0 & S0) & _). exists m, h, count, tick. split; [exact ND|]. split; [exact H0|].
  eapply wi_hop; [|exact Hin|exact E1]. eapply wi_call; [|exact St|reflexivity]. eapply wi_hop; [|exact Hin|exact E0].
  apply no_hops; [exact S0|reflexivity].
Qed.
(** the hypotheses of the theorems about C72 hold for it *)
Example C72_nonvacuous :
  exists (g g1 g2 : @world XR rng_c) (c : Z) (tau i d i' d' : R) (n : nat),
    open_draws rng_c /\ rate_bounds 1 101 /\ reach_c calls_s g [10%Z] /\ cluster_draw g c (1 / 2) /\ time_constant g c (Fin tau : @num XR) /\
    stay_c 0%Z 10%Z c g [10%Z] [KHop 10] [(i, d)] g1 [10%Z] /\ @running rng_c g1 c 0 /\ is_cluster (I := impl0) g1 c /\ hop_c n 0 10 g1 = Ret tt g2 /\
    stay_c 0%Z 10%Z c g [10%Z] [KHop 10; KHop 10] [(i, d); (i', d')] g2 [10%Z] /\ is_cluster (I := impl0) g2 c /\
    @increment impl0 XR rng_c g c (Fin i) /\ (forall k, listed_c g2 c k -> listed_c g c k) /\
    Forall (valid_call (g_heap g)) [KHop 10; KHop 10]%Z /\ Forall (paced_call (g_heap g) 1 101) [KHop 10; KHop 10]%Z /\
    few_hops 1 101 (hops (calls_s ++ [KHop 10; KHop 10] : list (@call XR)) + 1).
Proof.
  destruct stay_c_two as (g & g1 & g2 & c & tau & i & d & i' & d' & n & A1 & A2 & A3 & A4 & A5 & A6 & A7 & A8 & A9 & A10 & A11 & _).
  exists g, g1, g2, c, tau, i, d, i', d', n. split; [exact fair_c|]. split; [exact bounds_c|]. repeat (split; [assumption|]).
  split; [repeat constructor|]. split; [repeat constructor|]. apply few_c; cbn; lia.
Qed.
Example C72_arrivals_nonvacuous :
  exists (walkers : umap walker) (h : heap) (count tick : Z) (g : @world XR rng_c) (c : Z),
    (forall q q', ids_c q = ids_c q' -> q = q') /\ NoDup (ukeys walkers) /\ (0 <= count)%Z /\
    @with_ids impl0 rng_c ugly_c clk_c ids_c (world_new walkers h count tick) [] (calls_s ++ [KHop 10]) g [10%Z] /\
    Forall (valid_call (g_heap g)) (calls_s ++ [KHop 10]) /\ Forall (paced_call (g_heap g) 1 101) (calls_s ++ [KHop 10]) /\
    few_hops 1 101 (hops (calls_s ++ [KHop 10] : list (@call XR))) /\ ~ In (KLeave 10%Z) (calls_s ++ [KHop 10] : list (@call XR)) /\
    @running rng_c g c (ids_c 10).
Proof.
  destruct stay_c_two as (g & g1 & g2 & c & tau & i & d & i' & d' & n & _ & _ & _ & _ & A5 & _ & _ & _ & _ & _ & _ & V & m & h & count & tick & ND & H0 & Wi).
  exists m, h, count, tick, g1, c. split; [unfold ids_c; intros; lia|]. split; [exact ND|]. split; [exact H0|]. split; [exact Wi|].
  split; [apply V|]. split; [apply V|]. split; [apply few_c; cbn; lia|]. split; [|exact A5].
  cbn. intuition discriminate.
Qed.
(** the first hop of the chain ends on site 1 before sites 1 and 2 are put into a cluster *)
Example C73_nonvacuous :
  exists (g g' : @world XR rng_c) (n : nat),
    open_draws rng_c /\ rate_bounds 1 101 /\ reach_c calls_c g [10%Z] /\ few_hops 1 101 (hops (calls_c : list (@call XR))) /\ In 10%Z [10%Z] /\
    hop_c n 0 10 g = Ret tt g' /\ walker_on g' 10 1 /\ cluster_of g 1 unassignedId /\ site_draws g 1 (1 / 2) (1 / 2) /\ exit_rate g 1 101 /\ site_rate g 1 2 100.
Proof.
  destruct first_c as (g & g' & n & c & V & E & O1 & Un & Sd & Er & Sr & _). exists g, g', n. split; [exact fair_c|]. split; [exact bounds_c|].
  split; [exact V|]. split; [apply few_c; cbn; lia|]. split; [left; reflexivity|]. auto 8.
Qed.
