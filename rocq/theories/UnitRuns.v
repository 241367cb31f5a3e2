(** * Valid programs in another unit of time *)
From Coq Require Import ZArith List Bool Reals Lra Lia.
From Verif Require Import Base BaseProofs Num RSum WalkerModel SiteModel SiteSpec ClusterModel ClusterLive ContainerModel BasinModel SystemModel SystemSpec
  SystemShape SystemProofs SystemFacts SystemInit SystemRuns ValidSpec SystemEffect SystemLive SystemTotal SystemStart SystemChain PropValid TofLoopProofs QuerySpec
  UnitSpec UnitNum UnitCluster UnitUpdate UnitMerge UnitBasin UnitSystem.
Import ListNotations.
Open Scope R_scope.

Section One.
Context {I : Impl} {G : @Rng XR} {U : @Ugly XR}.
Variables (clk : Z -> Z) (lo hi : R).
Hypothesis (HD : open_draws G) (HB : rate_bounds lo hi).
#[local] Existing Instance XR.

Lemma no_bad tr g ws : valid_reach clk lo hi tr g ws -> few_hops lo hi (hops tr) -> ~ wbad g.
Proof.
  intros V F ([k d] & Hin & E). cbn [snd] in E. pose proof (valid_living clk lo hi HD HB _ _ _ V F) as L. pose proof (valid_inv clk lo hi _ _ _ V) as W.
  pose proof (h_ndc _ _ _ (v_shape _ _ W)) as N2. pose proof (In_ulookup _ _ _ N2 Hin) as El.
  destruct (a_cl _ _ _ _ (i_alive _ _ _ _ _ L) k d El) as (_ & Lv). destruct (lv_tau _ _ _ _ _ Lv) as (t & Et & Ht).
  rewrite E in Et. inversion Et. lra.
Qed.
Lemma valid_step tr g ws a g' ws' : valid_reach clk lo hi tr g ws -> exec1 clk a (g, ws) = Some (g', ws') ->
  valid_call (g_heap g) (call_of a) -> paced_call (g_heap g) lo hi (call_of a) ->
  valid_reach clk lo hi (tr ++ [call_of a]) g' ws' /\ g_heap g' = g_heap g.
Proof.
  intros V E Hv Hp. pose proof (valid_inv clk lo hi _ _ _ V) as W. destruct V as (R & Fv & Fp). apply (exec1_ok clk) in E.
  destruct (step_settings clk _ _ _ _ _ W E) as ([X|X] & _); [rewrite X in Hv; destruct Hv|].
  split; [|exact X]. split; [eapply reach_step; eauto|]. rewrite X. split; apply Forall_app; split; try assumption; repeat constructor; assumption.
Qed.
Lemma entered l : forall (g g' : @world XR G), mfor l (fun w => init_walker (fst w) (snd w)) g = Ret tt g' ->
  forall p, In p (map snd l) -> exists w, ulookup p (g_walkers g) = Some w.
Proof.
  induction l as [|[id q] l IH]; intros g g' E p Hp; [destruct Hp|]. cbn [mfor] in E. apply bind_ret_inv in E. destruct E as ([] & g1 & E1 & E).
  cbn [map snd] in Hp. destruct Hp as [<-|Hp].
  - unfold init_walker in E1. cbn [fst snd] in E1. apply bind_ret_inv in E1. destruct E1 as (k & g2 & E2 & _).
    unfold in_walker, zoom, at_key in E2. destruct (ulookup q (g_walkers g)) as [w|]; [eauto|discriminate].
  - destruct (IH _ _ E p Hp) as [w Ew]. apply init_walker_put in E1. destruct E1 as [[_ X] _]. specialize (X p). rewrite Ew in X.
    destruct (ulookup p (g_walkers g)); [eauto|discriminate].
Qed.
(** calls that a program makes itself *)
Definition own_call (k : @call XR) : bool := match k with KRates | KWalkers | KElsewhere => false | _ => true end.
Lemma nodupb_yes l : NoDup l -> nodupb l = true.
Proof.
  induction 1 as [|x l Hx ND IH]; [reflexivity|]. cbn [nodupb]. fold (nodupb l). rewrite IH, andb_true_r. apply negb_true_iff.
  destruct (existsb (Z.eqb x) l) eqn:E; [|reflexivity]. apply in_ok in E. contradiction.
Qed.
Lemma not_in_ok p l : ~ In p l -> existsb (Z.eqb p) l = false.
Proof. intros H. destruct (existsb (Z.eqb p) l) eqn:E; [|reflexivity]. apply in_ok in E. contradiction. Qed.
Lemma cur_on g p w : ulookup p (g_walkers g) = Some w -> walker_on g p (cur_of g p).
Proof. intros E. exists w. unfold cur_of. rewrite E. auto. Qed.
Lemma nodup_map {A B} (f : A -> B) l : NoDup l -> (forall x y, In x l -> In y l -> f x = f y -> x = y) -> NoDup (map f l).
Proof.
  induction 1 as [|x l Hx ND IH]; intros H; [constructor|]. cbn [map]. constructor.
  - rewrite in_map_iff. intros (y & Ey & Hy). apply Hx. rewrite (H x y); [exact Hy|left; reflexivity|right; exact Hy|auto].
  - apply IH. intros a b Ha Hb. apply H; right; assumption.
Qed.
Lemma step_exec g ws k g' ws' : own_call k = true -> step clk g ws k g' ws' -> (forall p, In p ws -> exists w, ulookup p (g_walkers g) = Some w) ->
  exists a, call_of a = k /\ exec1 clk a (g, ws) = Some (g', ws').
Proof.
  intros Ho S Hws. destruct S as [p g' E|t g' E|t g' E|s g' E|rates g' ND NDr E|h|m Hm L|n t Hn|l g' H1 H2 H3 H4 H5 E|fuel id p g' Hp E|id p g' Hp E|k v g' E]; try discriminate Ho.
  - exists (APerf p). cbn [call_of exec1]. rewrite E. auto.
  - exists (ARes t). cbn [call_of exec1]. rewrite E. auto.
  - exists (AThr t). cbn [call_of exec1]. rewrite E. auto.
  - exists (ASeed s). cbn [call_of exec1]. rewrite E. auto.
  - exists (AInit rates). cbn [call_of exec1]. assert (X : rates_ok rates = true).
    { unfold rates_ok. rewrite (nodupb_yes _ ND). cbn [andb]. apply forallb_forall. intros [i r] Hi. apply nodupb_yes, (NDr i r Hi). }
    rewrite X, E. auto.
  - exists (AEnter l). cbn [call_of exec1]. assert (X : enter_ok g ws l = true).
    { assert (Ew : forall p, In p (map snd l) -> walker_on g p (cur_of g p)).
      { intros p Hp. unfold sys_initializeWalkers in E. apply bind_ret_inv in E. destruct E as (f & g3 & E3 & E1). inversion E3; subst f g3; clear E3.
        assert (E1' : mfor l (fun w => init_walker (fst w) (snd w)) g = Ret tt g') by (destruct (g_feats g); [discriminate|exact E1]).
        destruct (entered _ _ _ E1' p Hp) as [w Ep]. eapply cur_on, Ep. }
      unfold enter_ok. rewrite !andb_true_iff. repeat split.
      - apply nodupb_yes, H1.
      - apply forallb_forall. intros p Hp. apply negb_true_iff, not_in_ok, H2, Hp.
      - apply nodupb_yes, nodup_map; [exact H1|]. intros p q Hp Hq Epq. apply (H3 p q (cur_of g p) Hp Hq (Ew p Hp)). rewrite Epq. apply Ew, Hq.
      - apply forallb_forall. intros p Hp. apply negb_true_iff. destruct (existsb _ ws) eqn:Ex; [|reflexivity]. exfalso.
        apply existsb_exists in Ex. destruct Ex as (q & Hq & Ex). apply Z.eqb_eq in Ex. destruct (Hws q Hq) as [w Eq].
        apply (H4 p q _ Hp Hq (Ew p Hp)). rewrite <- Ex. eapply cur_on, Eq.
      - apply forallb_forall. intros p Hp. destruct (H5 p _ Hp (Ew p Hp)) as [x ->]. reflexivity. }
    rewrite X, E. auto.
  - exists (AHop fuel id p). cbn [call_of exec1]. assert (X : existsb (Z.eqb p) ws = true) by (apply existsb_exists; exists p; split; [exact Hp|apply Z.eqb_refl]).
    rewrite X, E. auto.
  - exists (ALeave id p). cbn [call_of exec1]. assert (X : existsb (Z.eqb p) ws = true) by (apply existsb_exists; exists p; split; [exact Hp|apply Z.eqb_refl]).
    rewrite X, E. auto.
  - exists (AVisits k). cbn [call_of exec1]. rewrite E. auto.
Qed.
Lemma steps_exec g0 ws0 tr g ws : inv g0 ws0 -> forallb own_call tr = true -> steps clk g0 ws0 tr g ws ->
  exists l, map call_of l = tr /\ exec clk l (g0, ws0) = Some (g, ws).
Proof.
  intros V Ho S. induction S as [|tr g1 ws1 k g2 ws2 S IH St]; [exists []; auto|].
  rewrite forallb_app in Ho. apply andb_true_iff in Ho. destruct Ho as [Ho Hk]. cbn [forallb] in Hk. rewrite andb_true_r in Hk.
  destruct (IH Ho) as (l & El & E). pose proof (steps_inv clk _ _ _ _ _ V S) as V1.
  destruct (step_exec _ _ _ _ _ Hk St) as (a & Ea & E2).
  { intros p Hp. destruct (v_on _ _ V1 p Hp) as (k' & (w & Ew & _) & _). eauto. }
  exists (l ++ [a]). rewrite map_app, El. cbn [map]. rewrite Ea. split; [reflexivity|]. rewrite exec_app, E. cbn [exec]. rewrite E2. reflexivity.
Qed.
Lemma steps_heap g0 ws0 tr g ws : inv g0 ws0 -> forallb own_call tr = true -> steps clk g0 ws0 tr g ws -> g_heap g = g_heap g0.
Proof.
  intros V Ho S. induction S as [|tr g1 ws1 k g2 ws2 S IH St]; [reflexivity|].
  rewrite forallb_app in Ho. apply andb_true_iff in Ho. destruct Ho as [Ho Hk]. cbn [forallb] in Hk. rewrite andb_true_r in Hk.
  rewrite <- (IH Ho). pose proof (steps_inv clk _ _ _ _ _ V S) as V1.
  destruct (step_settings clk _ _ _ _ _ V1 St) as ([X|X] & _); [rewrite X in Hk; discriminate Hk|exact X].
Qed.
Lemma hops_app a b : hops (a ++ b : list (@call XR)) = (hops a + hops b)%Z.
Proof. unfold hops. rewrite filter_app, app_length. lia. Qed.

End One.

Section Two.
Context {I : Impl} {G : @Rng XR}.
Variables U U' : @Ugly XR.
Hypothesis K : keys_only.
Variable c : R.
Hypothesis Hc : 0 < c.
Notation u := (exact_lawful c Hc).
Hypothesis HU : same_choices (exact_change c) U U'.
Variable clk : Z -> Z.
Variables lo hi : R.
Hypothesis (HD : open_draws G) (HB : rate_bounds lo hi) (HB' : rate_bounds (c * lo) (c * hi)).
#[local] Existing Instance XR.

(** ** Valid calls in the new unit *)
Lemma new_good h r : good_rates h r -> good_rates (nheap u h) r.
Proof.
  intros (A & B & D). split; [exact A|]. split; [exact B|]. intros n a Ha. destruct (D n a Ha) as (x & E & Hx).
  exists (c * x). change (nheap u h a) with (times c (h a)). rewrite E. split; [reflexivity|]. nra.
Qed.
Lemma new_total h r : good_rates h r -> total_rate (nheap u h) r = c * total_rate h r.
Proof.
  intros (_ & _ & D). unfold total_rate. induction r as [|[n a] r IH]; [cbn; lra|]. cbn [Rsum].
  rewrite IH by (intros n' a' H'; apply (D n'); right; exact H'). destruct (D n a (or_introl eq_refl)) as (x & E & _). cbn [snd].
  change (nheap u h a) with (times c (h a)). rewrite E. cbn. lra.
Qed.
Lemma new_valid h a a' : new_act u a a' -> valid_call h (call_of a) -> valid_call (nheap u h) (call_of a').
Proof.
  intros Ha Hv. destruct Ha; cbn [call_of valid_call] in *; try exact Hv.
  - destruct Hv as (r & ->). exists (/ c * r). reflexivity.
  - intros i r Hin. destruct (Hv i r Hin) as [A B]. split; [apply new_good, A|exact B].
Qed.
Lemma new_paced h a a' : new_act u a a' -> valid_call h (call_of a) -> paced_call h lo hi (call_of a) -> paced_call (nheap u h) (c * lo) (c * hi) (call_of a').
Proof.
  intros Ha Hv Hp. destruct Ha; cbn [call_of paced_call valid_call] in *; try exact Hp.
  intros i r Hin. destruct (Hp i r Hin) as (A & B & D & E). destruct (Hv i r Hin) as [Hg _].
  split; [exact A|]. split; [exact B|]. split; [|rewrite (new_total _ _ Hg); nra].
  intros j x Hx. specialize (D j x Hx). destruct Hg as (_ & _ & Hg). destruct (Hg j x Hx) as (y & Ey & _).
  change (nheap u h x) with (times c (h x)). rewrite Ey in *. cbn [times realv] in *. nra.
Qed.
Lemma new_hops l l' : Forall2 (new_act u) l l' -> hops (map call_of l') = hops (map call_of l).
Proof.
  induction 1 as [|a a' l l' Ha H IH]; [reflexivity|]. cbn [map].
  change (call_of a' :: map call_of l') with ([call_of a'] ++ map call_of l'). change (call_of a :: map call_of l) with ([call_of a] ++ map call_of l).
  rewrite !hops_app, IH. destruct Ha; reflexivity.
Qed.

(** ** One call returns in the new unit *)
Lemma wrel_known g g' k : wrel u g g' -> knows g' k <-> knows g k.
Proof.
  intros (m & -> & _). unfold knows, cluster_of, sys_getClusterId, in_sites, zoom, sc_getClusterId, read_key. cbn [nw g_sites]. rewrite vm_lookup.
  destruct (ulookup k (g_sites g)); cbn [option_map lift]; split; intros (y & z & E); try discriminate E; eauto.
Qed.
Lemma wrel_walker g g' p : wrel u g g' -> ulookup p (g_walkers g') = option_map (wu u) (ulookup p (g_walkers g)).
Proof. intros (m & -> & _). cbn [nw g_walkers]. apply vm_lookup. Qed.
Lemma after_unit {G' : @Rng XR} (o : outcome (@world XR G') unit) g ws : o = Ret tt g -> after o ws = Some (g, ws).
Proof. intros ->. reflexivity. Qed.
Lemma runs1 tr tr' g g' ws a r : wrel u g g' -> valid_reach (U := U) clk lo hi tr g ws -> valid_reach (U := U') clk (c * lo) (c * hi) tr' g' ws ->
  hops tr' = hops tr -> few_hops (c * lo) (c * hi) (hops (tr ++ [call_of a])) -> valid_call (g_heap g) (call_of a) ->
  exec1 (U := U) clk a (g, ws) = Some r -> exists a' r', new_act u a a' /\ exec1 (U := U') clk a' (g', ws) = Some r'.
Proof.
  intros Hw V V' Eh F Hv E. pose proof (valid_inv (U := U) clk lo hi _ _ _ V) as W. pose proof (valid_inv (U := U') clk _ _ _ _ _ V') as W'.
  rewrite hops_app in F. assert (F0 : few_hops (c * lo) (c * hi) (hops tr')).
  { rewrite Eh. apply (few_less (c * lo) (c * hi) HB' _ (hops tr + hops [call_of a])); [|exact F]. unfold hops. lia. }
  destruct a; cbn [exec1 call_of] in E, Hv, F.
  - eexists (APerf _), _. split; [constructor|]. reflexivity.
  - assert (X : nleb t n0 = false). { unfold sys_setTimeResolution in E. destruct (nleb t n0); [discriminate|reflexivity]. }
    eexists (ARes _), _. split; [constructor|]. cbn [exec1]. unfold sys_setTimeResolution.
    change (@new_time XR u t) with (tm u t). rewrite (m_leb0 u), X. reflexivity.
  - eexists (AThr _), _. split; [constructor|]. reflexivity.
  - destruct Hw as (m & -> & Hm). unfold sys_setRandomSeed, bind, gets in E. destruct (g_feats g) eqn:Ef; [|discriminate].
    eexists (ASeed _), _. split; [constructor|]. cbn [exec1]. unfold sys_setRandomSeed, bind, gets. cbn [nw g_feats]. rewrite Ef. reflexivity.
  - destruct (rates_ok rates) eqn:Er; [|discriminate]. pose proof Er as Er'. unfold rates_ok in Er'. apply andb_true_iff in Er'. destruct Er' as [R1 _].
    apply nodupb_ok in R1. destruct (sys_initializeSystem clk rates g) as [[] g1| |] eqn:E1; [|discriminate|discriminate].
    destruct (registers clk _ _ _ _ W R1 E1) as (_ & B & _).
    destruct (init_ok clk rates g' ws W') as [g2 E2].
    + destruct Hw as (m & -> & Hm). cbn [nw g_res]. unfold sys_initializeSystem, bind, gets in E1. destruct (g_res g); [discriminate|discriminate E1].
    + exact R1.
    + intros k x Hin. destruct Hw as (m & -> & Hm). apply new_good. apply (Hv k x Hin).
    + intros k Hk. rewrite (wrel_known _ _ k Hw). apply (B k Hk).
    + eexists (AInit _), _. split; [constructor|]. cbn [exec1]. rewrite Er, E2. reflexivity.
  - destruct Hv.
  - destruct (enter_ok g ws l) eqn:Eo; [|discriminate]. pose proof Eo as Eo'. rewrite <- (y_enter_ok u g g' ws l Hw) in Eo'.
    assert (X : exists g2, sys_initializeWalkers l g' = Ret tt g2).
    2:{ destruct X as [g2 E2]. eexists (AEnter _), _. split; [constructor|]. cbn [exec1]. rewrite Eo', E2. reflexivity. }
    destruct (sys_initializeWalkers l g) as [[] g1| |] eqn:E1; [|discriminate|discriminate].
    unfold sys_initializeWalkers in E1. apply bind_ret_inv in E1. destruct E1 as (f & g3 & E3 & E1). inversion E3; subst f g3; clear E3.
    destruct l as [|e l].
    + destruct Hw as (m & -> & Hm). unfold sys_initializeWalkers, bind, gets. cbn [nw g_feats]. destruct (g_feats g); [discriminate|]. eexists. reflexivity.
    + assert (E1' : mfor (e :: l) (fun w => init_walker (fst w) (snd w)) g = Ret tt g1) by (destruct (g_feats g); [discriminate|exact E1]).
      pose proof (entered _ _ _ E1') as Ew. unfold enter_ok in Eo'. rewrite !andb_true_iff in Eo'. destruct Eo' as ((((N1 & N2) & _) & _) & N3).
      rewrite forallb_forall in N2, N3. destruct HB' as [[X Y] Z].
      apply (enter_ends clk (c * lo) (c * hi) X HD (hops tr') (e :: l) g' ws W' (valid_living clk _ _ HD HB' _ _ _ V' F0) (gain_nonneg _ _ X Y));
        [discriminate|apply nodupb_ok, N1| |].
      * intros p Hp Hi. specialize (N2 p Hp). apply negb_true_iff in N2.
        assert (Z0 : existsb (Z.eqb p) ws = true) by (apply existsb_exists; exists p; split; [exact Hi|apply Z.eqb_refl]). congruence.
      * intros p Hp. destruct (Ew p Hp) as [w Ep]. pose proof (wrel_walker g g' p Hw) as Ep'. rewrite Ep in Ep'. cbn [option_map] in Ep'.
        exists (w_cur w). split; [exists (wu u w); auto|]. specialize (N3 p Hp). unfold cur_of in N3. rewrite Ep' in N3. cbn [wu w_cur] in N3.
        destruct (sys_getClusterId (w_cur w) g') as [i g2| |] eqn:E2; try discriminate. apply Z.eqb_eq in N3. subst. exists g2. exact E2.
  - destruct (existsb (Z.eqb p) ws) eqn:Ep; [|discriminate].
    destruct (valid_hop (U := U') clk (c * lo) (c * hi) HD HB' tr' g' ws id p V') as (g2 & n & E2); [rewrite Eh; exact F|apply in_ok, Ep|].
    eexists (AHop n _ _), _. split; [constructor|]. cbn [exec1]. rewrite Ep, (E2 n) by lia. reflexivity.
  - destruct (existsb (Z.eqb p) ws) eqn:Ep; [|discriminate].
    destruct (valid_leave (U := U') clk (c * lo) (c * hi) HD HB' tr' g' ws id p V' F0 (in_ok _ _ Ep)) as (g2 & E2).
    eexists (ALeave _ _), _. split; [constructor|]. cbn [exec1]. rewrite Ep, E2. reflexivity.
  - destruct (sys_getVisits k g) as [v g1| |] eqn:E1; [|discriminate|discriminate].
    destruct (valid_visits (U := U') clk (c * lo) (c * hi) HD HB' tr' g' ws k V' F0) as (v' & g2 & E2).
    + apply (wrel_known _ _ _ Hw). apply (known_site g ws k W). apply getVisits_inv in E1. destruct E1 as (s & Es & _). eauto.
    + eexists (AVisits _), _. split; [constructor|]. cbn [exec1]. rewrite E2. reflexivity.
Qed.

(** ** Runs *)
Lemma same_runs l : forall tr l' g g' ws r r', Forall2 (new_act u) l l' -> wrel u g g' -> valid_reach (U := U) clk lo hi tr g ws ->
  Forall (valid_call (g_heap g)) (map call_of l) -> Forall (paced_call (g_heap g) lo hi) (map call_of l) -> few_hops lo hi (hops (tr ++ map call_of l)) ->
  exec (U := U) clk l (g, ws) = Some r -> exec (U := U') clk l' (g', ws) = Some r' ->
  snd r' = snd r /\ wrel u (fst r) (fst r') /\ valid_reach (U := U) clk lo hi (tr ++ map call_of l) (fst r) (snd r).
Proof.
  induction l as [|a l IH]; intros tr l' g g' ws r r' Hl Hw V Fv Fp F E E'; inversion Hl; subst.
  - inversion E; inversion E'; subst. cbn [map]. rewrite app_nil_r. auto.
  - cbn [exec] in E, E'. destruct (exec1 (U := U) clk a (g, ws)) as [[g1 ws1]|] eqn:E1; [|discriminate].
    destruct (exec1 (U := U') clk y (g', ws)) as [[g2 ws2]|] eqn:E2; [|discriminate].
    cbn [map] in Fv, Fp, F |- *. inversion Fv; inversion Fp; subst.
    destruct (exec1_y U U' K u HU clk _ _ _ _ _ _ _ H1 Hw E1 E2) as [Ew Hr]. cbn [fst snd] in Ew, Hr. subst ws2.
    destruct (valid_step (U := U) clk lo hi _ _ _ _ _ _ V E1) as [V1 Eg]; [assumption|assumption|].
    change (call_of a :: map call_of l) with ([call_of a] ++ map call_of l) in F |- *. rewrite app_assoc in F |- *.
    assert (F1 : few_hops lo hi (hops (tr ++ [call_of a]))).
    { rewrite hops_app in F. eapply few_less; [exact HB| |exact F]. unfold hops. lia. }
    destruct Hr as [Hr|Hr]; [|exfalso; exact (no_bad (U := U) clk lo hi HD HB _ _ _ V1 F1 Hr)].
    rewrite <- Eg in *. eapply IH; eauto.
Qed.
Lemma other_runs l : forall tr tr' g g' ws r, wrel u g g' -> valid_reach (U := U) clk lo hi tr g ws -> valid_reach (U := U') clk (c * lo) (c * hi) tr' g' ws ->
  hops tr' = hops tr ->
  Forall (valid_call (g_heap g)) (map call_of l) -> Forall (paced_call (g_heap g) lo hi) (map call_of l) ->
  few_hops lo hi (hops (tr ++ map call_of l)) -> few_hops (c * lo) (c * hi) (hops (tr ++ map call_of l)) ->
  exec (U := U) clk l (g, ws) = Some r -> exists l' r', Forall2 (new_act u) l l' /\ exec (U := U') clk l' (g', ws) = Some r'.
Proof.
  induction l as [|a l IH]; intros tr tr' g g' ws r Hw V V' Eh Fv Fp F F' E; [exists [], (g', ws); split; [constructor|reflexivity]|].
  cbn [exec] in E. destruct (exec1 (U := U) clk a (g, ws)) as [[g1 ws1]|] eqn:E1; [|discriminate].
  cbn [map] in Fv, Fp, F, F'. inversion Fv; inversion Fp; subst.
  change (call_of a :: map call_of l) with ([call_of a] ++ map call_of l) in F, F'. rewrite app_assoc in F, F'.
  assert (F1 : few_hops lo hi (hops (tr ++ [call_of a]))).
  { rewrite hops_app in F. eapply few_less; [exact HB| |exact F]. unfold hops. lia. }
  assert (F1' : few_hops (c * lo) (c * hi) (hops (tr ++ [call_of a]))).
  { rewrite hops_app in F'. eapply few_less; [exact HB'| |exact F']. unfold hops. lia. }
  destruct (runs1 tr tr' g g' ws a (g1, ws1) Hw V V' Eh F1') as (a' & [g2 ws2] & Ha & E2); [assumption|exact E1|].
  destruct (exec1_y U U' K u HU clk _ _ _ _ _ _ _ Ha Hw E1 E2) as [Ew Hr]. cbn [fst snd] in Ew, Hr. subst ws2.
  destruct (valid_step (U := U) clk lo hi _ _ _ _ _ _ V E1) as [V1 Eg]; [assumption|assumption|].
  destruct Hr as [Hr|Hr]; [|exfalso; exact (no_bad (U := U) clk lo hi HD HB _ _ _ V1 F1 Hr)].
  assert (Egh : g_heap g' = nheap u (g_heap g)) by (destruct Hw as (m & -> & _); reflexivity).
  destruct (valid_step (U := U') clk (c * lo) (c * hi) _ _ _ _ _ _ V' E2) as [V2 _].
  { rewrite Egh. eapply new_valid; eauto. }
  { rewrite Egh. eapply new_paced; eauto. }
  rewrite <- Eg in *. destruct (IH (tr ++ [call_of a]) (tr' ++ [call_of a']) g1 g2 ws1 r Hr V1 V2) as (l2 & r2 & Y2 & X2); try assumption.
  - rewrite !hops_app, Eh. f_equal. destruct Ha; reflexivity.
  - exists (a' :: l2), r2. split; [constructor; assumption|]. cbn [exec]. rewrite E2. exact X2.
Qed.
Lemma wrel_new walkers h count tick : wrel u (world_new walkers h count tick : @world XR G) (world_new (vmap (new_walker u) walkers) (new_heap u h) count tick).
Proof. exists []. split; [reflexivity|constructor]. Qed.
Lemma valid_new (V : @Ugly XR) a b walkers h count tick : NoDup (ukeys walkers) -> (0 <= count)%Z ->
  valid_reach (U := V) clk a b [] (world_new walkers h count tick : @world XR G) [].
Proof. intros ND H0. split; [exists walkers, h, count, tick; split; [exact ND|split; [exact H0|constructor]]|split; constructor]. Qed.
Lemma unit_same walkers h count tick l l' g ws g' ws' : NoDup (ukeys walkers) -> (0 <= count)%Z ->
  Forall (valid_call h) (map call_of l) -> Forall (paced_call h lo hi) (map call_of l) -> few_hops lo hi (hops (map call_of l)) ->
  Forall2 (new_act u) l l' ->
  exec (U := U) clk l (world_new walkers h count tick, []) = Some (g, ws) ->
  exec (U := U') clk l' (world_new (vmap (new_walker u) walkers) (new_heap u h) count tick, []) = Some (g', ws') -> ws' = ws /\ same_in_unit u g g'.
Proof.
  intros ND H0 Fv Fp F Hl E E'.
  destruct (same_runs l [] l' _ _ _ _ _ Hl (wrel_new walkers h count tick) (valid_new U lo hi walkers h count tick ND H0) Fv Fp F E E') as (A & B & V).
  cbn [fst snd app] in *. split; [exact A|]. apply (y_same K); [|exact B]. exact (no_bad (U := U) clk lo hi HD HB _ _ _ V F).
Qed.
Lemma unit_free walkers h count tick l l' g ws g' ws' k v : NoDup (ukeys walkers) -> (0 <= count)%Z ->
  Forall (valid_call h) (map call_of l) -> Forall (paced_call h lo hi) (map call_of l) -> few_hops lo hi (hops (map call_of l)) ->
  Forall2 (new_act u) l l' ->
  exec (U := U) clk l (world_new walkers h count tick, []) = Some (g, ws) ->
  exec (U := U') clk l' (world_new (vmap (new_walker u) walkers) (new_heap u h) count tick, []) = Some (g', ws') ->
  cluster_of g k unassignedId -> visits g k v -> visits g' k v.
Proof.
  intros ND H0 Fv Fp F Hl E E' Ec (x & Ev).
  destruct (same_runs l [] l' _ _ _ _ _ Hl (wrel_new walkers h count tick) (valid_new U lo hi walkers h count tick ND H0) Fv Fp F E E') as (_ & B & V).
  cbn [fst snd app] in *. apply cluster_of_iff in Ec. destruct Ec as (s & Es & Ec). rewrite (free_visits _ _ _ Es Ec) in Ev. inversion Ev; subst.
  destruct B as (m & -> & _). exists (nw u m x). change (s_visits s) with (s_visits (su u s)). apply free_visits; [|exact Ec].
  cbn [nw g_sites]. rewrite vm_lookup, Es. reflexivity.
Qed.
Lemma unit_runs walkers h count tick l g ws : NoDup (ukeys walkers) -> (0 <= count)%Z ->
  Forall (valid_call h) (map call_of l) -> Forall (paced_call h lo hi) (map call_of l) ->
  few_hops lo hi (hops (map call_of l)) -> few_hops (c * lo) (c * hi) (hops (map call_of l)) ->
  exec (U := U) clk l (world_new walkers h count tick, []) = Some (g, ws) ->
  exists l' g', Forall2 (new_act u) l l' /\
    exec (U := U') clk l' (world_new (vmap (new_walker u) walkers) (new_heap u h) count tick, []) = Some (g', ws) /\ same_in_unit u g g'.
Proof.
  intros ND H0 Fv Fp F F' E. assert (ND' : NoDup (ukeys (vmap (new_walker u) walkers))) by (rewrite vm_keys; exact ND).
  destruct (other_runs l [] [] _ _ _ _ (wrel_new walkers h count tick) (valid_new U lo hi walkers h count tick ND H0)
    (valid_new U' (c * lo) (c * hi) _ (new_heap u h) count tick ND' H0) eq_refl Fv Fp F F' E) as (l' & [g' ws'] & Hl & E').
  destruct (unit_same _ _ _ _ _ _ _ _ _ _ ND H0 Fv Fp F Hl E E') as [-> S]. exists l', g'. auto.
Qed.
End Two.
