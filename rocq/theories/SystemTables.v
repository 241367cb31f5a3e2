(** * Clusters that gain no sites keep their tables, for every arithmetic *)
From Coq Require Import ZArith List Bool Lia Permutation.
From Verif Require Import Base BaseProofs Num WalkerModel SiteModel ClusterModel ClusterFrame ClusterHist ClusterOps ClusterStay
  ContainerModel BasinModel SystemModel SystemSpec SystemShape SystemHop SystemCoarse SystemMerge SystemProofs SystemInit SystemFacts SystemControl ReportSpec SystemOps.
Import ListNotations.
Open Scope Z_scope.

Section Tables.
Context {I : Impl} {N : Num} {G : Rng} {U : Ugly}.
Variable clk : Z -> Z.

Definition same_tables (a b : cluster) : Prop :=
  c_tau b = c_tau a /\ c_res b = c_res a /\ c_inc b = c_inc a /\ c_cint b = c_cint a /\ c_cnbr b = c_cnbr a.
Lemma tables_refl a : same_tables a a. Proof. repeat split. Qed.
Lemma tables_trans a b c : same_tables a b -> same_tables b c -> same_tables a c.
Proof. intros (A1 & A2 & A3 & A4 & A5) (B1 & B2 & B3 & B4 & B5). repeat split; congruence. Qed.
Lemma tables_frz a b : frz_c b = frz_c a -> same_tables a b.
Proof. intros E. repeat split; [change (c_tau (frz_c b) = c_tau (frz_c a))|change (c_res (frz_c b) = c_res (frz_c a))|change (c_inc (frz_c b) = c_inc (frz_c a))|
  change (c_cint (frz_c b) = c_cint (frz_c a))|change (c_cnbr (frz_c b) = c_cnbr (frz_c a))]; rewrite E; reflexivity. Qed.

(** the tables of a cluster change only if it gains a site *)
Definition quiet (g g' : world) : Prop := forall c cl', ulookup c (g_clusters g') = Some cl' ->
  (exists cl, ulookup c (g_clusters g) = Some cl /\ same_tables cl cl') \/ g_count g <= c \/ (exists k, holds g' c k /\ ~ holds g c k).
Lemma quiet_same g g' : g_clusters g' = g_clusters g -> quiet g g'.
Proof. intros E c cl. rewrite E. intros X. left. exists cl. split; [exact X|apply tables_refl]. Qed.
Lemma frz_lookup (m m' : umap cluster) : map (on_snd frz_c) m' = map (on_snd frz_c) m -> forall c cl', ulookup c m' = Some cl' ->
  exists cl, ulookup c m = Some cl /\ frz_c cl' = frz_c cl.
Proof.
  revert m'. induction m as [|[k v] m IH]; intros [|[k' v'] m'] E c cl'; try discriminate.
  change (map (on_snd frz_c) ((k', v') :: m')) with ((k', frz_c v') :: map (on_snd frz_c) m') in E.
  change (map (on_snd frz_c) ((k, v) :: m)) with ((k, frz_c v) :: map (on_snd frz_c) m) in E.
  remember (frz_c v') as fv' eqn:F'. remember (frz_c v) as fv eqn:F. injection E as Ek Ev E. subst k' fv'. cbn [ulookup fst snd].
  destruct (c =? k).
  - intros X. injection X as <-. exists v. split; [reflexivity|congruence].
  - apply IH, E.
Qed.
Lemma quiet_drift g g' : drift g g' -> forall c cl', ulookup c (g_clusters g') = Some cl' -> exists cl, ulookup c (g_clusters g) = Some cl /\ same_tables cl cl'.
Proof.
  intros D c cl' E. destruct (frz_lookup _ _ (m_clusters _ _ D) c cl' E) as (cl & Ec & Ef). exists cl. split; [exact Ec|apply tables_frz, Ef].
Qed.
Lemma quiet_replace g c cl cl' : ulookup c (g_clusters g) = Some cl -> same_tables cl cl' -> quiet g (g_with_clusters (ureplace c cl' (g_clusters g)) g).
Proof.
  intros E O x y. cbn [g_clusters g_with_clusters]. rewrite (ureplace_lookup_some _ _ _ cl) by exact E.
  destruct (Z.eqb_spec x c) as [->|]; intros X; left; [inversion X; subst; exists cl; auto|exists y; split; [exact X|apply tables_refl]].
Qed.
Lemma absorb_others fuel fav l : forall g g', ~ In fav l -> NoDup (ukeys (g_clusters g)) -> mfor l (absorb fuel fav) g = Ret tt g' ->
  forall x y, x <> fav -> ulookup x (g_clusters g') = Some y -> ulookup x (g_clusters g) = Some y.
Proof.
  induction l as [|c l IH]; intros g g' Nf ND E x y Nx; cbn [mfor] in E; [inversion E; subst; auto|].
  apply bind_ret_inv in E. destruct E as ([] & g1 & E1 & E).
  apply absorb_inv in E1; [|intros X; apply Nf; left; symmetry; exact X|exact ND]. destruct E1 as (a & b & p & Ea & Eb & Em & m & -> & NDm & L).
  intros X. apply (IH (g_with_clusters m g) g' (fun Y => Nf (or_intror Y)) NDm E x y Nx) in X. cbn [g_clusters g_with_clusters] in X. rewrite L in X.
  destruct (x =? c); [discriminate|]. destruct (Z.eqb_spec x fav); [contradiction|exact X].
Qed.
Lemma merge_quiet fuel sac g g' : shape g -> NoDup (ukeys sac) ->
  (forall k c, ulookup k sac = Some c -> exists s, ulookup k (g_sites g) = Some s /\ c = s_cluster s) ->
  merge_clusters fuel sac (favored sac) g = Ret tt g' ->
  forall x y, x <> favored sac -> ulookup x (g_clusters g') = Some y -> ulookup x (g_clusters g) = Some y.
Proof.
  intros Sh ND Hs E x y Nx X. apply merge_mid in E; auto.
  destruct E as (iso & cids & g1 & g3 & a & a1 & a2 & _ & Rl & Ea & Ea1 & Ea2 & Eg3 & Eabs & _ & NDc & Hc & _).
  assert (Nf : ~ In (favored sac) (ukeys cids)) by (intros Y; apply Hc in Y; tauto).
  assert (N3 : NoDup (ukeys (g_clusters g3))) by (subst g3; cbn [g_clusters g_with_clusters]; rewrite ureplace_keys; apply Sh).
  apply (absorb_others _ _ _ _ _ Nf N3 Eabs x y Nx) in X. subst g3. cbn [g_clusters g_with_clusters] in X.
  rewrite (ureplace_lookup_some _ _ _ a) in X by exact Ea. destruct (Z.eqb_spec x (favored sac)); [contradiction|exact X].
Qed.
Lemma create_quiet fuel l limit g g' : create_cluster clk fuel l limit g = Ret tt g' -> NoDup (ukeys (g_clusters g)) ->
  forall x y, ulookup x (g_clusters g') = Some y -> ulookup x (g_clusters g) = Some y \/ g_count g <= x.
Proof.
  intros E ND x y X. apply create_inv in E. destruct E as (t & l' & tres & c1 & c2 & e & g1 & _ & _ & _ & _ & E). cbv zeta in E.
  destruct E as (_ & Em & Ec1 & _ & Es1 & _ & _ & _ & _ & _ & _ & _ & _ & Lb).
  rewrite (b_clusters _ _ _ _ Lb), Ec1, uset_lookup in X by exact ND. destruct (Z.eqb_spec x (g_count g)) as [->|]; [right; lia|left; exact X].
Qed.
Lemma coarse_quiet fuel k g b g' : shape g -> coarse_grain clk fuel k g = Ret b g' -> quiet g g'.
Proof.
  intros Sh E. destruct (coarse_inv clk _ _ _ _ _ Sh E) as (l & _ & ok & _ & H1). cbv zeta in H1.
  set (g1 := g_with_tick (g_tick g + 1) g) in *.
  assert (Sh1 : shape g1) by (destruct Sh; constructor; assumption).
  destruct H1 as [[_ ->]|(_ & _ & sac & ND & A1 & A2 & [(_ & A3 & Ne & E1)|(Nc & E1)])].
  - apply quiet_same. reflexivity.
  - intros x y X. destruct (create_quiet _ _ _ _ _ E1 (h_ndc _ _ _ Sh1) x y X) as [Y|Y]; [left; exists y; split; [exact Y|apply tables_refl]|right; left; exact Y].
  - assert (Hs : forall j c, ulookup j sac = Some c -> exists s, ulookup j (g_sites g1) = Some s /\ c = s_cluster s).
    { intros j c Ej. destruct (in_dec Z.eq_dec j l) as [Hj|Hj]; [|rewrite (A2 j Hj) in Ej; discriminate].
      destruct (A1 j Hj) as (s & Es & E2). exists s. split; [exact Es|congruence]. }
    intros x y X. destruct (Z.eq_dec x (favored sac)) as [->|Nx].
    + right. right. exact (merge_gain_fav clk _ _ _ _ Sh1 ND Hs Nc E1).
    + left. exists y. split; [|apply tables_refl]. exact (merge_quiet _ _ _ _ Sh1 ND Hs E1 x y Nx X).
Qed.
Lemma attempt_quiet fuel dst g g' : shape g -> hop_attempt clk fuel dst g = Ret tt g' -> quiet g g'.
Proof.
  intros Sh E. apply attempt_inv in E. destruct E as (_ & [(_ & ->)|[(_ & _ & ->)|(_ & _ & b & g1 & E & _ & ->)]]); [apply quiet_same; reflexivity|apply quiet_same; reflexivity|].
  apply coarse_quiet in E; [exact E|destruct Sh; constructor; assumption].
Qed.
Lemma hop_quiet fuel id p g g' ws : inv g ws -> In p ws -> sys_hop clk fuel id p g = Ret tt g' -> quiet g g'.
Proof.
  intros V Hp E. apply hop_inv in E. destruct E as (w & g1 & Ew & _ & _ & E1 & E2).
  destruct (move_step _ _ _ _ _ _ _ _ V Hp (ex_intro _ w (conj Ew eq_refl)) E1) as (V1 & D1 & _).
  pose proof (drift_holds _ _ D1) as Hh. pose proof (e_count _ _ _ (move_evolve clk (eq id) _ _ _ _ _ _ eq_refl E1)) as Hn.
  intros c cl' Ec. destruct (attempt_quiet _ _ _ _ (v_shape _ _ V1) E2 c cl' Ec) as [(cl & Ecl & S)|[X|(k & A & B)]].
  - left. destruct (quiet_drift _ _ D1 c cl Ecl) as (cl0 & Ec0 & S0). exists cl0. split; [exact Ec0|eapply tables_trans; eauto].
  - right. left. lia.
  - right. right. exists k. split; [exact A|]. rewrite <- (Hh c k). exact B.
Qed.
Lemma remove_tables clock w k : forall cl a cl', c_removeWalker clock w k cl = Ret a cl' -> same_tables cl cl'.
Proof.
  intros cl [] cl'. unfold c_removeWalker. rewrite vacate_eq. intros E. inversion E; subst. repeat split.
Qed.
Lemma step_quiet g ws a g' ws' : inv g ws -> step clk g ws a g' ws' -> quiet g g'.
Proof.
  intros V S. destruct S as [p g' E|t g' E|t g' E|s g' E|rates g' ND _ E|h|m Hm L|n t Hn|l g' H1 H2 H3 H4 H5 E|fuel id p g' Hp E|id p g' Hp E|k v g' E].
  - inversion E; subst. apply quiet_same; reflexivity.
  - unfold sys_setTimeResolution in E. destruct (nleb t n0); [discriminate|]. inversion E; subst. apply quiet_same; reflexivity.
  - inversion E; subst. apply quiet_same; reflexivity.
  - unfold sys_setRandomSeed in E. apply bind_ret_inv in E. destruct E as (f & g1 & E1 & E). inversion E1; subst f g1; clear E1.
    destruct (g_feats g); [|discriminate]. inversion E; subst. apply quiet_same; reflexivity.
  - destruct (init_carried clk _ _ _ _ V E) as (A & B & _). apply quiet_same; exact A.
  - apply quiet_same; reflexivity.
  - apply quiet_same; reflexivity.
  - apply quiet_same; reflexivity.
  - unfold sys_initializeWalkers in E. apply bind_ret_inv in E. destruct E as (f & g1 & E1 & E). inversion E1; subst f g1; clear E1.
    destruct (g_feats g) as [|f0 fs] eqn:Ef; [discriminate|]. destruct (enter_keeps l g g') as [A B]; [|exact E|apply quiet_same; exact A].
    intros p w Hp Ew. specialize (H5 p (w_cur w) Hp (ex_intro _ w (conj Ew eq_refl))). apply cluster_of_iff in H5. destruct H5 as (s & Es & Eu).
    exists (w_cur w). rewrite (h_feat _ _ _ (v_shape _ _ V)), Es, Eu, Z.eqb_refl. reflexivity.
  - eapply hop_quiet; eauto.
  - unfold sys_removeWalker in E. apply bind_ret_inv in E. destruct E as (k & g1 & E1 & E). apply getSite_ret in E1. destruct E1 as (-> & _).
    unfold f_removeWalker in E. apply bind_ret_inv in E. destruct E as (t & g1 & E1 & E). apply read_clock_ret in E1. subst g1.
    apply on_feature_ret in E. destruct E as [(j & s & s' & _ & Es & Em & ->)|(c & cl & cl' & _ & Ec & Em & ->)]; [apply quiet_same; reflexivity|].
    apply (quiet_replace g c cl cl' Ec). eapply remove_tables, Em.
  - apply getVisits_inv in E. destruct E as (s & _ & [(_ & _ & ->)|(_ & cl & cl' & v' & Ec & Ev & _ & ->)]); [apply quiet_same; reflexivity|].
    apply (quiet_replace g _ cl cl' Ec). repeat split; eapply (getVisits_leaves k); try exact Ev; reflexivity.
Qed.

(** ** Runs *)
Lemma run_tables g ws tr g' ws' c cl' : inv g ws -> steps clk g ws tr g' ws' -> c < g_count g -> ulookup c (g_clusters g') = Some cl' ->
  (forall k, holds g' c k -> holds g c k) ->
  exists cl, ulookup c (g_clusters g) = Some cl /\ same_tables cl cl' /\ (forall k, holds g c k -> holds g' c k) /\ g_count g <= g_count g'.
Proof.
  intros V S Hc. revert cl'. induction S as [|tr g1 ws1 a g2 ws2 S IH St]; intros cl' Ec Hs.
  - exists cl'. split; [exact Ec|]. split; [apply tables_refl|]. split; [auto|lia].
  - pose proof (steps_inv clk _ _ _ _ _ V S) as V1. pose proof (step_carried clk _ _ _ _ _ V1 St) as Y.
    assert (Hn : g_count g <= g_count g1) by (clear - V S; induction S as [|tr g1 ws1 a g2 ws2 S IH St]; [lia|];
      pose proof (y_count _ _ (step_carried clk _ _ _ _ _ (steps_inv clk _ _ _ _ _ V S) St)); lia).
    assert (K2 : known g2 c) by (eapply ulookup_In_key; exact Ec).
    destruct (y_fresh _ _ Y c K2) as [K1|X]; [|lia]. apply ukeys_In in K1. destruct K1 as [cl1 Ec1].
    destruct (IH cl1 Ec1) as (cl & Ecl & T & Hk & _).
    { intros k Hk. apply Hs, (y_keep _ _ Y); assumption. }
    destruct (step_quiet _ _ _ _ _ V1 St c cl' Ec) as [(x & Ex & T')|[X|(k & A & B)]].
    + assert (x = cl1) by congruence. subst x. exists cl. split; [exact Ecl|]. split; [eapply tables_trans; eauto|].
      split; [intros k Hh; apply (y_keep _ _ Y); auto|]. pose proof (y_count _ _ Y). lia.
    + lia.
    + exfalso. apply B, Hk, Hs, A.
Qed.
(** clusters do not lose sites *)
Lemma run_keeps g ws tr g' ws' c k : inv g ws -> steps clk g ws tr g' ws' -> c < g_count g -> known g' c -> holds g c k -> holds g' c k.
Proof.
  intros V S Hc. induction S as [|tr g1 ws1 a g2 ws2 S IH St]; intros K2 Hk; [exact Hk|].
  pose proof (steps_inv clk _ _ _ _ _ V S) as V1. pose proof (step_carried clk _ _ _ _ _ V1 St) as Y.
  assert (Hn : g_count g <= g_count g1) by (clear - V S; induction S as [|tr g1 ws1 a g2 ws2 S IH St]; [lia|];
    pose proof (y_count _ _ (step_carried clk _ _ _ _ _ (steps_inv clk _ _ _ _ _ V S) St)); lia).
  destruct (y_fresh _ _ Y c K2) as [K1|X]; [|lia]. apply (y_keep _ _ Y); auto.
Qed.
(** what is reported about a cluster *)
Lemma report_of g ws c cl : inv g ws -> ulookup c (g_clusters g) = Some cl ->
  (forall x, time_constant g c x <-> x = c_tau cl) /\ (forall x, cluster_resolution g c x <-> x = c_res cl) /\ (forall x, increment g c x <-> x = c_inc cl).
Proof.
  intros V Ec. pose proof (h_ndc _ _ _ (v_shape _ _ V)) as N2.
  assert (P : forall (f : cluster -> num) x, ulookup c (per_cluster f (g_clusters g)) = Some x <-> x = f cl).
  { intros f x. unfold per_cluster. rewrite fold_uset_lookup; [|constructor|exact N2]. rewrite Ec. split; [intros X; inversion X; reflexivity|intros ->; reflexivity]. }
  split; [|split].
  - intros x. split; [intros (cl' & E & <-); assert (cl' = cl) by congruence; subst; reflexivity|intros ->; exists cl; auto].
  - intros x. split; [intros (m & g' & E & Ex); inversion E; subst m g'; apply P in Ex; exact Ex|].
    intros ->. exists (per_cluster c_getResolution (g_clusters g)). eexists. split; [reflexivity|]. apply P. reflexivity.
  - intros x. split; [intros (m & g' & E & Ex); inversion E; subst m g'; apply P in Ex; exact Ex|].
    intros ->. exists (per_cluster c_getTimeIncrement (g_clusters g)). eexists. split; [reflexivity|]. apply P. reflexivity.
Qed.
Lemma run_reports g ws tr g' ws' c : inv g ws -> steps clk g ws tr g' ws' -> is_cluster g c -> is_cluster g' c -> (forall k, listed g' c k -> listed g c k) ->
  (forall x, time_constant g' c x <-> time_constant g c x) /\ (forall x, cluster_resolution g' c x <-> cluster_resolution g c x) /\
  (forall x, increment g' c x <-> increment g c x).
Proof.
  intros V S Hc Hc' Hs. pose proof (steps_inv clk _ _ _ _ _ V S) as V'. pose proof (h_ndc _ _ _ (v_shape _ _ V)) as N1. pose proof (h_ndc _ _ _ (v_shape _ _ V')) as N2.
  rewrite is_cluster_known in Hc, Hc' by assumption. pose proof (small_ids _ _ _ V Hc) as Lt. apply ukeys_In in Hc'. destruct Hc' as [cl' Ec'].
  destruct (run_tables _ _ _ _ _ c cl' V S (proj2 Lt) Ec') as (cl & Ec & (T1 & T2 & T3 & _) & _).
  { intros k Hk. apply (listed_holds _ _ _ N1), Hs, (listed_holds _ _ _ N2), Hk. }
  destruct (report_of _ _ _ _ V Ec) as (A1 & A2 & A3), (report_of _ _ _ _ V' Ec') as (B1 & B2 & B3).
  split; [intros x; rewrite A1, B1, T1; tauto|]. split; intros x; [rewrite A2, B2, T2; tauto|rewrite A3, B3, T3; tauto].
Qed.
Lemma run_listed g ws tr g' ws' c k : inv g ws -> steps clk g ws tr g' ws' -> is_cluster g' c -> listed g c k -> listed g' c k.
Proof.
  intros V S Hc' Hk. pose proof (steps_inv clk _ _ _ _ _ V S) as V'. pose proof (h_ndc _ _ _ (v_shape _ _ V)) as N1. pose proof (h_ndc _ _ _ (v_shape _ _ V')) as N2.
  rewrite is_cluster_known in Hc' by assumption. apply (listed_holds _ _ _ N1) in Hk. apply (listed_holds _ _ _ N2).
  assert (K : known g c) by (destruct Hk as (cl & E0 & E & _); eapply ulookup_In_key; exact E).
  exact (run_keeps _ _ _ _ _ c k V S (proj2 (small_ids _ _ _ V K)) Hc' Hk).
Qed.
End Tables.
