(** * What calls of the system do to its clusters *)
From Coq Require Import ZArith List Bool Lia Permutation.
From Verif Require Import Base BaseProofs Num WalkerModel SiteModel ClusterModel ClusterFrame ClusterHist ClusterOps ClusterStay
  ContainerModel BasinModel SystemModel SystemSpec SystemShape SystemHop SystemCoarse SystemMerge SystemProofs SystemInit SystemFacts.
Import ListNotations.
Open Scope Z_scope.

Section Ops.
Context {I : Impl} {N : Num} {G : Rng} {U : Ugly}.
Variable clk : Z -> Z.

(** ** Operations by some walker ids *)
(** operations of the system, and questions asked for the walker ids [ids] *)
Inductive ops (ids : Z -> Prop) : cluster -> cluster -> Prop :=
| op_refl c : ops ids c c
| op_sys o a b c : ops ids a b -> sstep o b c -> ops ids a c
| op_dwell j d a b c : ops ids a b -> ids j -> c_getDwellTime j b = Ret d c -> ops ids a c
| op_pick j k a b c : ops ids a b -> ids j -> c_pick j b = Ret k c -> ops ids a c.
Lemma ops_trans ids a b c : ops ids a b -> ops ids b c -> ops ids a c.
Proof. intros A B. induction B; eauto using op_sys, op_dwell, op_pick. Qed.
Lemma ops_mono (P Q : Z -> Prop) a b : (forall j, P j -> Q j) -> ops P a b -> ops Q a b.
Proof. intros H A. induction A; eauto using op_refl, op_sys, op_dwell, op_pick. Qed.
Lemma ops_others w a b : ops (fun j => j <> w) a b -> others w a b.
Proof. induction 1; eauto using ot_refl, ot_sys, ot_dwell, ot_pick. Qed.
Lemma ops_built ids a b : built a -> ops ids a b -> built b.
Proof. intros A B. induction B; eauto using built_step, cs_sys, cs_dwell, cs_pick. Qed.
(** made with the constructor and changed by operations of the interface *)
Definition made (c : cluster) : Prop := exists i clock, ops (fun _ => True) (cluster_new i clock) c.
Lemma made_built c : made c -> built c.
Proof. intros (i & clock & O). eapply ops_built; [apply built_new|exact O]. Qed.
Lemma made_ops ids a b : made a -> ops ids a b -> made b.
Proof. intros (i & clock & O) B. exists i, clock. eapply ops_trans; [exact O|]. eapply ops_mono; [|exact B]. auto. Qed.
Lemma made_new i clock : made (cluster_new i clock).
Proof. exists i, clock. apply op_refl. Qed.
Lemma made_step o a b : made a -> sstep o a b -> made b.
Proof. intros A B. eapply made_ops; [exact A|]. eapply (op_sys (fun _ => True)); [apply op_refl|exact B]. Qed.
Lemma op_one ids o a b : sstep o a b -> ops ids a b.
Proof. intros S. eapply op_sys; [apply op_refl|exact S]. Qed.

Lemma ops_entering ids j a b : ops ids a b -> ~ ids j -> neat a -> entering j a -> entering j b.
Proof.
  intros O Hj Hn He. apply entering_iff. apply entering_iff in He. rewrite <- He. apply others_lookup; [|exact Hn].
  apply ops_others. eapply ops_mono; [|exact O]. intros x Hx ->. contradiction.
Qed.

(** every cluster after is one from before on which operations were made, or new *)
Record evolve (ids : Z -> Prop) (g g' : world) : Prop := {
  e_count : g_count g <= g_count g';
  e_cl : forall c cl', ulookup c (g_clusters g') = Some cl' ->
    (exists cl, ulookup c (g_clusters g) = Some cl /\ ops ids cl cl') \/ (g_count g <= c /\ made cl' /\ forall j, ~ ids j -> entering j cl') }.
Lemma evolve_same ids g g' : g_clusters g' = g_clusters g -> g_count g <= g_count g' -> evolve ids g g'.
Proof. intros A B. constructor; [exact B|]. rewrite A. intros c cl E. left. exists cl. split; [exact E|apply op_refl]. Qed.
Lemma evolve_refl ids g : evolve ids g g.
Proof. apply evolve_same; [reflexivity|lia]. Qed.
Lemma evolve_trans ids a b c : evolve ids a b -> evolve ids b c -> evolve ids a c.
Proof.
  intros [A1 A2] [B1 B2]. constructor; [lia|]. intros k cl E. destruct (B2 k cl E) as [(cl1 & E1 & O1)|(L1 & T1)]; [|right; split; [lia|exact T1]].
  destruct (A2 k cl1 E1) as [(cl0 & E0 & O0)|(L0 & M0 & T0)].
  - left. exists cl0. split; [exact E0|eapply ops_trans; eauto].
  - right. split; [exact L0|]. split; [eapply made_ops; eauto|]. intros j Hj. eapply ops_entering; eauto. apply built_neat, made_built, M0.
Qed.
Lemma evolve_mono (P Q : Z -> Prop) g g' : (forall j, P j -> Q j) -> evolve P g g' -> evolve Q g g'.
Proof. intros H [A B]. constructor; [exact A|]. intros c cl E. destruct (B c cl E) as [(x & X & O)|X]; [left; exists x; split; [exact X|eapply ops_mono; eauto]|right; destruct X as (X1 & X2 & X3); split; [exact X1|]; split; [exact X2|]; intros j Hj; apply X3; auto]. Qed.
Lemma evolve_replace ids g c cl cl' : ulookup c (g_clusters g) = Some cl -> ops ids cl cl' ->
  evolve ids g (g_with_clusters (ureplace c cl' (g_clusters g)) g).
Proof.
  intros E O. constructor; [cbn; lia|]. intros x y. cbn [g_clusters g_with_clusters]. rewrite (ureplace_lookup_some _ _ _ cl) by exact E.
  destruct (Z.eqb_spec x c) as [->|]; intros X; left; [inversion X; subst; exists cl; auto|exists y; split; [exact X|apply op_refl]].
Qed.

(** ** Calls through a feature *)
Lemma feature_evolve {A} ids k (ms : M site A) (mc : M cluster A) g a g' :
  (forall cl cl', mc cl = Ret a cl' -> ops ids cl cl') -> on_feature k ms mc g = Ret a g' -> evolve ids g g'.
Proof.
  intros H E. apply on_feature_ret in E. destruct E as [(j & s & s' & _ & _ & _ & ->)|(c & cl & cl' & _ & Ec & Em & ->)].
  - apply evolve_same; [reflexivity|cbn; lia].
  - apply (evolve_replace ids g c cl cl' Ec). apply H, Em.
Qed.
Lemma walker_evolve {A} ids p (m : M walker A) g a g' : in_walker p m g = Ret a g' -> evolve ids g g'.
Proof. intros E. apply in_walker_ret in E. destruct E as (w & w' & _ & _ & ->). apply evolve_same; [reflexivity|cbn; lia]. Qed.
Lemma clock_evolve ids g a g' : read_clock clk g = Ret a g' -> evolve ids g g'.
Proof. intros E. apply read_clock_ret in E. subst. apply evolve_same; [reflexivity|cbn; lia]. Qed.
Lemma isOccupied_evolve ids k j g b g' : f_isOccupied k j g = Ret b g' -> evolve ids g g'.
Proof.
  apply feature_evolve. intros cl cl' E. apply bind_ret_inv in E. destruct E as (x & c1 & E1 & E). inversion E1; subst x c1.
  apply lift_ret in E. destruct E as [_ ->]. apply op_refl.
Qed.
Lemma vacate_evolve ids k j g g' : f_vacate clk k j g = Ret tt g' -> evolve ids g g'.
Proof.
  unfold f_vacate. intros E. apply bind_ret_inv in E. destruct E as (t & g1 & E1 & E). eapply evolve_trans; [apply (clock_evolve _ _ _ _ E1)|].
  revert E. apply feature_evolve. intros cl cl' E. eapply op_one, ss_vacate, E.
Qed.
Lemma occupy_evolve ids k j g g' : f_occupy k j g = Ret tt g' -> evolve ids g g'.
Proof. apply feature_evolve. intros cl cl' E. eapply op_one, ss_occupy, E. Qed.
Lemma remove_evolve ids k w j g g' : f_removeWalker clk k w j g = Ret tt g' -> evolve ids g g'.
Proof.
  unfold f_removeWalker. intros E. apply bind_ret_inv in E. destruct E as (t & g1 & E1 & E). eapply evolve_trans; [apply (clock_evolve _ _ _ _ E1)|].
  revert E. apply feature_evolve. intros cl cl' E. eapply op_one, ss_remove, E.
Qed.
Lemma dwell_evolve (ids : Z -> Prop) k w g d g' : ids w -> f_getDwellTime k w g = Ret d g' -> evolve ids g g'.
Proof. intros H. apply feature_evolve. intros cl cl' E. eapply op_dwell; [apply op_refl|exact H|exact E]. Qed.
Lemma pick_evolve (ids : Z -> Prop) k w g n g' : ids w -> f_pick k w g = Ret n g' -> evolve ids g g'.
Proof. intros H. apply feature_evolve. intros cl cl' E. eapply op_pick; [apply op_refl|exact H|exact E]. Qed.

(** ** Coarse graining *)
Lemma create_evolve ids fuel l limit g g' : create_cluster clk fuel l limit g = Ret tt g' -> NoDup (ukeys (g_clusters g)) -> evolve ids g g'.
Proof.
  unfold create_cluster. intros E ND. apply bind_ret_inv in E. destruct E as (c0 & g1 & E1 & E).
  apply new_cluster_ret in E1. destruct E1 as (t & -> & ->). cbn [c_id cluster_new] in E.
  apply bind_ret_inv in E. destruct E as (ss & g2 & E2 & E). pose proof (copy_inv _ _ _ _ E2) as (-> & _). clear E2.
  apply bind_ret_inv in E. destruct E as (h & g3 & E3 & E). inversion E3; subst h g3. clear E3.
  apply bind_ret_inv in E. destruct E as ([u c2] & g3 & E3 & E). apply local_ret in E3. destruct E3 as [-> E3]. cbn [fst snd] in E3, E.
  assert (B2 : made c2 /\ c_id c2 = g_count g /\ c_remaining c2 = []).
  { apply bind_ret_inv in E3. destruct E3 as ([] & k1 & F1 & E3).
    apply bind_ret_inv in E3. destruct E3 as ([] & k2 & F2 & E3).
    apply bind_ret_inv in E3. destruct E3 as ([] & k3 & F3 & E3). destruct u.
    pose proof (keeps_update _ _ _ _ _ E3) as K. destruct (addSites_inv _ _ _ F3) as (mm & Ek3 & _).
    assert (X : c_id k2 = g_count g /\ c_remaining k2 = []).
    { inversion F1; subst k1. apply bind_ret_inv in F2. destruct F2 as (u2 & k4 & F4 & F2). apply assert_ret in F4. destruct F4 as [_ ->]. inversion F2; subst; split; reflexivity. }
    split; [|rewrite (sc_id _ _ K), (sc_remaining _ _ K), Ek3; exact X].
    eapply made_step; [|eapply ss_update, E3]. eapply made_step; [|eapply ss_add, F3].
    eapply made_step; [|eapply ss_tol, F2]. eapply made_step; [|eapply ss_method, F1]. apply made_new. }
  apply bind_ret_inv in E. destruct E as (tr & g3 & E4 & E). inversion E4; subst tr g3. clear E4.
  match type of E with (match ?r with _ => _ end) _ = _ => destruct r as [tres|]; [|discriminate] end.
  apply bind_ret_inv in E. destruct E as ([[] c3] & g3 & E4 & E). apply local_ret in E4. destruct E4 as [-> E4]. cbn [fst snd] in E4, E.
  assert (B3 : made c3 /\ c_id c3 = g_count g /\ c_remaining c3 = []).
  { split; [eapply made_step; [apply B2|eapply ss_res, E4]|].
    apply bind_ret_inv in E4. destruct E4 as (u3 & k3 & F3 & E4). apply assert_ret in F3. destruct F3 as [_ ->]. inversion E4; subst. apply B2. }
  apply bind_ret_inv in E. destruct E as (seed & g3 & E5 & E). apply use_seed_ret in E5. destruct E5 as (sd & ->).
  apply bind_ret_inv in E. destruct E as ([[] c4] & g3 & E5 & E). apply local_ret in E5. destruct E5 as [-> E5]. cbn [fst snd] in E5, E.
  assert (B4 : made c4 /\ c_id c4 = g_count g /\ c_remaining c4 = []).
  { destruct seed as [x|]; [|inversion E5; subst; exact B3]. split; [eapply made_step; [apply B3|eapply ss_seed, E5]|].
    inversion E5; subst. apply B3. }
  apply bind_ret_inv in E. destruct E as ([] & g3 & E6 & E). apply in_clusters_ret in E6. destruct E6 as (m & E6 & ->).
  apply bind_ret_inv in E6. destruct E6 as (m0 & m1 & F6 & E6). inversion F6; subst m0 m1. clear F6.
  destruct (umem (c_id c4) _) eqn:Em in E6; [discriminate|]. inversion E6; subst m. clear E6.
  apply bind_ret_inv in E. destruct E as (cx & g3 & E7 & E). apply new_cluster_ret in E7. destruct E7 as (t' & -> & ->).
  apply label_all in E. constructor.
  - rewrite (b_count _ _ _ _ E). cbn. lia.
  - rewrite (b_clusters _ _ _ _ E). cbn. intros c cl. rewrite uset_lookup by exact ND. rewrite (proj1 (proj2 B4)).
    destruct (Z.eqb_spec c (g_count g)) as [->|]; intros X; [|left; exists cl; split; [exact X|apply op_refl]].
    inversion X; subst cl. right. split; [lia|]. split; [apply B4|]. intros j _. apply entering_iff. rewrite (proj2 (proj2 B4)). reflexivity.
Qed.
Lemma absorb_evolve ids fuel fav c g g' : fav <> c -> NoDup (ukeys (g_clusters g)) -> absorb fuel fav c g = Ret tt g' ->
  evolve ids g g' /\ NoDup (ukeys (g_clusters g')).
Proof.
  intros Ne ND E. apply absorb_inv in E; [|exact Ne|exact ND]. destruct E as (a & b & [p1 p2] & Ea & Eb & Em & m & -> & NDm & L).
  split; [|exact NDm]. constructor; [cbn; lia|]. cbn [g_clusters g_with_clusters]. intros x y. rewrite L. cbn [fst].
  destruct (x =? c); [discriminate|]. destruct (Z.eqb_spec x fav) as [->|]; intros X; left.
  - inversion X; subst y. exists a. split; [exact Ea|]. eapply op_one, ss_merge, Em.
  - exists y. split; [exact X|apply op_refl].
Qed.
Lemma absorb_all_evolve ids fuel fav l : forall g g', ~ In fav l -> NoDup (ukeys (g_clusters g)) -> mfor l (absorb fuel fav) g = Ret tt g' -> evolve ids g g'.
Proof.
  induction l as [|c l IH]; intros g g' Nf ND E; cbn [mfor] in E; [inversion E; subst; apply evolve_refl|].
  apply bind_ret_inv in E. destruct E as ([] & g1 & E1 & E).
  destruct (absorb_evolve ids _ _ _ _ _ (fun X => Nf (or_introl (eq_sym X))) ND E1) as [A B].
  eapply evolve_trans; [exact A|]. apply (IH g1 g'); auto. intros X. apply Nf. right; exact X.
Qed.
Lemma merge_evolve ids fuel sac fav g g' : shape g -> NoDup (ukeys sac) ->
  (forall k c, ulookup k sac = Some c -> exists s, ulookup k (g_sites g) = Some s /\ c = s_cluster s) ->
  merge_clusters fuel sac fav g = Ret tt g' -> evolve ids g g'.
Proof.
  intros Sh ND Hs E. apply merge_mid in E; auto.
  destruct E as (iso & cids & g1 & g3 & a & a1 & a2 & _ & Rl & Ea & Ea1 & Ea2 & Eg3 & Eabs & _ & NDc & Hc & _).
  assert (X : evolve ids g g3 /\ NoDup (ukeys (g_clusters g3))).
  { subst g3. cbn [g_clusters g_with_clusters]. rewrite ureplace_keys. split; [|apply Sh]. constructor; cbn [g_count g_clusters g_with_clusters].
    - rewrite (b_count _ _ _ _ Rl). lia.
    - intros x y. rewrite (ureplace_lookup_some _ _ _ a) by exact Ea. destruct (Z.eqb_spec x fav) as [->|]; intros X; left.
      + inversion X; subst y. exists a. split; [exact Ea|]. eapply op_sys; [eapply op_one, ss_add, Ea1|eapply ss_update, Ea2].
      + exists y. split; [exact X|apply op_refl]. }
  destruct X as [X1 X2]. eapply evolve_trans; [exact X1|]. apply (absorb_all_evolve ids _ _ _ _ _) with (3 := Eabs); [|exact X2].
  intros X. apply Hc in X. tauto.
Qed.
Lemma coarse_evolve ids fuel k g b g' : shape g -> coarse_grain clk fuel k g = Ret b g' -> evolve ids g g'.
Proof.
  intros Sh E. destruct (coarse_inv clk _ _ _ _ _ Sh E) as (l & _ & ok & _ & [[_ ->]|(_ & _ & sac & ND & H1 & H2 & [(_ & _ & _ & E')|(_ & E')])]).
  - apply evolve_same; [reflexivity|cbn; lia].
  - eapply evolve_trans; [|apply (create_evolve ids _ _ _ _ _ E'); apply Sh]. apply evolve_same; [reflexivity|cbn; lia].
  - eapply evolve_trans; [|apply (merge_evolve ids _ _ _ _ _) with (4 := E')]; [apply evolve_same; [reflexivity|cbn; lia]| |exact ND|].
    + destruct Sh; constructor; assumption.
    + intros j c Ej. destruct (in_dec Z.eq_dec j l) as [Hj|Hj]; [|rewrite (H2 j Hj) in Ej; discriminate].
      destruct (H1 j Hj) as (s & Es & X). exists s. split; [exact Es|congruence].
Qed.
Lemma attempt_evolve ids fuel dst g g' : shape g -> hop_attempt clk fuel dst g = Ret tt g' -> evolve ids g g'.
Proof.
  intros Sh E. apply attempt_inv in E. destruct E as (_ & [(_ & ->)|[(_ & _ & ->)|(_ & _ & b & g1 & E & _ & ->)]]).
  - apply evolve_same; [reflexivity|cbn; lia].
  - apply evolve_same; [reflexivity|cbn; lia].
  - apply (coarse_evolve ids) in E; [|destruct Sh; constructor; assumption]. destruct E as [A B]. constructor; [exact A|exact B].
Qed.

(** ** Hops *)
Lemma redraw_evolve (ids : Z -> Prop) k w p g g' : ids w ->
  (t <- f_getDwellTime k w ;; in_walker p (w_setDwellTime t) ;; n <- f_pick k w ;; in_walker p (w_setPotentialSite n)) g = Ret tt g' -> evolve ids g g'.
Proof.
  intros H E. apply bind_ret_inv in E. destruct E as (t & g1 & E1 & E). apply bind_ret_inv in E. destruct E as ([] & g2 & E2 & E).
  apply bind_ret_inv in E. destruct E as (n & g3 & E3 & E).
  eapply evolve_trans; [eapply dwell_evolve; eauto|]. eapply evolve_trans; [eapply walker_evolve; eauto|].
  eapply evolve_trans; [eapply pick_evolve; eauto|]. eapply walker_evolve; eauto.
Qed.
Lemma move_evolve (ids : Z -> Prop) id p src dst g g' : ids id -> hop_move clk id p src dst g = Ret tt g' -> evolve ids g g'.
Proof.
  intros H E. unfold hop_move in E. apply bind_ret_inv in E. destruct E as (b & g1 & E1 & E).
  eapply evolve_trans; [eapply isOccupied_evolve; eauto|]. clear E1. destruct b.
  - apply bind_ret_inv in E. destruct E as ([] & g2 & E2 & E). eapply evolve_trans; [eapply vacate_evolve; eauto|].
    apply bind_ret_inv in E. destruct E as ([] & g3 & E3 & E). eapply evolve_trans; [eapply occupy_evolve; eauto|].
    eapply redraw_evolve; eauto.
  - apply bind_ret_inv in E. destruct E as ([] & g2 & E2 & E). eapply evolve_trans; [eapply vacate_evolve; eauto|].
    apply bind_ret_inv in E. destruct E as ([] & g3 & E3 & E). eapply evolve_trans; [eapply occupy_evolve; eauto|].
    apply bind_ret_inv in E. destruct E as ([] & g4 & E4 & E). eapply evolve_trans; [eapply walker_evolve; eauto|].
    eapply redraw_evolve; eauto.
Qed.
Lemma hop_evolve fuel id p g g' ws : inv g ws -> In p ws -> sys_hop clk fuel id p g = Ret tt g' -> evolve (eq id) g g'.
Proof.
  intros V Hp E. apply hop_inv in E. destruct E as (w & g1 & Ew & _ & _ & E1 & E2).
  destruct (move_step _ _ _ _ _ _ _ _ V Hp (ex_intro _ w (conj Ew eq_refl)) E1) as (V1 & _).
  eapply evolve_trans; [apply (move_evolve (eq id) _ _ _ _ _ _ eq_refl E1)|]. eapply attempt_evolve; [apply V1|exact E2].
Qed.

(** ** The other calls *)
Lemma site_feature {A} k (ms : M site A) (mc : M cluster A) g a g' j : ulookup k (g_feats g) = Some (PSite j) -> on_feature k ms mc g = Ret a g' ->
  g_clusters g' = g_clusters g /\ g_count g' = g_count g /\ g_feats g' = g_feats g.
Proof.
  intros Ef E. apply on_feature_ret in E. destruct E as [(? & s & s' & _ & _ & _ & ->)|(c & cl & cl' & X & _)]; [auto|congruence].
Qed.
Lemma walker_keeps {A} p (m : M walker A) g a g' : in_walker p m g = Ret a g' ->
  g_clusters g' = g_clusters g /\ g_count g' = g_count g /\ g_feats g' = g_feats g.
Proof. intros E. apply in_walker_ret in E. destruct E as (w & w' & _ & _ & ->). auto. Qed.
Lemma enter_one id p g g' w j : ulookup p (g_walkers g) = Some w -> ulookup (w_cur w) (g_feats g) = Some (PSite j) ->
  init_walker id p g = Ret tt g' -> g_clusters g' = g_clusters g /\ g_count g' = g_count g.
Proof.
  intros Ew Ef E. unfold init_walker in E.
  apply bind_ret_inv in E. destruct E as (k & g1 & E1 & E). apply getSite_ret in E1. destruct E1 as (-> & _ & w' & Ew' & <-).
  assert (w' = w) by congruence. subst w'.
  apply bind_ret_inv in E. destruct E as (f & g1 & E1 & E). inversion E1; subst f g1; clear E1. destruct (umem _ _); [|discriminate].
  apply bind_ret_inv in E. destruct E as ([] & g1 & E1 & E). destruct (site_feature _ _ _ _ _ _ _ Ef E1) as (A1 & B1 & C1). rewrite <- C1 in Ef.
  apply bind_ret_inv in E. destruct E as (t & g2 & E2 & E). destruct (site_feature _ _ _ _ _ _ _ Ef E2) as (A2 & B2 & C2). rewrite <- C2 in Ef.
  apply bind_ret_inv in E. destruct E as (n & g3 & E3 & E). destruct (site_feature _ _ _ _ _ _ _ Ef E3) as (A3 & B3 & C3).
  apply bind_ret_inv in E. destruct E as ([] & g4 & E4 & E). destruct (walker_keeps _ _ _ _ _ E4) as (A4 & B4 & _).
  destruct (walker_keeps _ _ _ _ _ E) as (A5 & B5 & _). split; congruence.
Qed.
Lemma enter_keeps l : forall g g', (forall p w, In p (map snd l) -> ulookup p (g_walkers g) = Some w -> exists j, ulookup (w_cur w) (g_feats g) = Some (PSite j)) ->
  mfor l (fun w => init_walker (fst w) (snd w)) g = Ret tt g' -> g_clusters g' = g_clusters g /\ g_count g' = g_count g.
Proof.
  induction l as [|[id p] l IH]; intros g g' Hf E; cbn [mfor fst snd map] in *; [inversion E; auto|].
  apply bind_ret_inv in E. destruct E as ([] & g1 & E1 & E). destruct (init_walker_put _ _ _ _ E1) as ([P1 P2] & w & Ew & _).
  destruct (Hf p w (or_introl eq_refl) Ew) as [j Ej]. destruct (enter_one _ _ _ _ _ _ Ew Ej E1) as [A B].
  destruct (IH g1 g') as [C D]; [|exact E|split; congruence].
  intros q wq Hq Eq. specialize (P2 q). rewrite Eq in P2. destruct (ulookup q (g_walkers g)) as [w0|] eqn:E0; [|discriminate].
  injection P2 as P2. rewrite P1, P2. apply (Hf q w0); [right; exact Hq|exact E0].
Qed.
Lemma step_evolve g ws a g' ws' : inv g ws -> step clk g ws a g' ws' -> is_hop a = false -> evolve (fun _ => False) g g'.
Proof.
  intros V S. destruct S as [p g' E|t g' E|t g' E|s g' E|rates g' ND _ E|h|m Hm L|n t Hn|l g' H1 H2 H3 H4 H5 E|fuel id p g' Hp E|id p g' Hp E|k v g' E]; intros Nh; try discriminate.
  - inversion E; subst. apply evolve_same; [reflexivity|cbn; lia].
  - unfold sys_setTimeResolution in E. destruct (nleb t n0); [discriminate|]. inversion E; subst. apply evolve_same; [reflexivity|cbn; lia].
  - inversion E; subst. apply evolve_same; [reflexivity|cbn; lia].
  - unfold sys_setRandomSeed in E. apply bind_ret_inv in E. destruct E as (f & g1 & E1 & E). inversion E1; subst f g1; clear E1.
    destruct (g_feats g); [|discriminate]. inversion E; subst. apply evolve_same; [reflexivity|cbn; lia].
  - destruct (init_carried clk _ _ _ _ V E) as (A & B & _). apply evolve_same; [exact A|lia].
  - apply evolve_same; [reflexivity|cbn; lia].
  - apply evolve_same; [reflexivity|cbn; lia].
  - apply evolve_same; [reflexivity|exact Hn].
  - unfold sys_initializeWalkers in E. apply bind_ret_inv in E. destruct E as (f & g1 & E1 & E). inversion E1; subst f g1; clear E1.
    destruct (g_feats g) as [|f0 fs] eqn:Ef; [discriminate|]. destruct (enter_keeps l g g') as [A B]; [|exact E|apply evolve_same; [exact A|lia]].
    intros p w Hp Ew. specialize (H5 p (w_cur w) Hp (ex_intro _ w (conj Ew eq_refl))). apply cluster_of_iff in H5. destruct H5 as (s & Es & Eu).
    exists (w_cur w). rewrite (h_feat _ _ _ (v_shape _ _ V)), Es, Eu, Z.eqb_refl. reflexivity.
  - unfold sys_removeWalker in E. apply bind_ret_inv in E. destruct E as (k & g1 & E1 & E). apply getSite_ret in E1. destruct E1 as (-> & _).
    eapply remove_evolve; eauto.
  - apply getVisits_inv in E. destruct E as (s & _ & [(_ & _ & ->)|(_ & cl & cl' & v' & Ec & Ev & _ & ->)]); [apply evolve_refl|].
    apply (evolve_replace _ g _ cl cl' Ec). eapply op_one, ss_getVisits, Ev.
Qed.

(** every cluster of a system could have been made through the interface of Cluster *)
Lemma step_any g ws a g' ws' : inv g ws -> step clk g ws a g' ws' -> evolve (fun _ => True) g g'.
Proof.
  intros V S. destruct (is_hop a) eqn:Eh.
  - destruct S; try discriminate. eapply evolve_mono; [|eapply hop_evolve; eauto]. auto.
  - eapply evolve_mono; [|eapply step_evolve; eauto]. auto.
Qed.
Lemma reach_made g ws c cl : reach clk g ws -> ulookup c (g_clusters g) = Some cl -> made cl.
Proof.
  intros (tr & m & h & count & tick & ND & Hc & S). revert c cl.
  assert (V0 : inv (world_new m h count tick) []).
  { apply (reach_inv clk). exists [], m, h, count, tick. split; [exact ND|]. split; [exact Hc|constructor]. }
  induction S as [|tr g1 ws1 a g2 ws2 S IH St]; intros c cl E; [discriminate|].
  pose proof (steps_inv clk _ _ _ _ _ V0 S) as V1. destruct (step_any _ _ _ _ _ V1 St) as [_ X].
  destruct (X c cl E) as [(cl0 & E0 & O)|(_ & B & _)]; [|exact B]. eapply made_ops; [eapply IH; eauto|exact O].
Qed.

(** ** A hop that ends in a cluster *)
(** what neither occupying nor leaving a site changes *)
Definition kept (a b : cluster) : Prop :=
  c_rng b = c_rng a /\ c_tau b = c_tau a /\ c_inc b = c_inc a /\ c_remaining b = c_remaining a /\ c_cint b = c_cint a /\ c_cnbr b = c_cnbr a /\
  (NoDup (ukeys (c_sites a)) -> NoDup (ukeys (c_sites b))).
Lemma kept_refl a : kept a a. Proof. repeat split; auto. Qed.
Lemma kept_trans a b c : kept a b -> kept b c -> kept a c.
Proof. intros (A1 & A2 & A3 & A4 & A5 & A6 & A7) (B1 & B2 & B3 & B4 & B5 & B6 & B7). repeat split; try congruence. auto. Qed.
Definition same_site (a b : site) : Prop := s_rng b = s_rng a /\ s_prob b = s_prob a /\ s_tau b = s_tau a /\ s_neigh b = s_neigh a.
Definition still_there (g g' : world) : Prop := g_feats g' = g_feats g /\ g_walkers g' = g_walkers g /\
  (forall c cl', ulookup c (g_clusters g') = Some cl' -> exists cl, ulookup c (g_clusters g) = Some cl /\ kept cl cl') /\
  (forall k s', ulookup k (g_sites g') = Some s' -> exists s, ulookup k (g_sites g) = Some s /\ same_site s s').
Lemma site_refl a : same_site a a. Proof. repeat split; auto. Qed.
Lemma site_trans a b c : same_site a b -> same_site b c -> same_site a c.
Proof. intros (A1 & A2 & A3 & A4) (B1 & B2 & B3 & B4). repeat split; congruence. Qed.
Lemma there_trans a b c : still_there a b -> still_there b c -> still_there a c.
Proof.
  intros (A1 & A2 & A3 & A4) (B1 & B2 & B3 & B4). split; [congruence|]. split; [congruence|]. split.
  - intros k cl E. destruct (B3 k cl E) as (x & X & Kx). destruct (A3 k x X) as (y & Y & Ky). exists y. split; [exact Y|eapply kept_trans; eauto].
  - intros k cl E. destruct (B4 k cl E) as (x & X & Kx). destruct (A4 k x X) as (y & Y & Ky). exists y. split; [exact Y|eapply site_trans; eauto].
Qed.
Lemma there_same g g' : g_feats g' = g_feats g -> g_walkers g' = g_walkers g -> g_clusters g' = g_clusters g -> g_sites g' = g_sites g -> still_there g g'.
Proof.
  intros A B C D. split; [exact A|]. split; [exact B|]. rewrite C, D. split; intros k x E; exists x; (split; [exact E|]); [apply kept_refl|apply site_refl].
Qed.
Lemma feature_there {A} k (ms : M site A) (mc : M cluster A) g a g' : (forall s s', ms s = Ret a s' -> same_site s s') ->
  (forall cl cl', mc cl = Ret a cl' -> kept cl cl') -> on_feature k ms mc g = Ret a g' -> still_there g g'.
Proof.
  intros Hs H E. apply on_feature_ret in E. destruct E as [(j & s & s' & _ & Es & Em & ->)|(c & cl & cl' & _ & Ec & Em & ->)].
  - split; [reflexivity|]. split; [reflexivity|]. split; [intros c cl E; exists cl; split; [exact E|apply kept_refl]|].
    intros x y. cbn [g_sites g_with_sites]. rewrite (ureplace_lookup_some _ _ _ s) by exact Es.
    destruct (Z.eqb_spec x j) as [->|]; intros X; [inversion X; subst; exists s; split; [exact Es|apply Hs, Em]|exists y; split; [exact X|apply site_refl]].
  - split; [reflexivity|]. split; [reflexivity|]. split; [|intros c0 cl0 E; exists cl0; split; [exact E|apply site_refl]].
    intros x y. cbn [g_clusters g_with_clusters]. rewrite (ureplace_lookup_some _ _ _ cl) by exact Ec.
    destruct (Z.eqb_spec x c) as [->|]; intros X; [inversion X; subst; exists cl; split; [exact Ec|apply H, Em]|exists y; split; [exact X|apply kept_refl]].
Qed.
Lemma isOccupied_there k j g b g' : f_isOccupied k j g = Ret b g' -> still_there g g'.
Proof.
  apply feature_there; [intros s s' E; inversion E; subst; apply site_refl|].
  intros cl cl' E. apply bind_ret_inv in E. destruct E as (x & c1 & E1 & E). inversion E1; subst x c1.
  apply lift_ret in E. destruct E as [_ ->]. apply kept_refl.
Qed.
Lemma vacate_there k j g g' : f_vacate clk k j g = Ret tt g' -> still_there g g'.
Proof.
  unfold f_vacate. intros E. apply bind_ret_inv in E. destruct E as (t & g1 & E1 & E). apply read_clock_ret in E1. subst g1.
  eapply there_trans; [apply (there_same g (g_with_tick (g_tick g + 1) g)); reflexivity|]. revert E.
  apply feature_there; [intros s s' E; inversion E; subst; repeat split|].
  intros cl cl'. rewrite vacate_eq. intros E. inversion E; subst.
  repeat split; auto. cbn [c_sites c_with_sites c_with_occ]. intros X; apply uset_NoDup; exact X.
Qed.
Lemma occupy_there k j g g' : f_occupy k j g = Ret tt g' -> still_there g g'.
Proof.
  apply feature_there; [intros s s' E; inversion E; subst; repeat split|].
  intros cl cl' E. apply occupy_inv in E. destruct E as (s & _ & _ & ->). repeat split; auto.
  cbn [c_sites c_with_sites c_with_visits]. intros X; apply uset_NoDup; exact X.
Qed.
(** the draws after the move *)
Lemma redraw_in k w p c g g' : ulookup k (g_feats g) = Some (PCluster c) ->
  (t <- f_getDwellTime k w ;; in_walker p (w_setDwellTime t) ;; n <- f_pick k w ;; in_walker p (w_setPotentialSite n)) g = Ret tt g' ->
  exists cl d cl1 n cl2 wk, ulookup c (g_clusters g) = Some cl /\ c_getDwellTime w cl = Ret d cl1 /\ c_pick w cl1 = Ret n cl2 /\
    ulookup p (g_walkers g) = Some wk /\ ulookup c (g_clusters g') = Some cl2 /\ ulookup p (g_walkers g') = Some (mkWalker (w_cur wk) n d).
Proof.
  intros Ef E. apply bind_ret_inv in E. destruct E as (d & g1 & E1 & E). apply on_feature_ret in E1.
  destruct E1 as [(j & s & s' & X & _)|(c' & cl & cl1 & X & Ec & Ed & ->)]; [congruence|]. assert (c' = c) by congruence. subst c'. clear X.
  apply bind_ret_inv in E. destruct E as ([] & g2 & E2 & E). apply in_walker_ret in E2. destruct E2 as (wk & wk' & Ew & Es & ->).
  cbn [g_walkers g_with_clusters] in Ew. inversion Es; subst wk'. clear Es.
  apply bind_ret_inv in E. destruct E as (n & g3 & E3 & E). apply on_feature_ret in E3.
  cbn [g_feats g_clusters g_with_clusters g_with_walkers] in E3.
  destruct E3 as [(j & s & s' & X & _)|(c' & cl' & cl2 & X & Ec' & Ep & ->)]; [congruence|]. assert (c' = c) by congruence. subst c'. clear X.
  rewrite (ureplace_lookup_some _ _ _ cl), Z.eqb_refl in Ec' by exact Ec. inversion Ec'; subst cl'. clear Ec'.
  apply in_walker_ret in E. destruct E as (wj & wj' & Ew2 & Es & ->). inversion Es; subst wj'. clear Es.
  cbn [g_walkers g_clusters g_with_clusters g_with_walkers] in *.
  assert (Ewj := Ew2). rewrite (ureplace_lookup_some _ _ _ wk), Z.eqb_refl in Ewj by exact Ew. inversion Ewj; subst wj. clear Ewj.
  exists cl, d, cl1, n, cl2, wk. split; [exact Ec|]. split; [exact Ed|]. split; [exact Ep|]. split; [exact Ew|]. split.
  - rewrite (ureplace_lookup_some _ _ _ cl1), Z.eqb_refl; [reflexivity|]. rewrite (ureplace_lookup_some _ _ _ cl), Z.eqb_refl by exact Ec. reflexivity.
  - rewrite (ureplace_lookup_some _ _ _ _ _ Ew2), Z.eqb_refl. reflexivity.
Qed.
Lemma redraw_at k w p j g g' : ulookup k (g_feats g) = Some (PSite j) ->
  (t <- f_getDwellTime k w ;; in_walker p (w_setDwellTime t) ;; n <- f_pick k w ;; in_walker p (w_setPotentialSite n)) g = Ret tt g' ->
  exists s d s1 n s2 wk, ulookup j (g_sites g) = Some s /\ s_getDwellTime s = Ret d s1 /\ s_pick s1 = Ret n s2 /\
    ulookup p (g_walkers g) = Some wk /\ ulookup p (g_walkers g') = Some (mkWalker (w_cur wk) n d).
Proof.
  intros Ef E. apply bind_ret_inv in E. destruct E as (d & g1 & E1 & E). apply on_feature_ret in E1.
  destruct E1 as [(j' & s & s1 & X & Ec & Ed & ->)|(c' & cl & cl1 & X & _)]; [|congruence]. assert (j' = j) by congruence. subst j'. clear X.
  apply bind_ret_inv in E. destruct E as ([] & g2 & E2 & E). apply in_walker_ret in E2. destruct E2 as (wk & wk' & Ew & Es & ->).
  cbn [g_walkers g_with_sites] in Ew. inversion Es; subst wk'. clear Es.
  apply bind_ret_inv in E. destruct E as (n & g3 & E3 & E). apply on_feature_ret in E3.
  cbn [g_feats g_sites g_with_sites g_with_walkers] in E3.
  destruct E3 as [(j' & s' & s2 & X & Ec' & Ep & ->)|(c' & cl & cl1 & X & _)]; [|congruence]. assert (j' = j) by congruence. subst j'. clear X.
  rewrite (ureplace_lookup_some _ _ _ s), Z.eqb_refl in Ec' by exact Ec. inversion Ec'; subst s'. clear Ec'.
  apply in_walker_ret in E. destruct E as (wj & wj' & Ew2 & Es & ->). inversion Es; subst wj'. clear Es.
  cbn [g_walkers g_sites g_with_sites g_with_walkers] in *.
  assert (Ewj := Ew2). rewrite (ureplace_lookup_some _ _ _ wk), Z.eqb_refl in Ewj by exact Ew. inversion Ewj; subst wj. clear Ewj.
  exists s, d, s1, n, s2, wk. split; [exact Ec|]. split; [exact Ed|]. split; [exact Ep|]. split; [exact Ew|].
  rewrite (ureplace_lookup_some _ _ _ _ _ Ew2), Z.eqb_refl. reflexivity.
Qed.
(** a hop up to its draws *)
Lemma hop_redraw fuel w p k g g' ws : inv g ws -> In p ws -> sys_hop clk fuel w p g = Ret tt g' -> walker_on g' p k ->
  exists gm g1 wk, ulookup p (g_walkers gm) = Some wk /\ w_cur wk = k /\ g_feats gm = g_feats g /\
    (forall c cl', ulookup c (g_clusters gm) = Some cl' -> exists cl, ulookup c (g_clusters g) = Some cl /\ kept cl cl') /\
    (forall k s', ulookup k (g_sites gm) = Some s' -> exists s, ulookup k (g_sites g) = Some s /\ same_site s s') /\
    (t <- f_getDwellTime k w ;; in_walker p (w_setDwellTime t) ;; n <- f_pick k w ;; in_walker p (w_setPotentialSite n)) gm = Ret tt g1 /\
    inv g1 ws /\ g_count g <= g_count g1 /\ g_walkers g' = g_walkers g1 /\ exists fuel dst, hop_attempt clk fuel dst g1 = Ret tt g'.
Proof.
  intros V Hp E Ok. apply hop_inv in E. destruct E as (w0 & g1 & Ew & _ & _ & Em & Ea).
  destruct (move_step _ _ _ _ _ _ _ _ V Hp (ex_intro _ w0 (conj Ew eq_refl)) Em) as (V1 & D1 & _).
  destruct (attempt_step clk _ _ _ _ _ V1 Ea) as (_ & Gr). apply grain_walkers in Gr.
  pose proof (e_count _ _ _ (move_evolve (eq w) _ _ _ _ _ _ eq_refl Em)) as Hn.
  assert (K : exists f gm wk, ulookup p (g_walkers gm) = Some wk /\ w_cur wk = f /\ g_feats gm = g_feats g /\
     (forall c cl', ulookup c (g_clusters gm) = Some cl' -> exists cl, ulookup c (g_clusters g) = Some cl /\ kept cl cl') /\
     (forall k s', ulookup k (g_sites gm) = Some s' -> exists s, ulookup k (g_sites g) = Some s /\ same_site s s') /\
     (t <- f_getDwellTime f w ;; in_walker p (w_setDwellTime t) ;; n <- f_pick f w ;; in_walker p (w_setPotentialSite n)) gm = Ret tt g1).
  { unfold hop_move in Em. apply bind_ret_inv in Em. destruct Em as (b & g2 & E2 & E). apply isOccupied_there in E2. destruct b.
    - apply bind_ret_inv in E. destruct E as ([] & g3 & E3 & E). apply vacate_there in E3.
      apply bind_ret_inv in E. destruct E as ([] & g4 & E4 & E). apply occupy_there in E4.
      pose proof (there_trans _ _ _ (there_trans _ _ _ E2 E3) E4) as (T1 & T2 & T3 & T4). exists (w_cur w0), g4, w0. rewrite T2. auto 8.
    - apply bind_ret_inv in E. destruct E as ([] & g3 & E3 & E). apply vacate_there in E3.
      apply bind_ret_inv in E. destruct E as ([] & g4 & E4 & E). apply occupy_there in E4.
      pose proof (there_trans _ _ _ (there_trans _ _ _ E2 E3) E4) as (T1 & T2 & T3 & T4).
      apply bind_ret_inv in E. destruct E as ([] & g5 & E5 & E). apply in_walker_ret in E5. destruct E5 as (w5 & w5' & Ew5 & Es & ->).
      inversion Es; subst w5'. set (wn := mkWalker (w_pot w0) (w_pot w5) (w_dwell w5)) in *.
      exists (w_pot w0), (g_with_walkers (ureplace p wn (g_walkers g4)) g4), wn. cbn [g_walkers g_feats g_clusters g_sites g_with_walkers].
      rewrite (ureplace_lookup_some _ _ _ w5), Z.eqb_refl by exact Ew5. split; [reflexivity|]. split; [reflexivity|]. split; [exact T1|].
      split; [exact T3|]. split; [exact T4|exact E]. }
  destruct K as (f & gm & wk & Ewk & <- & Fm & Cm & Sm & E).
  assert (Ew1 : exists n d, ulookup p (g_walkers g1) = Some (mkWalker (w_cur wk) n d)).
  { clear - E Ewk. apply bind_ret_inv in E. destruct E as (d & h1 & E1 & E).
    assert (X1 : g_walkers h1 = g_walkers gm) by (apply on_feature_ret in E1; destruct E1 as [(? & ? & ? & _ & _ & _ & ->)|(? & ? & ? & _ & _ & _ & ->)]; reflexivity).
    apply bind_ret_inv in E. destruct E as ([] & h2 & E2 & E). apply in_walker_ret in E2. destruct E2 as (w2 & w2' & Ew2 & Es & ->). inversion Es; subst w2'.
    rewrite X1, Ewk in Ew2. inversion Ew2; subst w2. rewrite X1 in E.
    apply bind_ret_inv in E. destruct E as (n & h3 & E3 & E).
    assert (X3 : ulookup p (g_walkers h3) = Some (mkWalker (w_cur wk) (w_pot wk) d)).
    { apply on_feature_ret in E3. destruct E3 as [(? & ? & ? & _ & _ & _ & ->)|(? & ? & ? & _ & _ & _ & ->)];
        cbn [g_walkers g_with_walkers g_with_sites g_with_clusters]; rewrite (ureplace_lookup_some _ _ _ wk), Z.eqb_refl by exact Ewk; reflexivity. }
    apply in_walker_ret in E. destruct E as (w4 & w4' & Ew4 & Es4 & ->). inversion Es4; subst w4'. rewrite X3 in Ew4. inversion Ew4; subst w4.
    exists n, d. cbn [g_walkers g_with_walkers]. rewrite (ureplace_lookup_some _ _ _ _ _ X3), Z.eqb_refl. reflexivity. }
  assert (Ek : w_cur wk = k).
  { destruct Ew1 as (n & d & Ew1), Ok as (wx & Ex & <-). rewrite Gr, Ew1 in Ex. inversion Ex; reflexivity. }
  rewrite Ek in E. exists gm, g1, wk. repeat (split; [assumption|]). eauto.
Qed.
Lemma listed_feature g ws c k : inv g ws -> listed g c k ->
  exists c', ulookup k (g_feats g) = Some (PCluster c') /\ forall cl, ulookup c' (g_clusters g) = Some cl -> c' = c.
Proof.
  intros V L. pose proof (v_shape _ _ V) as Sh. rewrite listed_holds in L by apply Sh. destruct L as (m & Hm).
  destruct (h_mem _ _ _ Sh c k m Hm) as (s & Es & Ns & _). exists (s_cluster s). split.
  - rewrite (h_feat _ _ _ Sh), Es. apply Z.eqb_neq in Ns. rewrite Ns. reflexivity.
  - intros cl Ec. destruct (h_own _ _ _ Sh k s cl Es Ec) as (c' & m' & Hm' & [->|[_ []]]). eapply (h_disj _ _ _ Sh); eauto.
Qed.
Lemma hop_in fuel w p k c g g' ws : inv g ws -> In p ws -> sys_hop clk fuel w p g = Ret tt g' -> walker_on g' p k -> listed g c k ->
  exists cl cl0 d cl1 n cl2, ulookup c (g_clusters g) = Some cl /\ kept cl cl0 /\ c_getDwellTime w cl0 = Ret d cl1 /\ c_pick w cl1 = Ret n cl2 /\
    ulookup p (g_walkers g') = Some (mkWalker k n d) /\
    (forall cl', ulookup c (g_clusters g') = Some cl' -> c < g_count g -> ops (fun _ => False) cl2 cl').
Proof.
  intros V Hp E Ok L. destruct (listed_feature _ _ _ _ V L) as (c' & Ef & Hc').
  destruct (hop_redraw _ _ _ _ _ _ _ V Hp E Ok) as (gm & g1 & wk & Ewk & Ek & Fm & Cm & _ & Er & V1 & Hn & Gr & f & dst & Ea).
  destruct (attempt_evolve (fun _ => False) _ _ _ _ (v_shape _ _ V1) Ea) as [_ Ev].
  rewrite <- Fm in Ef. destruct (redraw_in _ _ _ _ _ _ Ef Er) as (cl0 & d & cl1 & n & cl2 & wk' & Ec & Ed & Ep & Ewk' & Ec2 & Ewp).
  assert (wk' = wk) by congruence. subst wk'. destruct (Cm _ _ Ec) as (cl & Ecl & Kc). assert (c' = c) by (eapply Hc'; eauto). subst c'.
  exists cl, cl0, d, cl1, n, cl2. split; [exact Ecl|]. split; [exact Kc|]. split; [exact Ed|]. split; [exact Ep|].
  split; [rewrite Gr, Ewp, Ek; reflexivity|]. intros cl' El Hlt. destruct (Ev c cl' El) as [(x & Ex & O)|[X _]]; [|lia].
  assert (x = cl2) by congruence. subst x. exact O.
Qed.
Lemma feature_other {A} k (ms : M site A) (mc : M cluster A) g a g' c : on_feature k ms mc g = Ret a g' -> ulookup k (g_feats g) <> Some (PCluster c) ->
  ulookup c (g_clusters g') = ulookup c (g_clusters g) /\ g_feats g' = g_feats g.
Proof.
  intros E Hk. apply on_feature_ret in E. destruct E as [(j & s & s' & _ & _ & _ & ->)|(c' & cl & cl1 & X & Ec & _ & ->)]; [split; reflexivity|].
  split; [|reflexivity]. cbn [g_clusters g_with_clusters]. rewrite (ureplace_lookup_some _ _ _ _ _ Ec). destruct (Z.eqb_spec c c') as [->|]; [contradiction|reflexivity].
Qed.
Lemma redraw_other k w p c g g' : ulookup k (g_feats g) <> Some (PCluster c) ->
  (t <- f_getDwellTime k w ;; in_walker p (w_setDwellTime t) ;; n <- f_pick k w ;; in_walker p (w_setPotentialSite n)) g = Ret tt g' ->
  ulookup c (g_clusters g') = ulookup c (g_clusters g).
Proof.
  intros Hk E. apply bind_ret_inv in E. destruct E as (d & g1 & E1 & E). destruct (feature_other _ _ _ _ _ _ c E1 Hk) as [A1 A2].
  apply bind_ret_inv in E. destruct E as ([] & g2 & E2 & E). apply walker_keeps in E2. destruct E2 as (B1 & B2 & B3).
  apply bind_ret_inv in E. destruct E as (n & g3 & E3 & E). destruct (feature_other _ _ _ _ _ _ c E3) as [C1 C2]; [rewrite ?B1, ?B2, ?B3, A2; exact Hk|].
  apply walker_keeps in E. destruct E as (D1 & D2 & D3). congruence.
Qed.
(** a hop that ends outside of [c] *)
Lemma hop_away fuel w p k c g g' ws : inv g ws -> In p ws -> sys_hop clk fuel w p g = Ret tt g' -> walker_on g' p k -> ~ listed g c k ->
  forall cl', ulookup c (g_clusters g') = Some cl' ->
    (exists cl cl0, ulookup c (g_clusters g) = Some cl /\ kept cl cl0 /\ ops (fun _ => False) cl0 cl') \/ (g_count g <= c /\ forall j, entering j cl').
Proof.
  intros V Hp E Ok L cl' Ec'.
  destruct (hop_redraw _ _ _ _ _ _ _ V Hp E Ok) as (gm & g1 & wk & Ewk & Ek & Fm & Cm & _ & Er & V1 & Hn & Gr & f & dst & Ea).
  destruct (attempt_evolve (fun _ => False) _ _ _ _ (v_shape _ _ V1) Ea) as [_ Ev].
  destruct (Ev _ _ Ec') as [(cl1 & Ec1 & O)|(Hc & _ & X)]; [|right; split; [lia|auto]]. left.
  destruct (ulookup k (g_feats gm)) as [[|j|c0]|] eqn:Ef.
  - rewrite (redraw_other k w p c gm g1) in Ec1; [|rewrite Ef; discriminate|exact Er]. destruct (Cm _ _ Ec1) as (cl & Ecl & Kc). eauto.
  - rewrite (redraw_other k w p c gm g1) in Ec1; [|rewrite Ef; discriminate|exact Er]. destruct (Cm _ _ Ec1) as (cl & Ecl & Kc). eauto.
  - destruct (Z.eq_dec c0 c) as [->|Nc].
    + exfalso. apply L. destruct (redraw_in _ _ _ _ _ _ Ef Er) as (cl0 & _ & _ & _ & _ & _ & Ec0 & _). destruct (Cm _ _ Ec0) as (cl & Ecl & _).
      pose proof (v_shape _ _ V) as Sh. apply listed_holds; [apply Sh|]. rewrite Fm, (h_feat _ _ _ Sh) in Ef.
      destruct (ulookup k (g_sites g)) as [s|] eqn:Es; [|discriminate]. destruct (s_cluster s =? unassignedId); [discriminate|]. injection Ef as Ef.
      rewrite <- Ef in Ecl. destruct (h_own _ _ _ Sh k s cl Es Ecl) as (c' & m' & Hm' & [X|[_ []]]). exists m'. rewrite <- Ef, <- X. exact Hm'.
    + rewrite (redraw_other k w p c gm g1) in Ec1; [|rewrite Ef; congruence|exact Er]. destruct (Cm _ _ Ec1) as (cl & Ecl & Kc). eauto.
  - rewrite (redraw_other k w p c gm g1) in Ec1; [|rewrite Ef; discriminate|exact Er]. destruct (Cm _ _ Ec1) as (cl & Ecl & Kc). eauto.
Qed.
Lemma hop_at fuel w p k g g' ws : inv g ws -> In p ws -> sys_hop clk fuel w p g = Ret tt g' -> walker_on g' p k -> cluster_of g k unassignedId ->
  exists s s0 d s1 n s2, ulookup k (g_sites g) = Some s /\ same_site s s0 /\ s_getDwellTime s0 = Ret d s1 /\ s_pick s1 = Ret n s2 /\
    ulookup p (g_walkers g') = Some (mkWalker k n d).
Proof.
  intros V Hp E Ok L. apply cluster_of_iff in L. destruct L as (s & Es & Eu).
  destruct (hop_redraw _ _ _ _ _ _ _ V Hp E Ok) as (gm & g1 & wk & Ewk & Ek & Fm & _ & Sm & Er & V1 & Hn & Gr & _).
  assert (Ef : ulookup k (g_feats gm) = Some (PSite k)) by (rewrite Fm, (h_feat _ _ _ (v_shape _ _ V)), Es, Eu, Z.eqb_refl; reflexivity).
  destruct (redraw_at _ _ _ _ _ _ Ef Er) as (s0 & d & s1 & n & s2 & wk' & Es0 & Ed & Ep & Ewk' & Ewp).
  assert (wk' = wk) by congruence. subst wk'. destruct (Sm _ _ Es0) as (s' & Es' & K). assert (s' = s) by congruence. subst s'.
  exists s, s0, d, s1, n, s2. split; [exact Es|]. split; [exact K|]. split; [exact Ed|]. split; [exact Ep|]. rewrite Gr, Ewp, Ek. reflexivity.
Qed.

(** ** Sites of internal picks *)
Ltac lv := repeat first
  [ apply leaves_bind; [|intros ?] | apply leaves_ret | apply leaves_lift | apply leaves_gets | apply leaves_stop
  | apply leaves_assert | (apply leaves_modify; intros; reflexivity) | (apply leaves_mfor; intros ?) ].
Definition kint {A} (m : M cluster A) : Prop := forall c a c', m c = Ret a c' ->
  incl (ukeys (c_sites c)) (ukeys (c_sites c')) /\
  exists ti, c_cint c' = c_cint c ++ ti /\ incl (map fst ti) (ukeys (c_sites c')).
Lemma ki_leaves {A} (m : M cluster A) : leaves m c_cint -> leaves m c_sites -> kint m.
Proof.
  intros L1 L2 c a c' E. rewrite (L2 _ _ _ E). split; [apply incl_refl|]. exists []. rewrite (L1 _ _ _ E), app_nil_r. split; [reflexivity|intros x []].
Qed.
Lemma ki_bind {A B} (m : M cluster A) (f : A -> M cluster B) : kint m -> (forall a, kint (f a)) -> kint (bind m f).
Proof.
  intros Hm Hf c b c'' E. apply bind_ret_inv in E. destruct E as (a & c' & E1 & E2).
  destruct (Hm _ _ _ E1) as (I1 & t1 & A1 & B1). destruct (Hf _ _ _ _ E2) as (I2 & t2 & A2 & B2).
  split; [eapply incl_tran; eauto|]. exists (t1 ++ t2). rewrite A2, A1, app_assoc. split; [reflexivity|].
  rewrite map_app. apply incl_app; [eapply incl_tran; eauto|exact B2].
Qed.
Lemma ki_mfor {A} (l : list A) body : (forall x, kint (body x)) -> kint (mfor l body).
Proof. intros Hb. induction l; cbn [mfor]; [apply ki_leaves; lv | apply ki_bind; auto]. Qed.
Ltac kil := apply ki_leaves; lv.
Lemma weigh_keys sites pon : forall l, weigh_tau sites pon = Ok l -> incl (map fst l) (ukeys sites).
Proof.
  induction pon as [|e r IH]; cbn [weigh_tau]; intros l E; [inversion E; subst; intros x []|].
  unfold tau_of in E. destruct (ulookup (fst e) sites) as [s|] eqn:Es; [|discriminate]. cbn [rbind] in E.
  destruct (weigh_tau sites r) as [l'| |]; cbn [rbind] in E; try discriminate. inversion E; subst. cbn [map fst].
  apply incl_cons; [eapply ulookup_In_key; exact Es|apply IH; reflexivity].
Qed.
Lemma uset_keys_incl {V} (m : umap V) k v K : incl (ukeys m) K -> In k K -> incl (ukeys (uset m k v)) K.
Proof.
  intros A B x Hx. apply uset_keys_In in Hx. destruct Hx as [->|Hx]; [exact B|apply A, Hx].
Qed.
Lemma umap_of_keys {V} (l : list (Z * V)) K : incl (map fst l) K -> incl (ukeys (umap_of l)) K.
Proof.
  unfold umap_of. assert (Gen : forall m, incl (ukeys m) K -> incl (map fst l) K -> incl (ukeys (fold_left (fun m e => uset m (fst e) (snd e)) l m)) K).
  { induction l as [|e r IH]; intros m A B; cbn [fold_left]; [exact A|]. cbn [map] in B. apply incl_cons_inv in B. destruct B as [B1 B2].
    apply IH; [apply uset_keys_incl; assumption|exact B2]. }
  intros A. apply Gen; [intros x []|exact A].
Qed.
Lemma sort_keys l l' : sort_desc l = Ok l' -> incl (map fst l') (map fst l).
Proof.
  unfold sort_desc. destruct (_ && _)%bool; [discriminate|]. intros E; inversion E; subst. intros x Hx.
  eapply Permutation_in; [apply Permutation_map, psort_perm|exact Hx].
Qed.
Lemma cum_keys (l : list (Z * num)) : forall t, map fst (cumulate t l) = map fst l.
Proof. induction l as [|e l IH]; intros t; [reflexivity|]. cbn [cumulate map fst]. rewrite IH. reflexivity. Qed.
Lemma ki_internal : kint c_calcHopToInternal.
Proof.
  intros c [] c' E. unfold c_calcHopToInternal in E. apply bind_ret_inv in E. destruct E as (c0 & c1 & E1 & E). inversion E1; subst c0 c1.
  apply bind_ret_inv in E. destruct E as (w & c1 & E2 & E). apply lift_ret in E2. destruct E2 as [Ew ->].
  apply bind_ret_inv in E. destruct E as (l & c1 & E2 & E). apply lift_ret in E2. destruct E2 as [El ->].
  rewrite modify_eq in E. inversion E; subst. cbn [c_sites c_cint c_with_cint c_with_pint]. split; [apply incl_refl|]. eexists. split; [reflexivity|].
  rewrite cum_keys. eapply incl_tran; [apply (sort_keys _ _ El)|]. rewrite map_map. cbn [fst]. apply umap_of_keys. eapply weigh_keys; exact Ew.
Qed.
Lemma ki_setVisits v k : kint (c_setVisits v k).
Proof. apply ki_leaves; apply setVisits_leaves; reflexivity. Qed.
Lemma ki_update fuel h : kint (c_update fuel h).
Proof.
  unfold c_update. apply ki_bind; [kil|]. intros ?. apply ki_bind; [apply ki_leaves; apply visitList_leaves; reflexivity|]. intros saved.
  apply ki_bind.
  { unfold c_solve. apply ki_bind; [kil|]. intros c0. apply ki_bind; [kil|]. intros pon. apply ki_bind; [kil|]. intros _.
    apply ki_bind; [apply ki_internal|intros _; apply ki_bind; [unfold c_calcHopToNeighbors; kil|intros _; unfold c_calcInternalDwell; kil]]. }
  intros _. unfold c_calcSumOff, c_calcSumInt, c_calcHopOff, c_calcHopBetween, c_calcTau, c_calcITau.
  apply ki_bind; [kil|]. intros _. apply ki_bind; [kil|]. intros _. apply ki_bind; [kil|]. intros _.
  apply ki_bind; [kil|]. intros _. apply ki_bind; [kil|]. intros _. apply ki_bind; [kil|]. intros _.
  apply ki_bind; [kil|]. intros _. apply ki_bind; [kil|]. intros ids.
  apply ki_bind; [|intros _; unfold c_calcInternalDwell; kil].
  apply ki_mfor. intros k. apply ki_bind; [kil|]. intros _. destruct (ulookup k saved); [apply ki_setVisits | kil].
Qed.
Lemma uset_keys_more {V} (m : umap V) k v : incl (ukeys m) (ukeys (uset m k v)).
Proof.
  intros x Hx. apply uset_keys_In. right. exact Hx.
Qed.
Lemma take_in_more moved : forall sites : umap site, incl (ukeys sites) (ukeys (take_in moved sites)).
Proof.
  unfold take_in. induction moved as [|e l IH]; intros sites; cbn [fold_left]; [apply incl_refl|].
  eapply incl_tran; [|apply IH]. destruct (umem _ _); [apply incl_refl|apply uset_keys_more].
Qed.

(** every entry of the table of internal picks is a member *)
Definition inside (c : cluster) : Prop := incl (map fst (c_cint c)) (ukeys (c_sites c)).
Lemma kint_inside {A} (m : M cluster A) c a c' : kint m -> m c = Ret a c' -> inside c -> inside c'.
Proof.
  intros K E Hi. destruct (K _ _ _ E) as (S & ti & Et & Hti). unfold inside. rewrite Et, map_app. apply incl_app; [eapply incl_tran; eauto|exact Hti].
Qed.
Lemma migrate_inside fuel h p p' : c_migrate fuel h p = Ret tt p' -> inside (fst p) -> inside (fst p').
Proof.
  intros E Hi. unfold c_migrate in E.
  apply bind_ret_inv in E. destruct E as (i & s0 & E0 & E). inversion E0; subst i s0; clear E0.
  apply bind_ret_inv in E. destruct E as (u & s0 & E0 & E). unfold onSnd, zoom in E0. rewrite modify_eq in E0. inversion E0; subst u s0; clear E0.
  apply bind_ret_inv in E. destruct E as (ids & s0 & E0 & E). inversion E0; subst ids s0; clear E0.
  apply bind_ret_inv in E. destruct E as (vs & s1 & E0 & E).
  apply bind_ret_inv in E. destruct E as (mv & s2 & E1 & E). inversion E1; subst mv s2; clear E1.
  apply bind_ret_inv in E. destruct E as (u & s3 & E1 & E). unfold onFst, zoom in E1. rewrite modify_eq in E1. inversion E1; subst u s3; clear E1.
  apply bind_ret_inv in E. destruct E as (u & s4 & E1 & E). unfold onSnd, zoom in E1. rewrite modify_eq in E1. inversion E1; subst u s4; clear E1.
  unfold onSnd, zoom in E0. destruct (c_visitList _ _) as [x c2|? ?|?] eqn:Ev in E0; inversion E0; subst; clear E0.
  cbn [fst snd] in E.
  apply bind_ret_inv in E. destruct E as (u & s5 & E1 & E). unfold onFst, zoom in E1. cbn [fst snd] in E1.
  destruct (c_update _ _ _) as [[] c3|? ?|?] eqn:Eu in E1; inversion E1; subst; clear E1.
  assert (I3 : inside c3).
  { eapply kint_inside; [apply ki_update|exact Eu|]. unfold inside in *. cbn [c_cint c_sites c_with_sites]. eapply incl_tran; [exact Hi|].
    refine (take_in_more _ (c_sites (fst p))). }
  clear Eu. set (b0 := c_clearMigrated c2) in *. clearbody b0. clear Ev. revert c3 I3 E.
  induction vs as [|e vs IH]; cbn [mfor]; intros c3 I3 E; [inversion E; subst; exact I3|].
  apply bind_ret_inv in E. destruct E as (u & s5 & E1 & E). unfold onFst, zoom in E1. cbn [fst snd] in E1.
  destruct (c_setVisits _ _ _) as [[] c4|? ?|?] eqn:Eu in E1; inversion E1; subst; clear E1.
  apply (IH c4); [|exact E]. eapply kint_inside; [apply ki_setVisits|exact Eu|exact I3].
Qed.
Lemma sstep_inside o c c' : sstep o c c' -> inside c -> inside c'.
Proof.
  assert (Q : forall A (m : M cluster A) a, kint m -> m c = Ret a c' -> inside c -> inside c') by (intros; eapply kint_inside; eauto).
  destruct 1.
  - eapply Q; [|eassumption]. unfold c_setMethod; kil.
  - eapply Q; [|eassumption]. unfold c_setTolerance; kil.
  - eapply Q; [|eassumption]. unfold c_setIterations; kil.
  - eapply Q; [|eassumption]. unfold c_setResolution; kil.
  - eapply Q; [|eassumption]. unfold c_setRandomSeed; kil.
  - eapply Q; [|eassumption]. apply ki_mfor. intros s. apply ki_bind; [|intros ?; kil]. unfold c_addSite. apply ki_bind; [kil|]. intros i. apply ki_bind; [kil|].
    intros c0. apply ki_bind; [kil|]. intros _. apply ki_bind; [|intros _; kil].
    intros c1 [] c2 E. rewrite modify_eq in E. inversion E; subst. cbn [c_sites c_cint c_with_sites]. split; [apply uset_keys_more|].
    exists []. rewrite app_nil_r. split; [reflexivity|intros x []].
  - eapply Q; [|eassumption]. apply ki_update.
  - intros Hi. match goal with X : c_occupy _ _ = _ |- _ => apply occupy_inv in X; destruct X as (s & _ & _ & ->) end.
    unfold inside. cbn [c_cint c_sites c_with_sites c_with_visits]. eapply incl_tran; [exact Hi|apply uset_keys_more].
  - intros Hi. match goal with X : c_vacate _ _ _ = _ |- _ => rewrite vacate_eq in X; inversion X; subst end.
    unfold inside. cbn [c_cint c_sites c_with_sites c_with_occ]. eapply incl_tran; [exact Hi|apply uset_keys_more].
  - eapply Q; [|eassumption]. unfold c_occupy0; kil.
  - eapply Q; [|eassumption]. unfold c_vacate0; kil.
  - intros Hi. match goal with X : c_removeWalker _ _ _ _ = _ |- _ => change (c_vacate clock k c = Ret tt c') in X; rewrite vacate_eq in X; inversion X; subst end.
    unfold inside. cbn [c_cint c_sites c_with_sites c_with_occ]. eapply incl_tran; [exact Hi|apply uset_keys_more].
  - eapply Q; [|eassumption]. apply ki_leaves; apply getVisits_leaves; reflexivity.
  - eapply Q; [|eassumption]. apply ki_setVisits.
  - eapply Q; [|eassumption]. unfold c_probOn. apply ki_bind; [kil|]. intros c0. apply ki_bind; [kil|]. intros _.
    apply ki_bind; [|intros _; kil]. destruct (umem k (c_pon c0)); kil.
  - eapply (migrate_inside fuel h (c, d) (c', d')); eassumption.
Qed.
Lemma ops_inside ids a b : ops ids a b -> inside a -> inside b.
Proof.
  induction 1 as [|o a b c O IH S|j d a b c O IH Hj E|j k a b c O IH Hj E]; intros Hi; [exact Hi|..]; specialize (IH Hi).
  - eapply sstep_inside; eauto.
  - eapply kint_inside; [|exact E|exact IH]. apply ki_leaves; apply dwell_leaves; reflexivity.
  - eapply kint_inside; [|exact E|exact IH]. apply ki_leaves; apply pick_leaves; reflexivity.
Qed.
Lemma made_inside c : made c -> inside c.
Proof. intros (i & clock & O). eapply ops_inside; [exact O|]. intros x []. Qed.
End Ops.
