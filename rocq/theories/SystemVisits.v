(** * Coarse graining and visit counts, for every arithmetic *)
From Coq Require Import ZArith List Bool Lia Permutation.
From Verif Require Import Base BaseProofs Num WalkerModel SiteModel SiteProofs ClusterModel ClusterFrame ClusterCounts
  ContainerModel BasinModel SystemModel SystemSpec SystemShape SystemHop SystemCoarse SystemMerge SystemProofs SystemFacts SystemControl SystemInit
  ValidSpec SystemEffect SystemSeed.
Import ListNotations.
Open Scope Z_scope.

Section Visits.
Context {I : Impl} {N : Num} {G : Rng} {U : Ugly}.
Variable clk : Z -> Z.
Hypothesis W : whole_numbers.

(** ** The clusters of a state *)
Record neat (m : umap cluster) : Prop := {
  t_nd : NoDup (ukeys m);
  t_cl : forall c cl, ulookup c m = Some cl -> counted cl /\ NoDup (c_siteIds cl) /\ c_siteIds cl <> [];
  t_disj : forall c c' cl cl' k, ulookup c m = Some cl -> ulookup c' m = Some cl' -> In k (c_siteIds cl) -> In k (c_siteIds cl') -> c = c' }.
Definition recorded (m : umap cluster) (k w : Z) : Prop := exists c cl, ulookup c m = Some cl /\ records cl k w.
Definition mem_of (m : umap cluster) (k : Z) : Prop := exists c cl, ulookup c m = Some cl /\ In k (c_siteIds cl).
Definition all_counted (m : umap cluster) : Prop := forall c cl, ulookup c m = Some cl -> counted cl.

Lemma shape_neat fav todo g : shape_while fav todo g -> all_counted (g_clusters g) -> neat (g_clusters g).
Proof.
  intros Sh Ac. constructor; [apply Sh| |].
  - intros c cl Ec. destruct (h_cl _ _ _ Sh _ _ Ec) as (_ & _ & ND & i & j & _ & Hi & _). split; [apply (Ac _ _ Ec)|]. split; [exact ND|].
    unfold c_siteIds. intros E0. rewrite E0 in Hi. destruct Hi.
  - intros c c' cl cl' k E1 E2 H1 H2. unfold c_siteIds in *. apply ukeys_In in H1, H2. destruct H1 as [m1 H1], H2 as [m2 H2].
    apply (h_disj _ _ _ Sh c c' k m1 m2); eexists; eauto.
Qed.
Lemma recorded_mem m k w : neat m -> recorded m k w -> mem_of m k.
Proof. intros Nm (c & cl & Ec & R). exists c, cl. split; [exact Ec|]. apply (t_cl _ Nm _ _ Ec), R. Qed.
Lemma recorded_fun m k w w' : neat m -> recorded m k w -> recorded m k w' -> w = w'.
Proof.
  intros Nm (c & cl & Ec & R) (c' & cl' & Ec' & R').
  assert (c = c'). { eapply (t_disj _ Nm); [exact Ec|exact Ec'| |]; [apply (t_cl _ Nm _ _ Ec), R|apply (t_cl _ Nm _ _ Ec'), R']. }
  subst c'. assert (cl = cl') by congruence. subst cl'. eapply records_fun; eauto.
Qed.

(** ** Absorbing clusters *)
Lemma absorb_counts fuel fav c g g' : fav <> c -> neat (g_clusters g) -> absorb fuel fav c g = Ret tt g' ->
  neat (g_clusters g') /\ (forall k w, recorded (g_clusters g) k w -> recorded (g_clusters g') k w).
Proof.
  intros Ne Nm E. apply absorb_inv in E; [|exact Ne|apply Nm].
  destruct E as (a & b & p & Ea & Eb & Em & m & -> & NDm & L). cbn [g_clusters g_with_clusters].
  destruct (t_cl _ Nm _ _ Ea) as (Ca & Na & Xa). destruct (t_cl _ Nm _ _ Eb) as (Cb & Nb & Xb).
  assert (Dj : forall k, In k (c_siteIds a) -> ~ In k (c_siteIds b)) by (intros k H1 H2; apply Ne; eapply (t_disj _ Nm); [exact Ea|exact Eb|exact H1|exact H2]).
  destruct (migrate_counts _ _ _ _ _ W Em Ca Cb Na Nb Dj Xa) as (_ & Cp & Ra & Rb).
  destruct (migrate_inv _ _ _ _ _ Em Na) as (c0 & K & _ & N0 & Hold & Hnew & Hall).
  assert (Ip : forall k, In k (c_siteIds (fst p)) <-> In k (c_siteIds a) \/ In k (c_siteIds b)).
  { intros k. unfold c_siteIds. rewrite (sc_sites _ _ K). split.
    - intros H. apply ukeys_In in H. destruct H as [x H]. destruct (Hall _ _ H) as [H1|(x0 & H1 & _)]; [left|right]; eapply ulookup_In_key; exact H1.
    - intros [H|H]; pose proof H as H0; apply ukeys_In in H; destruct H as [x H]; [eapply ulookup_In_key; apply Hold, H|].
      destruct (ulookup k (c_sites a)) as [y|] eqn:Ey; [eapply ulookup_In_key; apply Hold, Ey|eapply ulookup_In_key; apply (Hnew _ _ H Ey Nb)]. }
  assert (Own : forall x cl k, ulookup x m = Some cl -> In k (c_siteIds cl) ->
     (x = fav /\ cl = fst p) \/ (x <> fav /\ x <> c /\ ulookup x (g_clusters g) = Some cl)).
  { intros x cl k E _. rewrite L in E. destruct (Z.eqb_spec x c); [discriminate|]. destruct (Z.eqb_spec x fav); [left; split; [assumption|congruence]|right; auto]. }
  split.
  - constructor; [exact NDm| |].
    + intros x cl E. rewrite L in E. destruct (Z.eqb_spec x c); [discriminate|]. destruct (Z.eqb_spec x fav) as [->|]; [|apply (t_cl _ Nm _ _ E)].
      inversion E; subst cl. split; [exact Cp|]. split; [unfold c_siteIds; rewrite (sc_sites _ _ K); exact N0|].
      destruct (c_siteIds a) as [|j l]; [congruence|]. intros E0. assert (X : In j (c_siteIds (fst p))) by (apply Ip; left; left; reflexivity).
      rewrite E0 in X. destruct X.
    + intros x x' cl cl' k E1 E2 H1 H2.
      destruct (Own _ _ _ E1 H1) as [[-> ->]|(A1 & A2 & A3)], (Own _ _ _ E2 H2) as [[-> ->]|(B1 & B2 & B3)]; [reflexivity| | |eapply (t_disj _ Nm); eauto].
      * apply Ip in H1. exfalso. destruct H1 as [H1|H1]; [apply B1|apply B2]; eapply (t_disj _ Nm); eauto.
      * apply Ip in H2. exfalso. destruct H2 as [H2|H2]; [apply A1|apply A2]; eapply (t_disj _ Nm); eauto.
  - intros k w (x & cl & Ec & R). destruct (Z.eq_dec x c) as [->|Nc].
    + assert (cl = b) by congruence. subst cl. exists fav, (fst p). split; [|apply Rb, R].
      rewrite L, Z.eqb_refl. apply Z.eqb_neq in Ne. rewrite Ne. reflexivity.
    + destruct (Z.eq_dec x fav) as [->|Nf].
      * assert (cl = a) by congruence. subst cl. exists fav, (fst p). split; [|apply Ra, R].
        rewrite L, Z.eqb_refl. apply Z.eqb_neq in Nc. rewrite Nc. reflexivity.
      * exists x, cl. split; [|exact R]. rewrite L. apply Z.eqb_neq in Nc, Nf. rewrite Nc, Nf. exact Ec.
Qed.
Lemma absorbs_counts fuel fav todo : forall g g', ~ In fav todo -> neat (g_clusters g) -> mfor todo (absorb fuel fav) g = Ret tt g' ->
  neat (g_clusters g') /\ (forall k w, recorded (g_clusters g) k w -> recorded (g_clusters g') k w).
Proof.
  induction todo as [|c todo IH]; intros g g' Nf Nm E; cbn [mfor] in E; [inversion E; subst; auto|].
  apply bind_ret_inv in E. destruct E as ([] & g1 & E1 & E).
  destruct (absorb_counts _ _ _ _ _ (fun X => Nf (or_introl (eq_sym X))) Nm E1) as [N1 R1].
  destruct (IH _ _ (fun X => Nf (or_intror X)) N1 E) as [N2 R2]. auto.
Qed.

(** ** A successful attempt *)
Definition keeps_counts (g g' : world) : Prop :=
  all_counted (g_clusters g') /\
  (forall k w, recorded (g_clusters g) k w -> recorded (g_clusters g') k w) /\
  (forall k, ~ mem_of (g_clusters g) k -> mem_of (g_clusters g') k -> recorded (g_clusters g') k 0).

Lemma create_counts fuel ids limit g g' : shape g -> all_counted (g_clusters g) ->
  create_cluster clk fuel ids limit g = Ret tt g' -> keeps_counts g g'.
Proof.
  intros Sh Ac E. apply create_inv in E.
  destruct E as (t & l & tres & c1 & c2 & e & g1 & El & Er & Ea & Eu & E). cbv zeta in E.
  set (cl := c_with_rng e _) in E.
  destruct E as (_ & Em & Ec1 & _ & _ & _ & _ & _ & _ & _ & _ & _ & _ & Lb).
  apply umem_false_lookup in Em.
  assert (Ec : forall x, ulookup x (g_clusters g') = if x =? g_count g then Some cl else ulookup x (g_clusters g)).
  { intros x. rewrite (b_clusters _ _ _ _ Lb), Ec1. apply uset_lookup, Sh. }
  destruct (addSites_inv _ _ _ Ea) as (m & Em1 & Hm). specialize (Hm (NoDup_nil _)). destruct Hm as (NDm & _).
  assert (ND1 : NoDup (c_siteIds c1)) by (rewrite Em1; exact NDm).
  assert (Es1 : c_svisits c1 = []) by (rewrite Em1; reflexivity).
  destruct (update_counts _ _ _ _ W (or_intror (or_introl Es1)) ND1 (fun _ => eq_trans (f_equal c_visits Em1) (eq_sym (f_equal c_prev Em1))) Eu) as (P2 & C2 & _ & Z2).
  assert (Cc : counted cl) by exact C2.
  assert (Zc : forall k, In k (c_siteIds cl) -> records cl k 0).
  { intros k Hk. assert (H1 : In k (c_siteIds c1)) by (unfold c_siteIds in *; rewrite <- (sc_sites _ _ (keeps_update _ _ _ _ _ Eu)); exact Hk).
    assert (R : records c2 k 0) by (apply Z2; [exact H1|rewrite Es1; intros []]). destruct R as (Hs & sv & Esv & En).
    split; [exact Hs|]. exists sv. split; [|exact En]. unfold ClusterCounts.settled in *. cbn [c_visits c_prev c_svisits cl c_with_rng c_with_inc c_with_res].
    rewrite P2, Z.eqb_refl in Esv |- *. exact Esv. }
  split; [|split].
  - intros x y E. rewrite Ec in E. destruct (x =? g_count g); [inversion E; subst; exact Cc|apply (Ac _ _ E)].
  - intros k w (x & y & Ey & R). exists x, y. split; [|exact R]. rewrite Ec. destruct (Z.eqb_spec x (g_count g)) as [->|]; [congruence|exact Ey].
  - intros k Nk (x & y & Ey & Hk). rewrite Ec in Ey. destruct (Z.eqb_spec x (g_count g)) as [->|].
    + inversion Ey; subst y. exists (g_count g), cl. split; [rewrite Ec, Z.eqb_refl; reflexivity|apply Zc, Hk].
    + exfalso. apply Nk. exists x, y. auto.
Qed.

Lemma merge_counts fuel sac fav g g' : shape g -> all_counted (g_clusters g) -> NoDup (ukeys sac) ->
  (forall k c, ulookup k sac = Some c -> exists s, ulookup k (g_sites g) = Some s /\ c = s_cluster s) ->
  merge_clusters fuel sac fav g = Ret tt g' -> keeps_counts g g'.
Proof.
  intros Sh Ac NDs Hsac E. apply (merge_mid clk) in E; auto.
  destruct E as (iso & cids & g1 & g3 & a & a1 & a2 & _ & R & Ea & Ea1 & Ea2 & Eg3 & Eabs & F0 & NDc & Hc & Hi).
  pose proof (shape_neat _ _ _ Sh Ac) as Nm. destruct (t_cl _ Nm _ _ Ea) as (Ca & Na & Xa).
  destruct (h_cl _ _ _ Sh _ _ Ea) as (Ia & _).
  destruct (addSites_inv _ _ _ Ea1) as (m & Em & Hm). specialize (Hm Na). destruct Hm as (NDm & Hin & Hout & Hold).
  assert (K1 : forall k, In k (c_siteIds a) -> In k (c_siteIds a1)).
  { intros k Hk. apply ukeys_In in Hk. destruct Hk as [x Hk]. rewrite Em. eapply ulookup_In_key. apply Hold, Hk. }
  assert (ND1 : NoDup (c_siteIds a1)) by (rewrite Em; exact NDm).
  assert (Sv : c_svisits a1 = c_svisits a) by (rewrite Em; reflexivity).
  assert (R1 : forall k v, records a k v -> records a1 k v).
  { intros k v. apply records_ext; rewrite Em; try reflexivity. intros j Hj. cbn [c_sites c_with_sites].
    apply (proj2 Ca) in Hj. apply ukeys_In in Hj. destruct Hj as [x Ex]. rewrite Ex, (Hold _ _ Ex). reflexivity. }
  destruct (update_counts fuel (g_heap g) a1 a2 W) as (_ & C2 & R2 & Z2); [|exact ND1| |exact Ea2|].
  { right. right. rewrite Sv. split; [apply Ca|]. intros k Hk. apply K1, Ca, Hk. }
  { rewrite Sv. intros E0. exfalso. destruct (c_siteIds a) as [|x l] eqn:Ex; [congruence|].
    assert (Hx : In x (ukeys (c_svisits a))) by (apply (proj2 Ca); rewrite Ex; left; reflexivity). rewrite E0 in Hx. destruct Hx. }
  assert (Es2 : c_siteIds a2 = c_siteIds a1) by (unfold c_siteIds; rewrite (sc_sites _ _ (keeps_update _ _ _ _ _ Ea2)); reflexivity).
  assert (L3 : forall x, ulookup x (g_clusters g3) = if x =? fav then Some a2 else ulookup x (g_clusters g)).
  { intros x. subst g3. cbn [g_clusters g_with_clusters]. apply (ureplace_lookup_some _ _ _ a). exact Ea. }
  (* a site added to the favoured cluster was in no cluster *)
  assert (New : forall k c cl, ulookup c (g_clusters g) = Some cl -> In k (c_siteIds cl) -> In k (c_siteIds a1) -> c = fav).
  { intros k c cl Ec Hk H1. apply ukeys_In in Hk. destruct Hk as [mk Hk]. rewrite Em in H1. apply ukeys_In in H1. destruct H1 as [x Hx].
    cbn [c_sites c_with_sites] in Hx. destruct (Hout _ _ Hx) as [Hx'|(s & Hs & Ei & _)].
    - apply (h_disj _ _ _ Sh c fav k mk x); eexists; eauto.
    - exfalso. apply Hi in Hs. destruct Hs as (k' & Hk' & Es). destruct (Hsac _ _ Hk') as (s' & Es' & Eu).
      destruct (h_site _ _ _ Sh k' s Es) as [Ei' _]. assert (k' = k) by congruence. subst k'.
      assert (Mb : member g c k mk) by (eexists; eauto). destruct (h_mem _ _ _ Sh c k _ Mb) as (s2 & Es2' & Nu & _). congruence. }
  assert (N3 : neat (g_clusters g3)).
  { constructor.
    - subst g3. cbn [g_clusters g_with_clusters]. rewrite ureplace_keys. apply Sh.
    - intros c cl E. rewrite L3 in E. destruct (c =? fav); [|apply (t_cl _ Nm _ _ E)]. inversion E; subst cl.
      split; [exact C2|]. rewrite Es2. split; [exact ND1|]. destruct (c_siteIds a) as [|j l]; [congruence|].
      intros E0. specialize (K1 j (or_introl eq_refl)). rewrite E0 in K1. destruct K1.
    - intros c c' cl cl' k E1 E2 H1 H2. rewrite L3 in E1, E2. destruct (Z.eqb_spec c fav) as [->|N1], (Z.eqb_spec c' fav) as [->|N2].
      + reflexivity.
      + inversion E1; subst cl. rewrite Es2 in H1. exfalso. apply N2. eapply New; eauto.
      + inversion E2; subst cl'. rewrite Es2 in H2. exfalso. apply N1. eapply New; eauto.
      + eapply (t_disj _ Nm); eauto. }
  assert (Nf : ~ In fav (ukeys cids)) by (intros X; apply Hc in X; tauto).
  destruct (absorbs_counts _ _ _ _ _ Nf N3 Eabs) as [N' R'].
  assert (Rec3 : forall k w, recorded (g_clusters g) k w -> recorded (g_clusters g3) k w).
  { intros k w (c & cl & Ec & Rk). destruct (Z.eq_dec c fav) as [->|Nc].
    - assert (cl = a) by congruence. subst cl. exists fav, a2. split; [rewrite L3, Z.eqb_refl; reflexivity|apply R2, R1, Rk].
    - exists c, cl. split; [|exact Rk]. rewrite L3. apply Z.eqb_neq in Nc. rewrite Nc. exact Ec. }
  split; [|split].
  - intros c cl Ec. apply (t_cl _ N' _ _ Ec).
  - intros k w Rk. apply R', Rec3, Rk.
  - intros k Nk Mk. apply R'.
    (* members of the result are members before absorbing *)
    assert (Back : forall todo h h', ~ In fav todo -> neat (g_clusters h) -> mfor todo (absorb fuel fav) h = Ret tt h' -> mem_of (g_clusters h') k -> mem_of (g_clusters h) k).
    { clear -W. induction todo as [|c todo IH]; intros h h' Nf Nm E Mk; cbn [mfor] in E; [inversion E; subst; exact Mk|].
      apply bind_ret_inv in E. destruct E as ([] & h1 & E1 & E).
      assert (Ne : fav <> c) by (intros X; apply Nf; left; auto).
      destruct (absorb_counts _ _ _ _ _ Ne Nm E1) as [N1 _]. specialize (IH _ _ (fun X => Nf (or_intror X)) N1 E Mk).
      apply absorb_inv in E1; [|exact Ne|apply Nm]. destruct E1 as (a & b & p & Ea & Eb & Em & m & -> & _ & L).
      destruct IH as (x & cl & Ec & Hk). cbn [g_clusters g_with_clusters] in Ec. rewrite L in Ec.
      destruct (x =? c); [discriminate|]. destruct (x =? fav); [|exists x, cl; auto]. inversion Ec; subst cl.
      destruct (t_cl _ Nm _ _ Ea) as (_ & Na & _).
      destruct (migrate_inv _ _ _ _ _ Em Na) as (c0 & K & _ & _ & _ & _ & Hall). unfold c_siteIds in Hk. rewrite (sc_sites _ _ K) in Hk.
      apply ukeys_In in Hk. destruct Hk as [y Hk]. destruct (Hall _ _ Hk) as [H1|(y0 & H1 & _)].
      - exists fav, a. split; [exact Ea|]. eapply ulookup_In_key; exact H1.
      - exists c, b. split; [exact Eb|]. eapply ulookup_In_key; exact H1. }
    destruct (Back _ _ _ Nf N3 Eabs Mk) as (c & cl & Ec & Hk). rewrite L3 in Ec. destruct (Z.eqb_spec c fav) as [->|].
    + inversion Ec; subst cl. exists fav, a2. split; [rewrite L3, Z.eqb_refl; reflexivity|]. apply Z2; [rewrite <- Es2; exact Hk|].
      rewrite Sv. intros X. apply Nk. exists fav, a. split; [exact Ea|apply Ca, X].
    + exfalso. apply Nk. exists c, cl. auto.
Qed.

Lemma coarse_counts fuel k g b g' : shape g -> all_counted (g_clusters g) -> coarse_grain clk fuel k g = Ret b g' -> keeps_counts g g'.
Proof.
  intros Sh Ac E. destruct (coarse_inv clk _ _ _ _ _ Sh E) as (B & Eb & ok & Eq & H1). cbv zeta in H1, Eq.
  set (g1 := g_with_tick (g_tick g + 1) g) in *.
  assert (Sh1 : shape g1) by (apply (calm_shape clk g); [apply calm_tick|exact Sh]).
  destruct H1 as [[_ ->]|(_ & _ & sac & ND & A1 & A2 & [(_ & _ & _ & E1)|(_ & E1)])].
  - split; [exact Ac|]. split; [auto|]. intros j H1 H2. destruct (H1 H2).
  - exact (create_counts _ _ _ _ _ Sh1 Ac E1).
  - refine (merge_counts _ _ _ _ _ Sh1 Ac ND _ E1). intros j c Ej. destruct (in_dec Z.eq_dec j B) as [Hj|Hj].
    + destruct (A1 j Hj) as (s & Es & Y). exists s. split; [exact Es|congruence].
    + rewrite (A2 j Hj) in Ej. discriminate.
Qed.

(** ** Every state *)
Lemma frz_counted c c' : frz_c c' = frz_c c -> counted c -> counted c'.
Proof.
  intros F [A B]. assert (Ev : c_svisits c' = c_svisits c) by exact (f_equal c_svisits F).
  assert (Ek : c_siteIds c' = c_siteIds c) by exact (same_keys _ _ _ (frz_c_sites _ _ F)).
  unfold counted. rewrite Ev, Ek. split; assumption.
Qed.
Lemma drift_counted g g' : drift g g' -> all_counted (g_clusters g) -> all_counted (g_clusters g').
Proof.
  intros D Ac c cl' Ec. destruct (same_some _ _ _ _ _ (eq_sym (m_clusters _ _ D)) Ec) as (cl & E1 & F).
  cbn [g_clusters g_with_walkers] in E1. apply (frz_counted cl); [symmetry; exact F|apply (Ac _ _ E1)].
Qed.
Lemma step_counted g ws c g' ws' : inv g ws -> all_counted (g_clusters g) -> step clk g ws c g' ws' -> all_counted (g_clusters g').
Proof.
  intros V Ac S. pose proof S as S0. destruct S as [p g' E|t g' E|t g' E|s g' E|rates g' ND _ E|h|m Hm L|n t Hn|l g' H1 H2 H3 H4 H5 E|fuel id p g' Hp E|id p g' Hp E|k v g' E].
  - inversion E; subst; auto.
  - unfold sys_setTimeResolution in E. destruct (nleb t n0); [discriminate|]. inversion E; subst; auto.
  - inversion E; subst; auto.
  - unfold sys_setRandomSeed in E. apply bind_ret_inv in E. destruct E as (f & g1 & E1 & E). inversion E1; subst f g1; clear E1.
    destruct (g_feats g); [|discriminate]. inversion E; subst; auto.
  - destruct (init_counters _ _ _ _ E) as (_ & B). rewrite B. exact Ac.
  - exact Ac.
  - exact Ac.
  - exact Ac.
  - apply (drift_counted g); [exact (enter_drift clk _ _ _ _ _ V S0)|exact Ac].
  - apply hop_inv in E. destruct E as (w & g1 & Ew & _ & _ & E1 & E2).
    destruct (move_step clk _ _ _ _ _ _ _ V Hp (ex_intro _ w (conj Ew eq_refl)) E1) as (V1 & D & _).
    pose proof (drift_counted _ _ D Ac) as A1.
    apply attempt_inv in E2. destruct E2 as (_ & [(_ & ->)|[(_ & _ & ->)|(_ & _ & b & g3 & E & _ & ->)]]); [exact A1|exact A1|].
    set (g2 := g_with_iter (g_iter g1 + 1) g1) in *.
    assert (Sh2 : shape g2) by (destruct (v_shape _ _ V1); constructor; assumption).
    destruct (coarse_counts _ _ _ _ _ Sh2 A1 E) as (A3 & _). exact A3.
  - apply (drift_counted g); [apply calm_drift, (leave_calm clk _ _ _ _ _ V S0)|exact Ac].
  - apply SystemProofs.getVisits_inv in E. destruct E as (s & _ & [(_ & _ & ->)|(_ & cl & cl' & v' & Ec & Eg & _ & ->)]); [exact Ac|].
    intros x y E. cbn [g_clusters g_with_clusters] in E. rewrite (ureplace_lookup_some _ _ _ cl) in E by exact Ec.
    destruct (x =? s_cluster s); [|apply (Ac _ _ E)]. inversion E; subst y.
    apply ClusterCounts.getVisits_inv in Eg. destruct Eg as (sv & Es & -> & _). apply (settle_counted _ _ Es), (Ac _ _ Ec).
Qed.
Lemma reach_counted tr g ws : reach_by clk tr g ws -> all_counted (g_clusters g).
Proof.
  intros (m & h & count & tick & ND & Hc & S).
  assert (V0 : inv (world_new m h count tick) []).
  { apply (reach_inv clk). exists [], m, h, count, tick. split; [exact ND|]. split; [exact Hc|constructor]. }
  induction S as [|tr g1 ws1 c g2 ws2 S IH St]; [intros x y E; discriminate|].
  eapply step_counted; [exact (steps_inv clk _ _ _ _ _ V0 S)|exact IH|exact St].
Qed.

(** ** Reading the counts *)
Definition reads (g : world) (k v : Z) : Prop :=
  exists s, ulookup k (g_sites g) = Some s /\
    ((s_cluster s = unassignedId /\ v = s_visits s) \/
     (s_cluster s <> unassignedId /\ exists w, recorded (g_clusters g) k w /\ v = s_visits s + w)).
Lemma visits_reads g k v : shape g -> visits g k v -> reads g k v.
Proof.
  intros Sh [g' E]. apply SystemProofs.getVisits_inv in E. destruct E as (s & Es & [(Hn & -> & _)|(Hp & cl & cl' & w & Ec & Eg & -> & _)]); exists s; (split; [exact Es|]).
  - left. split; [|reflexivity]. destruct (h_site _ _ _ Sh k s Es) as [_ [?|?]]; [assumption|lia].
  - right. split; [unfold unassignedId, INT_MIN; lia|]. exists w. split; [|reflexivity]. exists (s_cluster s), cl. split; [exact Ec|].
    eapply getVisits_records; eauto.
Qed.
Lemma reads_fun g k v v' : neat (g_clusters g) -> reads g k v -> reads g k v' -> v = v'.
Proof.
  intros Nm (s & Es & H1) (s' & Es' & H2). assert (s' = s) by congruence. subst s'.
  destruct H1 as [[E1 ->]|(E1 & w & R & ->)], H2 as [[E2 ->]|(E2 & w' & R' & ->)]; try congruence. f_equal. eapply recorded_fun; eauto.
Qed.
Lemma coarse_reads fuel k g b g' j v v' : shape g -> all_counted (g_clusters g) -> coarse_grain clk fuel k g = Ret b g' ->
  shape g' -> grain g g' -> reads g j v -> reads g' j v' -> v = v'.
Proof.
  intros Sh Ac E Sh' Gr (s & Es & H1) (s' & Es' & H2). destruct (coarse_counts _ _ _ _ _ Sh Ac E) as (Ac' & Rec & New).
  pose proof (shape_neat _ _ _ Sh' Ac') as N'.
  destruct (r_sites _ _ Gr _ _ Es') as (s0 & Es0 & Ew). assert (s0 = s) by congruence. subst s0.
  assert (Ev : s_visits s' = s_visits s) by (rewrite Ew; reflexivity).
  destruct H1 as [[E1 ->]|(E1 & w & R & ->)], H2 as [[E2 ->]|(E2 & w' & R' & ->)].
  - auto.
  - assert (Nk : ~ mem_of (g_clusters g) j).
    { intros (c & cl & Ec & Hk). apply ukeys_In in Hk. destruct Hk as [m Hk]. assert (Mb : member g c j m) by (eexists; eauto).
      destruct (h_mem _ _ _ Sh c j m Mb) as (s2 & Es2 & Nu & _). congruence. }
    pose proof (New j Nk (recorded_mem _ _ _ N' R')) as R0. pose proof (recorded_fun _ _ _ _ N' R0 R'). lia.
  - exfalso. apply (r_stay _ _ Gr j s s' Es E1 Es' E2).
  - rewrite Ev. f_equal. apply Rec in R. eapply recorded_fun; eauto.
Qed.

(** ** Switching coarse graining off does not change the move of a walker *)
Definition off (g : world) : world := g_with_thr inf_iterations (g_with_thrmin inf_iterations g).

Lemma blind_zoom {S T A} (get : S -> T) (put : T -> S -> S) (f : S -> S) (m : M T A) :
  (forall s, get (f s) = get s) -> (forall t s, put t (f s) = f (put t s)) -> blind f (zoom get put m).
Proof. intros E1 E2 s. unfold zoom. rewrite E1. destruct (m (get s)); cbn [lets]; rewrite ?E2; reflexivity. Qed.
Lemma blind_feature {A} k (ms : M site A) (mc : M cluster A) : blind off (on_feature k ms mc).
Proof.
  unfold on_feature. apply blind_bind; [apply blind_gets; reflexivity|]. intros [[| |]|];
    first [apply blind_stop | apply blind_zoom; reflexivity].
Qed.
Lemma blind_walker {A} p (m : M walker A) : blind off (in_walker p m).
Proof. apply blind_zoom; reflexivity. Qed.
Lemma blind_clock : blind off (read_clock clk).
Proof. intros s. reflexivity. Qed.
Lemma blind_move id p src dst : blind off (hop_move clk id p src dst).
Proof.
  unfold hop_move, f_isOccupied, f_vacate, f_occupy, f_getDwellTime, f_pick.
  repeat match goal with
    | |- blind _ (bind _ _) => apply blind_bind; [|intros]
    | |- blind _ (if _ then _ else _) => apply blind_if
    | |- blind _ (read_clock _) => apply blind_clock
    | |- blind _ (on_feature _ _ _) => apply blind_feature
    | |- blind _ (in_walker _ _) => apply blind_walker
    end.
Qed.

Lemma attempt_off fuel d g : in_int (g_iter g + 1) = true -> hop_attempt clk fuel d (off g) = Ret tt (g_with_iter (g_iter g + 1) (off g)).
Proof.
  intros Ei. unfold hop_attempt. rewrite (bind_Ret _ _ _ (g_iter g) (off g)) by reflexivity.
  rewrite (bind_Ret _ _ _ (g_iter g + 1) (off g)) by (unfold chk; rewrite Ei; reflexivity).
  rewrite (bind_Ret _ _ _ tt (g_with_iter (g_iter g + 1) (off g))) by reflexivity.
  rewrite (bind_Ret _ _ _ INT_MAX (g_with_iter (g_iter g + 1) (off g))) by reflexivity.
  apply in_int_iff in Ei. destruct Ei as [_ Ei]. apply Z.ltb_ge in Ei. rewrite Ei. reflexivity.
Qed.
Lemma hop_off fuel id p g g' ws : inv g ws -> In p ws -> sys_hop clk fuel id p g = Ret tt g' ->
  exists g1, inv g1 ws /\ drift g g1 /\ sys_hop clk fuel id p (off g) = Ret tt (g_with_iter (g_iter g1 + 1) (off g1)) /\
    exists k, hop_attempt clk fuel k g1 = Ret tt g'.
Proof.
  intros V Hp E. pose proof E as E0. apply hop_inv in E. destruct E as (w & g1 & Ew & _ & _ & E1 & E2).
  destruct (move_step clk _ _ _ _ _ _ _ V Hp (ex_intro _ w (conj Ew eq_refl)) E1) as (V1 & D & _).
  exists g1. split; [exact V1|]. split; [exact D|]. split; [|eauto].
  unfold sys_hop in E0 |- *. apply bind_ret_inv in E0. destruct E0 as (src & h1 & X1 & E0). rewrite (bind_Ret _ _ _ src (off h1)).
  2:{ rewrite (blind_walker p w_getSite g), X1. reflexivity. }
  apply bind_ret_inv in E0. destruct E0 as (dst & h2 & X2 & E0). rewrite (bind_Ret _ _ _ dst (off h2)).
  2:{ rewrite (blind_walker p w_getPotentialSite h1), X2. reflexivity. }
  apply getSite_ret in X1. destruct X1 as (-> & _ & w1 & Ew1 & <-). apply getPotential_ret in X2. destruct X2 as (-> & _ & w2 & Ew2 & <-).
  assert (w1 = w) by congruence. assert (w2 = w) by congruence. subst w1 w2. clear E0.
  assert (Em : hop_move clk id p (w_cur w) (w_pot w) (off g) = Ret tt (off g1)) by (rewrite (blind_move id p (w_cur w) (w_pot w) g), E1; reflexivity).
  rewrite (bind_Ret _ _ _ _ _ Em). apply attempt_off. apply attempt_inv in E2. apply E2.
Qed.
Lemma reads_same g g' k v : g_sites g' = g_sites g -> g_clusters g' = g_clusters g -> reads g k v -> reads g' k v.
Proof. unfold reads. intros -> ->. auto. Qed.
Lemma hop_counts tr fuel id p g g' ws : reach_by clk tr g ws -> In p ws -> sys_hop clk fuel id p g = Ret tt g' ->
  exists g0 g0', sys_setThreshold inf_iterations g = Ret tt g0 /\ sys_hop clk fuel id p g0 = Ret tt g0' /\
    forall k v v', visits g0' k v -> visits g' k v' -> v = v'.
Proof.
  intros R Hp E. assert (V : inv g ws) by (apply (reach_inv clk); eexists; exact R). pose proof (reach_counted _ _ _ R) as Ac.
  destruct (hop_off _ _ _ _ _ _ V Hp E) as (g1 & V1 & D & E0 & d & Ea). exists (off g). eexists. split; [reflexivity|]. split; [exact E0|].
  set (g0' := g_with_iter _ _) in *. intros k v v' H1 H2. pose proof (drift_counted _ _ D Ac) as A1.
  assert (Sh0 : shape g0') by (destruct (v_shape _ _ V1); constructor; assumption).
  assert (V' : inv g' ws) by (eapply (step_inv clk); [exact V|eapply st_hop; [exact Hp|exact E]]).
  apply (visits_reads _ _ _ Sh0) in H1. apply (visits_reads _ _ _ (v_shape _ _ V')) in H2.
  apply (reads_same g0' g1) in H1; [|reflexivity|reflexivity].
  pose proof (shape_neat _ _ _ (v_shape _ _ V1) A1) as N1.
  pose proof Ea as Ea0. apply attempt_inv in Ea. destruct Ea as (_ & [(_ & ->)|[(_ & _ & ->)|(_ & _ & b & g3 & E3 & _ & ->)]]).
  - apply (reads_fun g1 k); [exact N1|exact H1|exact H2].
  - apply (reads_fun g1 k); [exact N1|exact H1|exact H2].
  - set (g2 := g_with_iter (g_iter g1 + 1) g1) in *.
    assert (Sh2 : shape g2) by (destruct (v_shape _ _ V1); constructor; assumption).
    destruct (coarse_shape clk _ _ _ _ _ Sh2 E3) as [Sh3 Gr].
    apply (coarse_reads fuel d g2 b g3 k v v' Sh2 A1 E3 Sh3 Gr H1 H2).
Qed.
End Visits.
