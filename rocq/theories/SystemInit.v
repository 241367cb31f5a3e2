(** * What initialisation does *)
From Coq Require Import ZArith List Bool Reals Lia Permutation.
From Verif Require Import Base BaseProofs Num RSum WalkerModel SiteModel SiteSpec SiteProofs ClusterModel ClusterFrame
  ContainerModel BasinModel SystemModel SystemSpec SystemShape SystemHop SystemCoarse SystemMerge SystemProofs SystemFacts SystemControl.
Import ListNotations.
Open Scope Z_scope.

Section Init.
Context {I : Impl} {N : Num} {G : Rng} {U : Ugly}.
Variable clk : Z -> Z.

(** ** Drains *)
Lemma drains_in (rates : umap (umap Z)) :
  NoDup (ukeys (drains rates)) /\
  forall k, In k (ukeys (drains rates)) <-> ~ In k (ukeys rates) /\ exists k' r, In (k', r) rates /\ In k (ukeys r).
Proof.
  unfold drains.
  assert (X : forall (l : umap (umap Z)) (acc : umap unit), NoDup (ukeys acc) ->
    let d := fold_left (fun (d : umap unit) (e : Z * umap Z) => fold_left (fun (d : umap unit) (n : Z * Z) => if umem (fst n) rates then d else uinsert d (fst n)) (snd e) d) l acc in
    NoDup (ukeys d) /\ forall k, In k (ukeys d) <-> In k (ukeys acc) \/ (~ In k (ukeys rates) /\ exists k' (r : umap Z), In (k', r) l /\ In k (ukeys r))).
  { induction l as [|[k0 r0] l IH]; intros acc ND; cbv zeta; cbn [fold_left].
    - split; [exact ND|]. intros k. split; [auto|]. intros [?|(_ & k' & r & [] & _)]; assumption.
    - cbn [snd].
      assert (Y : forall (r : umap Z) acc, NoDup (ukeys acc) ->
        let d := fold_left (fun (d : umap unit) (n : Z * Z) => if umem (fst n) rates then d else uinsert d (fst n)) r acc in
        NoDup (ukeys d) /\ forall k, In k (ukeys d) <-> In k (ukeys acc) \/ (~ In k (ukeys rates) /\ In k (ukeys r))).
      { clear. induction r as [|[n a] r IH]; intros acc ND; cbv zeta; cbn [fold_left fst].
        - split; [exact ND|]. intros k; cbn. tauto.
        - destruct (umem n rates) eqn:En.
          + apply umem_In in En. destruct (IH acc ND) as [A B]. split; [exact A|]. intros k. rewrite B. cbn [ukeys map fst].
            split; [intros [?|[? ?]]; [auto|right; split; [assumption|right; assumption]]|].
            intros [?|[? [<-|?]]]; [auto|contradiction|auto].
          + apply umem_false in En. destruct (IH _ (uinsert_NoDup acc n ND)) as [A B]. split; [exact A|]. intros k. rewrite B, uinsert_In. cbn [ukeys map fst].
            split; [intros [[->|?]|[? ?]]; [right; split; [exact En|left; reflexivity]|auto|right; split; [assumption|right; assumption]]|].
            intros [?|[? [<-|?]]]; auto. }
      destruct (Y r0 acc ND) as [A1 B1]. destruct (IH _ A1) as [A2 B2]. split; [exact A2|]. intros k. rewrite B2, B1. split.
      + intros [[?|[? ?]]|(? & k' & r & Hr & Hk)]; [auto|right; split; [assumption|exists k0, r0; split; [left; reflexivity|assumption]]|].
        right. split; [assumption|]. exists k', r. split; [right; exact Hr|exact Hk].
      + intros [?|(? & k' & r & [E|Hr] & Hk)]; [auto|inversion E; subst; auto|]. right. split; [assumption|]. exists k', r. auto. }
  destruct (X rates [] (NoDup_nil _)) as [A B]. split; [exact A|]. intros k. rewrite B. cbn. tauto.
Qed.

(** ** The sites after initialisation *)
Record settled (g g' : world) : Prop := {
  z_heap : g_heap g' = g_heap g; z_res : g_res g' = g_res g; z_walkers : g_walkers g' = g_walkers g;
  z_clusters : g_clusters g' = g_clusters g; z_perf : g_perf g' = g_perf g; z_thr : g_thr g' = g_thr g; z_thrmin : g_thrmin g' = g_thrmin g;
  z_iter : g_iter g' = g_iter g; z_count : g_count g' = g_count g }.
Definition keyed (h : heap) (r : umap Z) (k : Z) (s : site) : Prop :=
  s_id s = Some k /\ blank s /\ exists t e s0, s_setRates h r (s_with_id (Some k) (site_new t)) = Ret tt s0 /\ s = s_with_rng e s0.

Lemma init_keys l : forall g g', NoDup (ukeys l) -> NoDup (ukeys (g_sites g)) ->
  mfor l (fun e => init_site clk (fst e) (snd e)) g = Ret tt g' ->
  settled g g' /\ NoDup (ukeys (g_sites g')) /\
  (forall k r, In (k, r) l -> ulookup k (g_sites g) = None /\ exists s, ulookup k (g_sites g') = Some s /\ keyed (g_heap g) r k s) /\
  (forall k, ~ In k (ukeys l) -> ulookup k (g_sites g') = ulookup k (g_sites g)).
Proof.
  induction l as [|[k0 r0] l IH]; intros g g' NDl NDs E; cbn [mfor] in E.
  - inversion E; subst. split; [constructor; reflexivity|]. split; [exact NDs|]. split; [intros ? ? []|auto].
  - apply bind_ret_inv in E. destruct E as ([] & g1 & E1 & E). cbn [fst snd] in E1.
    apply init_site_inv in E1. destruct E1 as (s & sd & Nk & Ei & Bl & St & ->).
    cbn [ukeys map fst] in NDl. inversion NDl as [|? ? N0 NDl']; subst.
    assert (ND1 : NoDup (ukeys (uset (g_sites g) k0 s))) by apply uset_NoDup, NDs.
    apply umem_false_lookup in Nk.
    apply IH in E; [|exact NDl'|exact ND1]. destruct E as (Z1 & ND2 & A & B).
    cbn [g_sites g_heap g_with_feats g_with_sites] in A, B.
    split; [destruct Z1; constructor; assumption|]. split; [exact ND2|]. split.
    + intros k r [Eq|Hin].
      * inversion Eq; subst k r. split; [exact Nk|]. exists s. rewrite B by exact N0.
        rewrite uset_lookup_same by exact NDs. split; [reflexivity|]. split; [exact Ei|]. split; [exact Bl|exact St].
      * destruct (A k r Hin) as (L & s1 & Es1 & K1).
        assert (Nk0 : k <> k0) by (intros ->; apply N0; apply (in_map fst) in Hin; exact Hin).
        rewrite uset_lookup_other in L by assumption. split; [exact L|]. exists s1. split; [exact Es1|exact K1].
    + intros k Hk. cbn [ukeys map fst] in Hk. rewrite B by (intros X; apply Hk; right; exact X).
      apply uset_lookup_other; [exact NDs|]. intros ->. apply Hk. left. reflexivity.
Qed.
Lemma init_drains l : forall g g', NoDup l -> NoDup (ukeys (g_sites g)) ->
  mfor l (init_drain clk) g = Ret tt g' ->
  settled g g' /\ NoDup (ukeys (g_sites g')) /\
  (forall k, In k l -> ulookup k (g_sites g) = None /\ exists t, ulookup k (g_sites g') = Some (s_with_id (Some k) (site_new t))) /\
  (forall k, ~ In k l -> ulookup k (g_sites g') = ulookup k (g_sites g)).
Proof.
  induction l as [|k0 l IH]; intros g g' NDl NDs E; cbn [mfor] in E.
  - inversion E; subst. split; [constructor; reflexivity|]. split; [exact NDs|]. split; [intros ? []|auto].
  - apply bind_ret_inv in E. destruct E as ([] & g1 & E1 & E).
    apply init_drain_inv in E1. destruct E1 as (t & Nk & ->). inversion NDl as [|? ? N0 NDl']; subst.
    apply umem_false_lookup in Nk.
    apply IH in E; [|exact NDl'|cbn [g_sites g_with_feats g_with_sites]; apply uset_NoDup, NDs].
    destruct E as (Z1 & ND2 & A & B). cbn [g_sites g_heap g_with_feats g_with_sites] in A, B.
    split; [destruct Z1; constructor; assumption|]. split; [exact ND2|]. split.
    + intros k [<-|Hin].
      * split; [exact Nk|]. exists t. rewrite B by exact N0. apply uset_lookup_same, NDs.
      * destruct (A k Hin) as (L & t1 & Es1). assert (Nk0 : k <> k0) by (intros ->; contradiction).
        rewrite uset_lookup_other in L by assumption. split; [exact L|]. exists t1. exact Es1.
    + intros k Hk. rewrite B by (intros X; apply Hk; right; exact X).
      apply uset_lookup_other; [exact NDs|]. intros ->. apply Hk. left. reflexivity.
Qed.

Lemma init_all rates g g' ws : inv g ws -> NoDup (ukeys rates) -> sys_initializeSystem clk rates g = Ret tt g' ->
  settled g g' /\
  (forall k r, In (k, r) rates -> ulookup k (g_sites g) = None /\ exists s, ulookup k (g_sites g') = Some s /\ keyed (g_heap g) r k s) /\
  (forall k, mentioned rates k -> ~ In k (ukeys rates) ->
     ulookup k (g_sites g) = None /\ exists t, ulookup k (g_sites g') = Some (s_with_id (Some k) (site_new t))) /\
  (forall k, ~ mentioned rates k -> ulookup k (g_sites g') = ulookup k (g_sites g)).
Proof.
  intros V ND E. unfold sys_initializeSystem in E.
  apply bind_ret_inv in E. destruct E as (r & g1 & E1 & E). inversion E1; subst r g1; clear E1.
  destruct (g_res g) eqn:Er; [|discriminate]. apply bind_ret_inv in E. destruct E as ([] & g1 & E1 & E).
  destruct (init_keys _ _ _ ND (h_nds _ _ _ (v_shape _ _ V)) E1) as (Z1 & ND1 & A1 & B1).
  destruct (drains_in rates) as [NDd Hd].
  destruct (init_drains _ _ _ NDd ND1 E) as (Z2 & _ & A2 & B2).
  assert (Kd : forall k, In k (ukeys rates) -> ~ In k (ukeys (drains rates))) by (intros k Hk X; apply Hd in X; tauto).
  split; [destruct Z1, Z2; constructor; congruence|]. split; [|split].
  - intros k r Hin. destruct (A1 k r Hin) as (L & s & Es & K). split; [exact L|]. exists s.
    rewrite B2; [auto|]. apply Kd. apply (in_map fst) in Hin. exact Hin.
  - intros k [Hk|Hk] Nk; [contradiction|]. destruct (A2 k) as (L & t & Es); [apply Hd; auto|].
    rewrite B1 in L by exact Nk. split; [exact L|]. exists t. exact Es.
  - intros k Nk. rewrite B2, B1; [reflexivity| |].
    + intros X. apply Nk. left; exact X.
    + intros X. apply Hd in X. apply Nk. right. apply X.
Qed.

(** ** Observations *)
Lemma unknown_visits k g : ulookup k (g_sites g) = None -> sys_getVisits k g = Thr InvalidArgument g.
Proof. intros E. unfold sys_getVisits, bind, gets, umem. rewrite E. reflexivity. Qed.
Lemma known_site g ws k : inv g ws -> ((exists c, cluster_of g k c) <-> exists s, ulookup k (g_sites g) = Some s).
Proof.
  intros V. split.
  - intros [c Hc]. apply cluster_of_iff in Hc. destruct Hc as (s & Es & _). eauto.
  - intros [s Es]. exists (s_cluster s). apply cluster_of_iff. eauto.
Qed.
Lemma blank_site g ws k s : inv g ws -> ulookup k (g_sites g) = Some s -> blank s ->
  taken g k false /\ cluster_of g k unassignedId /\ visits g k 0.
Proof.
  intros V Es (B1 & B2 & B3). split; [|split].
  - assert (Ef : ulookup k (g_feats g) = Some (PSite k)).
    { rewrite (h_feat _ _ _ (v_shape _ _ V) k), Es, B1, Z.eqb_refl. reflexivity. }
    exists g. unfold f_isOccupied, on_feature, bind, gets. rewrite Ef. unfold in_sites, zoom, at_key. rewrite Es.
    unfold s_isOccupied. rewrite B2, (ureplace_id _ _ _ Es), eta_sites. reflexivity.
  - apply cluster_of_iff. eauto.
  - exists g. rewrite <- B3. apply free_visits; assumption.
Qed.
Lemma registers rates g ws g' : inv g ws -> NoDup (ukeys rates) -> sys_initializeSystem clk rates g = Ret tt g' ->
  (forall k, knows g' k <-> knows g k \/ mentioned rates k) /\
  (forall k, mentioned rates k -> ~ knows g k /\ taken g' k false /\ cluster_of g' k unassignedId /\ visits g' k 0) /\
  (forall k, ~ knows g' k -> sys_getVisits k g' = Thr InvalidArgument g').
Proof.
  intros V ND E. pose proof (inv_initSystem clk _ _ _ _ V E) as V'.
  destruct (init_all _ _ _ _ V ND E) as (_ & A & B & C).
  assert (M : forall k, mentioned rates k -> ulookup k (g_sites g) = None /\ exists s, ulookup k (g_sites g') = Some s /\ blank s).
  { intros k Hk. destruct (in_dec Z.eq_dec k (ukeys rates)) as [Hi|Ni].
    - unfold ukeys in Hi. apply in_map_iff in Hi. destruct Hi as ([k' r] & Ek & Hin). cbn in Ek; subst k'.
      destruct (A k r Hin) as (L & s & Es & _ & Bl & _). split; [exact L|]. exists s. auto.
    - destruct (B k Hk Ni) as (L & t & Es). split; [exact L|]. eexists. split; [exact Es|]. repeat split. }
  assert (Dm : forall k, mentioned rates k \/ ~ mentioned rates k).
  { intros k. destruct (drains_in rates) as [_ Hd]. destruct (in_dec Z.eq_dec k (ukeys rates)) as [Hi|Ni]; [left; left; exact Hi|].
    destruct (in_dec Z.eq_dec k (ukeys (drains rates))) as [Hi|Nd]; [left; right; apply Hd in Hi; apply Hi|].
    right. intros [X|X]; [contradiction|]. apply Nd, Hd. auto. }
  split; [|split].
  - intros k. unfold knows. rewrite (known_site g' ws k V'), (known_site g ws k V). split.
    + intros [s Es]. destruct (Dm k) as [Hm|Nm]; [auto|]. left. rewrite (C k Nm) in Es. eauto.
    + intros [[s Es]|Hm].
      * destruct (Dm k) as [Hm|Nm]; [destruct (M k Hm) as [L _]; congruence|]. rewrite (C k Nm). eauto.
      * destruct (M k Hm) as (_ & s & Es & _). eauto.
  - intros k Hm. destruct (M k Hm) as (L & s & Es & Bl). split.
    + unfold knows. rewrite (known_site g ws k V). intros [s' Es']. congruence.
    + apply (blank_site g' ws k s V' Es Bl).
  - intros k Nk. apply unknown_visits. destruct (ulookup k (g_sites g')) as [s|] eqn:Es; [|reflexivity].
    exfalso. apply Nk. apply (known_site g' ws k V'). eauto.
Qed.

(** ** Order of configuration calls *)
Lemma drift_res g g' : drift g g' -> g_res g' = g_res g /\ g_feats g' = g_feats g.
Proof. intros C. split; [apply (k_res _ _ (m_kept _ _ C))|apply (k_feats _ _ (m_kept _ _ C))]. Qed.
Lemma step_res g ws c g' ws' : inv g ws -> step clk g ws c g' ws' ->
  (is_res c = false -> g_res g' = g_res g) /\ (is_res c = true -> g_res g' <> None).
Proof.
  intros V S. destruct S as [p g' E|t g' E|t g' E|s g' E|rates g' ND _ E|h|m Hm L|n t Hn|l g' H1 H2 H3 H4 H5 E|fuel id p g' Hp E|id p g' Hp E|k v g' E];
    (split; [intros Nr; try discriminate|intros Nr; try discriminate]); try reflexivity.
  - inversion E; subst. reflexivity.
  - unfold sys_setTimeResolution in E. destruct (nleb t n0); inversion E. discriminate.
  - inversion E; subst. reflexivity.
  - unfold sys_setRandomSeed in E. apply bind_ret_inv in E. destruct E as (f & g1 & E1 & E). inversion E1; subst f g1; clear E1.
    destruct (g_feats g); inversion E; reflexivity.
  - destruct (init_all _ _ _ _ V ND E) as (Zs & _). apply (z_res _ _ Zs).
  - unfold sys_initializeWalkers in E. apply bind_ret_inv in E. destruct E as (f & g1 & E1 & E). inversion E1; subst f g1; clear E1.
    destruct (g_feats g); [discriminate|]. apply drift_res, (enter_all clk l g g' ws V H1 H2 H3 H4 H5 E).
  - apply hop_inv in E. destruct E as (w & g1 & Ew & _ & _ & E1 & E2).
    destruct (move_step _ _ _ _ _ _ _ _ V Hp (ex_intro _ w (conj Ew eq_refl)) E1) as (V1 & D1 & _).
    destruct (attempt_step _ _ _ _ _ _ V1 E2) as (_ & G2). rewrite (r_res _ _ G2). apply (drift_res _ _ D1).
  - destruct (leave_step _ _ _ _ _ _ V Hp E) as (_ & C). apply (k_res _ _ (m_kept _ _ C)).
  - apply getVisits_inv in E. destruct E as (s & Es & [(_ & _ & ->)|(_ & cl & cl' & v' & Ec & E & _ & ->)]); reflexivity.
Qed.
Lemma res_set tr g ws : reach_by clk tr g ws -> (g_res g = None <-> existsb is_res tr = false).
Proof.
  intros R. assert (R' : inv g ws) by (apply (reach_inv clk); exists tr; exact R).
  destruct R as (m & h & count & tick & ND & Hc & S). clear R'.
  assert (V0 : inv (world_new m h count tick) []).
  { apply (reach_inv clk). exists [], m, h, count, tick. split; [exact ND|]. split; [exact Hc|constructor]. }
  induction S as [|tr g1 ws1 c g2 ws2 S IH St]; [cbn; tauto|].
  pose proof (steps_inv clk _ _ _ _ _ V0 S) as V1. destruct (step_res _ _ _ _ _ V1 St) as [A B].
  rewrite existsb_app. cbn [existsb]. rewrite orb_false_r. destruct (is_res c) eqn:Ec.
  - rewrite orb_true_r. split; [intros X; destruct (B eq_refl X)|discriminate].
  - rewrite orb_false_r, (A eq_refl). exact IH.
Qed.
Lemma step_sites g ws c g' ws' : inv g ws -> step clk g ws c g' ws' ->
  (is_init c = false -> ukeys (g_sites g') = ukeys (g_sites g)).
Proof.
  intros V S. destruct S as [p g' E|t g' E|t g' E|s g' E|rates g' ND _ E|h|m Hm L|n t Hn|l g' H1 H2 H3 H4 H5 E|fuel id p g' Hp E|id p g' Hp E|k v g' E];
    intros Nr; try discriminate; try reflexivity.
  - inversion E; subst. reflexivity.
  - unfold sys_setTimeResolution in E. destruct (nleb t n0); inversion E. reflexivity.
  - inversion E; subst. reflexivity.
  - unfold sys_setRandomSeed in E. apply bind_ret_inv in E. destruct E as (f & g1 & E1 & E). inversion E1; subst f g1; clear E1.
    destruct (g_feats g); inversion E; reflexivity.
  - unfold sys_initializeWalkers in E. apply bind_ret_inv in E. destruct E as (f & g1 & E1 & E). inversion E1; subst f g1; clear E1.
    destruct (g_feats g); [discriminate|]. assert (D : drift g g') by apply (enter_all clk l g g' ws V H1 H2 H3 H4 H5 E).
    apply (same_keys _ _ _ (m_sites _ _ D)).
  - apply hop_inv in E. destruct E as (w & g1 & Ew & _ & _ & E1 & E2).
    destruct (move_step _ _ _ _ _ _ _ _ V Hp (ex_intro _ w (conj Ew eq_refl)) E1) as (V1 & D1 & _).
    destruct (attempt_step _ _ _ _ _ _ V1 E2) as (_ & G2). rewrite (r_keys _ _ G2). apply (same_keys _ _ _ (m_sites _ _ D1)).
  - destruct (leave_step _ _ _ _ _ _ V Hp E) as (_ & C). apply (same_keys _ _ _ (m_sites _ _ C)).
  - apply getVisits_inv in E. destruct E as (s & Es & [(_ & _ & ->)|(_ & cl & cl' & v' & Ec & E & _ & ->)]); reflexivity.
Qed.
Lemma feats_sites g ws : inv g ws -> (g_feats g = [] <-> g_sites g = []).
Proof.
  intros V. pose proof (h_feat _ _ _ (v_shape _ _ V)) as F. split; intros E.
  - destruct (g_sites g) as [|[k s] l] eqn:Es; [reflexivity|]. specialize (F k). rewrite E in F. cbn [ulookup] in F. rewrite Z.eqb_refl in F. discriminate.
  - destruct (g_feats g) as [|[k s] l] eqn:Es; [reflexivity|]. specialize (F k). rewrite E in F. cbn [ulookup] in F. rewrite Z.eqb_refl in F. discriminate.
Qed.
Lemma no_sites tr g ws : reach_by clk tr g ws -> existsb is_init tr = false -> g_sites g = [].
Proof.
  intros (m & h & count & tick & ND & Hc & S).
  assert (V0 : inv (world_new m h count tick) []).
  { apply (reach_inv clk). exists [], m, h, count, tick. split; [exact ND|]. split; [exact Hc|constructor]. }
  induction S as [|tr g1 ws1 c g2 ws2 S IH St]; [reflexivity|].
  rewrite existsb_app. cbn [existsb]. rewrite orb_false_r, orb_false_iff. intros [A B]. specialize (IH A).
  pose proof (step_sites _ _ _ _ _ (steps_inv clk _ _ _ _ _ V0 S) St B) as K. rewrite IH in K. cbn in K.
  destruct (g_sites g2); [reflexivity|discriminate].
Qed.

(** ** Errors *)
Lemma init_refused rates g : g_res g = None -> sys_initializeSystem clk rates g = Thr RuntimeError g.
Proof. intros E. unfold sys_initializeSystem, bind, gets. rewrite E. reflexivity. Qed.
Lemma walkers_refused l g ws : inv g ws -> g_sites g = [] -> sys_initializeWalkers l g = Thr RuntimeError g.
Proof.
  intros V E. apply (feats_sites g ws V) in E. unfold sys_initializeWalkers, bind, gets. rewrite E. reflexivity.
Qed.
Lemma seed_refused s g ws k : inv g ws -> knows g k -> sys_setRandomSeed s g = Thr RuntimeError g.
Proof.
  intros V Hk. apply (known_site g ws k V) in Hk. destruct Hk as [x Ex].
  assert (Nf : g_feats g <> []) by (intros X; apply (feats_sites g ws V) in X; rewrite X in Ex; discriminate).
  unfold sys_setRandomSeed, bind, gets. destruct (g_feats g); [congruence|reflexivity].
Qed.
Lemma getSite_unplaced p w g : ulookup p (g_walkers g) = Some w -> w_cur w = unassignedId ->
  in_walker p w_getSite g = Thr RuntimeError g.
Proof.
  intros Ew Ec. unfold in_walker, zoom, at_key. rewrite Ew. unfold w_getSite, bind, gets. rewrite Ec. cbn.
  rewrite (ureplace_id _ _ _ Ew), eta_walkers. reflexivity.
Qed.
Lemma getSite_placed p w g : ulookup p (g_walkers g) = Some w -> w_cur w <> unassignedId ->
  in_walker p w_getSite g = Ret (w_cur w) g.
Proof.
  intros Ew Ec. unfold in_walker, zoom, at_key. rewrite Ew. unfold w_getSite, bind, gets.
  apply Z.eqb_neq in Ec. rewrite Ec. cbn. rewrite (ureplace_id _ _ _ Ew), eta_walkers. reflexivity.
Qed.
Lemma enter_refused id p g ws w l : inv g ws -> ulookup p (g_walkers g) = Some w ->
  (w_cur w = unassignedId \/ ~ knows g (w_cur w)) -> sys_initializeWalkers ((id, p) :: l) g = Thr RuntimeError g.
Proof.
  intros V Ew Hw. unfold sys_initializeWalkers, bind at 1, gets. destruct (g_feats g) eqn:Ef; [reflexivity|]. clear Ef.
  cbn [mfor fst snd]. assert (X : init_walker id p g = Thr RuntimeError g); [|unfold bind; rewrite X; reflexivity].
  unfold init_walker, bind at 1. destruct (Z.eq_dec (w_cur w) unassignedId) as [Eu|Nu].
  - rewrite (getSite_unplaced p w g Ew Eu). reflexivity.
  - rewrite (getSite_placed p w g Ew Nu). unfold bind, gets. destruct Hw as [?|Hk]; [contradiction|].
    assert (Nf : umem (w_cur w) (g_feats g) = false).
    { apply umem_false_lookup. rewrite (h_feat _ _ _ (v_shape _ _ V)). destruct (ulookup (w_cur w) (g_sites g)) eqn:Es; [|reflexivity].
      exfalso. apply Hk, (known_site g ws _ V). eauto. }
    rewrite Nf. reflexivity.
Qed.
(** placing walkers neither moves walkers nor makes sites *)
Definition put (g g' : world) : Prop :=
  g_feats g' = g_feats g /\ forall q, option_map w_cur (ulookup q (g_walkers g')) = option_map w_cur (ulookup q (g_walkers g)).
Lemma put_trans a b c : put a b -> put b c -> put a c.
Proof. intros [A1 A2] [B1 B2]. split; [congruence|]. intros q. rewrite B2. apply A2. Qed.
Lemma put_feature {A} k (ms : M site A) (mc : M cluster A) g a g' : on_feature k ms mc g = Ret a g' -> put g g'.
Proof.
  intros E. apply on_feature_ret in E. destruct E as [(j & s & s' & _ & _ & _ & ->)|(c & cl & cl' & _ & _ & _ & ->)]; split; reflexivity.
Qed.
Lemma put_walker p f g a g' : (forall w, w_cur (f w) = w_cur w) -> in_walker p (modify f) g = Ret a g' -> put g g'.
Proof.
  intros Hf E. apply walker_set in E. destruct E as (w & Ew & Eg & _ & L). split; [subst; reflexivity|].
  intros q. rewrite L. destruct (Z.eqb_spec q p) as [->|]; [|reflexivity]. rewrite Ew. cbn. rewrite Hf. reflexivity.
Qed.
Lemma init_walker_put id p g g' : init_walker id p g = Ret tt g' ->
  put g g' /\ exists w, ulookup p (g_walkers g) = Some w /\ w_cur w <> unassignedId /\ umem (w_cur w) (g_feats g) = true.
Proof.
  unfold init_walker. intros E.
  apply bind_ret_inv in E. destruct E as (k & g1 & E1 & E). apply getSite_ret in E1. destruct E1 as (-> & Nk & w & Ew & Ec).
  apply bind_ret_inv in E. destruct E as (f & g1 & E1 & E). inversion E1; subst f g1; clear E1.
  destruct (umem k (g_feats g)) eqn:Ek; [|discriminate].
  split; [|exists w; subst k; auto].
  apply bind_ret_inv in E. destruct E as (u & g1 & E1 & E). apply put_feature in E1.
  apply bind_ret_inv in E. destruct E as (t & g2 & E2 & E). apply put_feature in E2.
  apply bind_ret_inv in E. destruct E as (n & g3 & E3 & E). apply put_feature in E3.
  apply bind_ret_inv in E. destruct E as (u4 & g4 & E4 & E). apply put_walker in E4; [|reflexivity].
  apply put_walker in E; [|reflexivity].
  eauto using put_trans.
Qed.
Lemma placed_all l : forall g g', mfor l (fun w => init_walker (fst w) (snd w)) g = Ret tt g' ->
  forall id p, In (id, p) l -> exists w, ulookup p (g_walkers g) = Some w /\ w_cur w <> unassignedId /\ umem (w_cur w) (g_feats g) = true.
Proof.
  induction l as [|[id0 p0] l IH]; intros g g' E id p Hin; [destruct Hin|]. cbn [mfor fst snd] in E.
  apply bind_ret_inv in E. destruct E as ([] & g1 & E1 & E). apply init_walker_put in E1. destruct E1 as ([P1 P2] & w & Ew & Nw & Hw).
  destruct Hin as [Eq|Hin]; [inversion Eq; subst; eauto|].
  destruct (IH _ _ E id p Hin) as (w' & Ew' & Nw' & Hw'). rewrite P1 in Hw'. specialize (P2 p). rewrite Ew' in P2. cbn in P2.
  destruct (ulookup p (g_walkers g)) as [w0|]; [|discriminate]. cbn in P2. inversion P2 as [X]. exists w0. rewrite <- X. auto.
Qed.
Lemma entered_known l g ws g' : inv g ws -> sys_initializeWalkers l g = Ret tt g' ->
  forall id p, In (id, p) l -> exists k, walker_on g p k /\ k <> unassignedId /\ knows g k.
Proof.
  intros V E id p Hin. unfold sys_initializeWalkers in E. apply bind_ret_inv in E. destruct E as (f & g1 & E1 & E). inversion E1; subst f g1; clear E1.
  destruct (g_feats g) eqn:Ef; [discriminate|]. destruct (placed_all _ _ _ E id p Hin) as (w & Ew & Nw & Hw).
  exists (w_cur w). split; [exists w; auto|]. split; [exact Nw|]. apply umem_lookup in Hw. destruct Hw as [x Hx].
  rewrite (h_feat _ _ _ (v_shape _ _ V)) in Hx. destruct (ulookup (w_cur w) (g_sites g)) as [s|] eqn:Es; [|discriminate].
  apply (known_site g ws _ V). eauto.
Qed.
End Init.

(** ** Probabilities, in exact arithmetic *)
Section Reads.
Context {I : Impl} {G : @Rng XR} {U : @Ugly XR}.
Variable clk : Z -> Z.
Lemma reads_rng h rates (s : @site XR G) e : reads h rates s -> reads h rates (s_with_rng e s).
Proof. intros X. exact X. Qed.
Lemma keyed_reads (h : @heap XR) r k (s : @site XR G) : good_rates h r -> keyed h r k s -> reads h r s.
Proof.
  intros Hg (_ & _ & t & e & s0 & E & ->). apply reads_rng.
  destruct (setRates_reads h r (s_with_id (Some k) (site_new t)) eq_refl Hg) as (s1 & E1 & R1).
  rewrite E in E1. inversion E1; subst. exact R1.
Qed.
Lemma keyed_table (h : @heap XR) r k (s : @site XR G) : good_rates h r -> keyed h r k s -> is_table h r (s_prob s).
Proof.
  intros Hg (_ & _ & t & e & s0 & E & ->).
  destruct (setRates_fresh h r (s_with_id (Some k) (site_new t)) eq_refl Hg) as (nb & l & E1 & _ & Pl & Sl).
  rewrite E in E1. inversion E1; subst. split; [exact Pl|exact Sl].
Qed.
Lemma init_reads rates (g : @world XR G) ws g' : inv g ws -> NoDup (ukeys rates) -> sys_initializeSystem clk rates g = Ret tt g' ->
  forall k r, In (k, r) rates -> good_rates (g_heap g) r ->
    exists s, ulookup k (g_sites g') = Some s /\ reads (g_heap g') r s.
Proof.
  intros V ND E k r Hin Hg. destruct (init_all clk _ _ _ _ V ND E) as (Zs & A & _).
  destruct (A k r Hin) as (_ & s & Es & K). exists s. split; [exact Es|]. rewrite (z_heap _ _ Zs). eapply keyed_reads; eauto.
Qed.

(** ** Initialisation succeeds *)
Lemma init_site_ok k r (g : @world XR G) : good_rates (g_heap g) r -> ulookup k (g_sites g) = None ->
  exists g', init_site clk k r g = Ret tt g'.
Proof.
  intros Hg Nk.
  destruct (setRates_reads (g_heap g) r (s_with_id (Some k) (site_new (clk (g_tick g)))) eq_refl Hg) as (s1 & E1 & _).
  assert (Ei : s_id s1 = Some k) by (destruct (sfixes_setRates _ _ _ _ _ E1) as (A1 & _); exact A1).
  unfold init_site. unfold bind at 1. unfold read_clock, next_tick, bind at 1, ret.
  unfold bind at 1, gets. cbn [g_heap g_with_tick].
  assert (E2 : (s_setId k ;; s_setRates (g_heap g) r) (site_new (clk (g_tick g))) = Ret tt s1) by exact E1.
  unfold bind at 1. unfold local at 1. rewrite E2.
  unfold bind at 1. unfold use_seed. cbn [g_seed g_with_tick fst snd].
  assert (Add : forall s (x : @world XR G), s_id s = Some k -> g_sites x = g_sites g -> exists x',
            (in_sites (sc_addSite s) ;; modify (fun g => g_with_feats (uset (g_feats g) k (PSite k)) g)) x = Ret tt x').
  { intros s x Es Ex. unfold bind at 1, in_sites, zoom, sc_addSite, bind, lift, s_getId, gets, modify. rewrite Es, Ex.
    assert (Um : umem k (g_sites g) = false) by (apply umem_false_lookup; exact Nk). rewrite Um. eexists. reflexivity. }
  destruct (g_seed g) as [sd|]; cbn [fst snd]; unfold bind at 1; unfold local at 1; cbn [s_setRandomSeed modify fst snd].
  - apply Add; [exact Ei|reflexivity].
  - cbn [ret]. apply Add; [exact Ei|reflexivity].
Qed.
Lemma init_drain_ok k (g : @world XR G) : ulookup k (g_sites g) = None -> exists g', init_drain clk k g = Ret tt g'.
Proof.
  intros Nk. unfold init_drain, read_clock, next_tick, bind, ret, local, s_setId, modify, in_sites, zoom, sc_addSite, lift, s_getId, gets.
  cbn [fst snd s_id s_with_id bind lift g_sites g_with_tick]. unfold bind, lift, gets, modify. cbn [fst snd s_id s_with_id g_sites g_with_tick].
  assert (Um : umem k (g_sites g) = false) by (apply umem_false_lookup; exact Nk). rewrite Um. eexists. reflexivity.
Qed.
Lemma init_keys_ok l : forall (g : @world XR G), NoDup (ukeys l) -> NoDup (ukeys (g_sites g)) ->
  (forall k r, In (k, r) l -> good_rates (g_heap g) r /\ ulookup k (g_sites g) = None) ->
  exists g', mfor l (fun e => init_site clk (fst e) (snd e)) g = Ret tt g'.
Proof.
  induction l as [|[k r] l IH]; intros g ND NDs Hl; cbn [mfor]; [eexists; reflexivity|].
  destruct (Hl k r (or_introl eq_refl)) as [Hg Nk]. destruct (init_site_ok k r g Hg Nk) as [g1 E1].
  unfold bind. cbn [fst snd]. rewrite E1. apply init_site_inv in E1. destruct E1 as (s & sd & _ & _ & _ & _ & ->).
  cbn [ukeys map fst] in ND. inversion ND as [|? ? N0 ND']; subst.
  apply IH; [exact ND'|cbn [g_sites g_with_feats g_with_sites]; apply uset_NoDup, NDs|].
  intros k' r' Hin. destruct (Hl k' r' (or_intror Hin)) as [Hg' Nk']. split; [exact Hg'|].
  cbn [g_sites g_with_feats g_with_sites]. rewrite uset_lookup_other; [exact Nk'|exact NDs|].
  intros ->. apply N0. apply (in_map fst) in Hin. exact Hin.
Qed.
Lemma init_drains_ok l : forall (g : @world XR G), NoDup l -> NoDup (ukeys (g_sites g)) ->
  (forall k, In k l -> ulookup k (g_sites g) = None) -> exists g', mfor l (init_drain clk) g = Ret tt g'.
Proof.
  induction l as [|k l IH]; intros g ND NDs Hl; cbn [mfor]; [eexists; reflexivity|].
  destruct (init_drain_ok k g (Hl k (or_introl eq_refl))) as [g1 E1].
  unfold bind. rewrite E1. apply init_drain_inv in E1. destruct E1 as (t & _ & ->).
  inversion ND as [|? ? N0 ND']; subst. apply IH; [exact ND'|cbn [g_sites g_with_feats g_with_sites]; apply uset_NoDup, NDs|].
  intros k' Hin. cbn [g_sites g_with_feats g_with_sites]. rewrite uset_lookup_other; [apply Hl; right; exact Hin|exact NDs|].
  intros ->. contradiction.
Qed.
Lemma init_ok rates (g : @world XR G) ws : inv g ws -> g_res g <> None -> NoDup (ukeys rates) ->
  (forall k r, In (k, r) rates -> good_rates (g_heap g) r) -> (forall k, mentioned rates k -> ~ knows g k) ->
  exists g', sys_initializeSystem clk rates g = Ret tt g'.
Proof.
  intros V Hr ND Hg Nk. unfold sys_initializeSystem, bind at 1, gets. destruct (g_res g); [|congruence].
  assert (L : forall k, mentioned rates k -> ulookup k (g_sites g) = None).
  { intros k Hk. destruct (ulookup k (g_sites g)) eqn:Es; [|reflexivity]. exfalso. apply (Nk k Hk), (known_site g ws k V). eauto. }
  pose proof (h_nds _ _ _ (v_shape _ _ V)) as NDs.
  destruct (init_keys_ok rates g ND NDs) as [g1 E1].
  { intros k r Hin. split; [eapply Hg; eauto|]. apply L. left. apply (in_map fst) in Hin. exact Hin. }
  unfold bind. rewrite E1. destruct (init_keys clk _ _ _ ND NDs E1) as (_ & ND1 & _ & B).
  destruct (drains_in clk rates) as [NDd Hd]. apply init_drains_ok; [exact NDd|exact ND1|].
  intros k Hk. apply Hd in Hk. rewrite B by tauto. apply L. right. tauto.
Qed.
End Reads.
