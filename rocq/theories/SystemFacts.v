(** * What the invariant says about observations *)
From Coq Require Import ZArith List Bool Lia Permutation.
From Verif Require Import Base BaseProofs Num WalkerModel SiteModel SiteProofs ClusterModel ClusterFrame
  ContainerModel ContainerSpec ContainerProofs BasinModel SystemModel SystemSpec SystemShape SystemHop SystemCoarse SystemMerge SystemProofs.
Import ListNotations.
Open Scope Z_scope.

Section Facts.
Context {I : Impl} {N : Num} {G : Rng} {U : Ugly}.
Variable clk : Z -> Z.

(** ** Clusters *)
Lemma getClusters_eq (g : world) : sys_getClusters g = Ret (per_cluster c_siteIds (g_clusters g)) g.
Proof. unfold sys_getClusters, in_clusters, zoom, cc_getSiteIds, gets. rewrite eta_clusters. reflexivity. Qed.
Lemma fold_uset_lookup {V W} (f : V -> W) c (l : umap V) : forall acc, NoDup (ukeys acc) -> NoDup (ukeys l) ->
  ulookup c (fold_left (fun acc e => uset acc (fst e) (f (snd e))) l acc) =
  match ulookup c l with Some v => Some (f v) | None => ulookup c acc end.
Proof.
  induction l as [|[x v] l IH]; intros acc Ha Hl; [reflexivity|]. cbn [fold_left fst snd ukeys map ulookup] in *.
  inversion Hl as [|? ? Nx Hl']; subst. rewrite IH; [|apply uset_NoDup, Ha|exact Hl'].
  rewrite uset_lookup by exact Ha. destruct (Z.eqb_spec c x) as [->|]; [|reflexivity].
  destruct (ulookup x l) eqn:E; [|reflexivity]. exfalso. apply Nx. eapply ulookup_In_key; eauto.
Qed.
Lemma clusters_lookup g c : NoDup (ukeys (g_clusters g)) ->
  ulookup c (match sys_getClusters g with Ret m _ => m | _ => [] end) = option_map c_siteIds (ulookup c (g_clusters g)).
Proof.
  intros H1. rewrite getClusters_eq. unfold per_cluster. rewrite fold_uset_lookup; [|constructor|exact H1].
  destruct (ulookup c (g_clusters g)); reflexivity.
Qed.
Definition holds g c k := exists m, member g c k m.
Definition known g c := In c (ukeys (g_clusters g)).
Lemma listed_holds g c k : NoDup (ukeys (g_clusters g)) -> (listed g c k <-> holds g c k).
Proof.
  intros H1. unfold listed. rewrite clusters_lookup by exact H1. unfold holds, member. split.
  - intros (l & E & Hk). destruct (ulookup c (g_clusters g)) as [cl|]; [|discriminate]. inversion E; subst l.
    unfold c_siteIds in Hk. apply ukeys_In in Hk. destruct Hk as [m Hk]. exists m, cl. auto.
  - intros (m & cl & -> & Em). exists (c_siteIds cl). split; [reflexivity|]. eapply ulookup_In_key; eauto.
Qed.
Lemma is_cluster_known g c : NoDup (ukeys (g_clusters g)) -> (is_cluster g c <-> known g c).
Proof.
  intros H1. unfold is_cluster. rewrite clusters_lookup by exact H1. unfold known. split.
  - intros (l & E). destruct (ulookup c (g_clusters g)) as [cl|] eqn:Ec; [|discriminate]. eapply ulookup_In_key; eauto.
  - intros E. apply ukeys_In in E. destruct E as [cl ->]. eexists; reflexivity.
Qed.
Lemma holds_known g c k : holds g c k -> known g c.
Proof. intros (m & cl & E & _). eapply ulookup_In_key; eauto. Qed.

(** ** What one action does to clusters *)
Record carried (g g' : world) : Prop := {
  y_count : g_count g <= g_count g';
  y_fresh : forall c, known g' c -> known g c \/ g_count g <= c;
  y_together : forall c, exists c', forall k, holds g c k -> holds g' c' k;
  y_smaller : forall c c' k, holds g c k -> holds g' c' k -> c' = c \/ (c' < c /\ known g c');
  y_keep : forall c k, known g' c -> holds g c k -> holds g' c k;
  y_label : forall k c, cluster_of g k c -> c <> unassignedId -> exists c', cluster_of g' k c' /\ c' <> unassignedId }.

Lemma carried_calm g g' ws : inv g ws -> calm g g' -> carried g g'.
Proof.
  intros V C. constructor.
  - rewrite (k_count _ _ (m_kept _ _ C)). lia.
  - intros c. unfold known; rewrite (same_keys _ _ _ (m_clusters _ _ C)). auto.
  - intros c. exists c. intros k. intros [m Hm]. destruct (calm_member _ _ _ _ _ C Hm) as (m' & Hm' & _). exists m'. exact Hm'.
  - intros c c' k. intros [m Hm] [m' Hm']. left.
    destruct (calm_member _ _ _ _ _ (calm_sym _ _ C) Hm') as (m0 & Hm0 & _).
    apply (h_disj _ _ _ (v_shape _ _ V) _ _ _ _ _ Hm0 Hm).
  - intros c k _ [m Hm]. destruct (calm_member _ _ _ _ _ C Hm) as (m' & Hm' & _). exists m'. exact Hm'.
  - intros k c Hc Nc. exists c. split; [|exact Nc]. apply (cluster_of_drift g); [apply calm_drift, C|exact Hc].
Qed.
Lemma carried_drift g g' ws : inv g ws -> drift g g' -> carried g g'.
Proof.
  intros V C. constructor.
  - rewrite (k_count _ _ (m_kept _ _ C)). cbn. lia.
  - intros c. unfold known; rewrite (same_keys _ _ _ (m_clusters _ _ C)). auto.
  - intros c. exists c. intros k. intros [m Hm]. destruct (calm_member _ _ _ _ _ C Hm) as (m' & Hm' & _). exists m'. exact Hm'.
  - intros c c' k. intros [m Hm] [m' Hm']. left.
    destruct (calm_member _ _ _ _ _ (calm_sym _ _ C) Hm') as (m0 & Hm0 & _).
    apply (h_disj _ _ _ (v_shape _ _ V) _ _ _ _ _ Hm0 Hm).
  - intros c k _ [m Hm]. destruct (calm_member _ _ _ _ _ C Hm) as (m' & Hm' & _). exists m'. exact Hm'.
  - intros k c Hc Nc. exists c. split; [|exact Nc]. apply (cluster_of_drift g); assumption.
Qed.
Lemma carried_same g g' ws : inv g ws -> g_clusters g' = g_clusters g -> g_count g <= g_count g' ->
  (forall k c, cluster_of g k c -> cluster_of g' k c) -> carried g g'.
Proof.
  intros V E Hc L. assert (M : forall c k, holds g' c k <-> holds g c k).
  { intros c k. unfold holds, member. rewrite E. tauto. }
  constructor; [exact Hc| | | | |].
  - intros c. unfold known. rewrite E. auto.
  - intros c. exists c. intros k. apply M.
  - intros c c' k H1 H2. apply M in H2. left. destruct H1 as [m H1], H2 as [m' H2].
    apply (h_disj _ _ _ (v_shape _ _ V) _ _ _ _ _ H2 H1).
  - intros c k _. apply M.
  - intros k c H1 H2. eauto.
Qed.
Lemma carried_grain g g' i t : grain (g_with_iter i (g_with_thr t g)) g' -> carried g g'.
Proof.
  intros []. constructor.
  - exact r_count.
  - intros c. unfold known. apply r_fresh.
  - intros c. destruct (r_together c) as [c' X]. exists c'. intros k. intros [m Hm]. apply (X k m Hm).
  - intros c c' k. intros [m Hm] [m' Hm']. apply (r_smaller _ _ _ _ _ Hm Hm').
  - intros c k Hc [m Hm]. apply (r_keep _ _ _ Hc Hm).
  - intros k c. rewrite cluster_of_iff. intros (s & Es & Ec) Nc.
    assert (K : In k (ukeys (g_sites g'))) by (rewrite r_keys; eapply ulookup_In_key; eauto).
    apply ukeys_In in K. destruct K as [s' Es']. exists (s_cluster s'). split; [apply cluster_of_iff; eauto|].
    apply (r_stay k s s' Es); [congruence|exact Es'].
Qed.
Lemma carried_trans a b c : carried a b -> carried b c -> (forall x, known a x -> x < g_count a) -> carried a c.
Proof.
  intros [] [] B. constructor.
  - lia.
  - intros x Hx. destruct (y_fresh1 x Hx) as [X|X]; [auto|right; lia].
  - intros x. destruct (y_together0 x) as [y Hy]. destruct (y_together1 y) as [z Hz]. exists z. auto.
  - intros x z k Hx Hz. destruct (y_together0 x) as [y Hy]. pose proof (Hy k Hx) as Hm.
    assert (Bx : x < g_count a) by (apply B; eapply holds_known; eauto).
    destruct (y_smaller0 _ _ _ Hx Hm) as [->|[L1 I1]], (y_smaller1 _ _ _ Hm Hz) as [->|[L2 I2]]; auto.
    + right. split; [exact L2|]. destruct (y_fresh0 z I2) as [|X]; [assumption|lia].
    + right. split; [lia|]. destruct (y_fresh0 z I2) as [|X]; [assumption|lia].
  - intros x k Hx Hm. destruct (y_fresh1 x Hx) as [Hy|Hy]; [auto|]. pose proof (B x (holds_known _ _ _ Hm)). lia.
  - intros k x Hx Nx. destruct (y_label0 k x Hx Nx) as (y & Hy & Ny). apply (y_label1 k y Hy Ny).
Qed.

Lemma small_ids g ws c : inv g ws -> known g c -> 0 <= c < g_count g.
Proof.
  intros V Hc. apply ukeys_In in Hc. destruct Hc as [cl Ec]. apply (h_cl _ _ _ (v_shape _ _ V) _ _ Ec).
Qed.

Lemma init_carried rates g g' ws : inv g ws -> sys_initializeSystem clk rates g = Ret tt g' ->
  g_clusters g' = g_clusters g /\ g_count g' = g_count g /\ (forall k c, cluster_of g k c -> cluster_of g' k c).
Proof.
  intros V E. unfold sys_initializeSystem in E.
  apply bind_ret_inv in E. destruct E as (r & g1 & E1 & E). inversion E1; subst r g1; clear E1.
  destruct (g_res g); [|discriminate]. apply bind_ret_inv in E. destruct E as ([] & g1 & E1 & E).
  set (Q := fun a b : world => g_clusters b = g_clusters a /\ g_count b = g_count a /\ (forall k c, cluster_of a k c -> cluster_of b k c)).
  assert (Qs : forall (a b : world) k s f, umem k (g_sites a) = false -> NoDup (ukeys (g_sites a)) -> forall sd t,
             b = g_with_feats f (g_with_sites (uset (g_sites a) k s) (g_with_seed sd (g_with_tick t a))) -> Q a b).
  { intros a b k s f Nk ND sd t ->. split; [reflexivity|]. split; [reflexivity|]. intros j c. rewrite !cluster_of_iff.
    cbn [g_sites g_with_feats g_with_sites]. intros (s0 & Es & Ec). exists s0. split; [|exact Ec].
    rewrite uset_lookup by exact ND. destruct (Z.eqb_spec j k) as [->|]; [|exact Es]. apply umem_false_lookup in Nk. congruence. }
  assert (Qm : forall (A : Type) (l : list A) body, (forall x a b, inv a ws -> body x a = Ret tt b -> inv b ws /\ Q a b) ->
            forall a b, inv a ws -> mfor l body a = Ret tt b -> inv b ws /\ Q a b).
  { intros A l body Hb. induction l as [|x l IH]; cbn [mfor]; intros a b Va Eb.
    - inversion Eb; subst. split; [exact Va|]. split; [reflexivity|]. split; [reflexivity|auto].
    - apply bind_ret_inv in Eb. destruct Eb as ([] & a1 & Ea & Eb). destruct (Hb _ _ _ Va Ea) as (V1 & A1 & A2 & A3).
      destruct (IH _ _ V1 Eb) as (V2 & B1 & B2 & B3). split; [exact V2|]. split; [congruence|]. split; [congruence|auto]. }
  assert (S1 : inv g1 ws /\ Q g g1).
  { eapply Qm; [|exact V|exact E1]. intros [k r] a b Va Ea. split; [eapply inv_init_site; eauto|].
    apply init_site_inv in Ea. destruct Ea as (s & sd & Nk & _ & _ & _ & Eb). eapply Qs; [exact Nk|apply (h_nds _ _ _ (v_shape _ _ Va))|exact Eb]. }
  destruct S1 as (V1 & A1 & A2 & A3).
  assert (S2 : inv g' ws /\ Q g1 g').
  { eapply Qm; [|exact V1|exact E]. intros k a b Va Ea. split; [eapply inv_init_drain; eauto|].
    apply init_drain_inv in Ea. destruct Ea as (t & Nk & Eb). eapply (Qs _ _ _ _ _ Nk (h_nds _ _ _ (v_shape _ _ Va)) (g_seed a)).
    rewrite Eb. unfold g_with_seed, g_with_tick. cbn. reflexivity. }
  destruct S2 as (V2 & B1 & B2 & B3). split; [congruence|]. split; [congruence|auto].
Qed.
Theorem step_carried g ws c g' ws' : inv g ws -> step clk g ws c g' ws' -> carried g g'.
Proof.
  intros V S. destruct S as [p g' E|t g' E|t g' E|s g' E|rates g' _ _ E|h|m Hm L|n t Hn|l g' H1 H2 H3 H4 H5 E|fuel id p g' Hp E|id p g' Hp E|k v g' E].
  - inversion E; subst. eapply carried_same; [exact V|reflexivity|cbn; lia|]. intros k c; rewrite !cluster_of_iff; auto.
  - unfold sys_setTimeResolution in E. destruct (nleb t n0); [discriminate|]. inversion E; subst.
    eapply carried_same; [exact V|reflexivity|cbn; lia|]. intros k c; rewrite !cluster_of_iff; auto.
  - inversion E; subst. eapply carried_same; [exact V|reflexivity|cbn; lia|]. intros k c; rewrite !cluster_of_iff; auto.
  - unfold sys_setRandomSeed in E. apply bind_ret_inv in E. destruct E as (f & g1 & E1 & E). inversion E1; subst f g1; clear E1.
    destruct (g_feats g); [|discriminate]. inversion E; subst. eapply carried_same; [exact V|reflexivity|cbn; lia|]. intros k c; rewrite !cluster_of_iff; auto.
  - destruct (init_carried _ _ _ _ V E) as (A & B & D). eapply carried_same; [exact V|exact A|lia|exact D].
  - eapply carried_same; [exact V|reflexivity|cbn; lia|]. intros k c; rewrite !cluster_of_iff; auto.
  - eapply carried_same; [exact V|reflexivity|cbn; lia|]. intros k c; rewrite !cluster_of_iff; auto.
  - eapply carried_same; [exact V|reflexivity|exact Hn|]. intros k c; rewrite !cluster_of_iff; auto.
  - unfold sys_initializeWalkers in E. apply bind_ret_inv in E. destruct E as (f & g1 & E1 & E). inversion E1; subst f g1; clear E1.
    destruct (g_feats g); [discriminate|]. eapply carried_drift; [exact V|]. apply (enter_all clk l g g' ws V H1 H2 H3 H4 H5 E).
  - apply hop_inv in E. destruct E as (w & g1 & Ew & _ & _ & E1 & E2).
    destruct (move_step _ _ _ _ _ _ _ _ V Hp (ex_intro _ w (conj Ew eq_refl)) E1) as (V1 & D1 & _).
    destruct (attempt_step _ _ _ _ _ _ V1 E2) as (_ & G2).
    eapply carried_trans; [eapply carried_drift; eauto|eapply carried_grain; eauto|].
    intros x Hx. apply (small_ids _ _ _ V Hx).
  - destruct (leave_step _ _ _ _ _ _ V Hp E) as (_ & C). eapply carried_calm; eauto.
  - apply getVisits_inv in E.
    destruct E as (s & Es & [(_ & _ & ->)|(_ & cl & cl' & v' & Ec & E & _ & ->)]); [eapply carried_same; [exact V|reflexivity|lia|auto]|].
    pose proof (keeps_getVisits _ _ _ _ E) as K.
    assert (Mb : forall c j m, member (g_with_clusters (ureplace (s_cluster s) cl' (g_clusters g)) g) c j m <-> member g c j m).
    { intros c j m. rewrite (member_replace g _ cl cl') by exact Ec. unfold member. split.
      - intros [[-> X]|[_ X]]; [|exact X]. rewrite (sc_sites _ _ K) in X. eauto.
      - intros (x & Ex & Em). destruct (Z.eq_dec c (s_cluster s)) as [->|Ne]; [left|right; split; [exact Ne|eauto]].
        assert (x = cl) by congruence. subst x. rewrite (sc_sites _ _ K). auto. }
    constructor; cbn [g_count g_with_clusters].
    + lia.
    + intros c. unfold known. cbn [g_clusters g_with_clusters]. rewrite ureplace_keys. auto.
    + intros c. exists c. intros j. intros [m Hm]. exists m. apply Mb, Hm.
    + intros c c' j. intros [m Hm] [m' Hm']. apply Mb in Hm'. left. apply (h_disj _ _ _ (v_shape _ _ V) _ _ _ _ _ Hm' Hm).
    + intros c j _ [m Hm]. exists m. apply Mb, Hm.
    + intros j c Hj Nj. exists c. split; [|exact Nj]. rewrite cluster_of_iff in *. exact Hj.
Qed.
Theorem steps_carried g ws tr g' ws' : inv g ws -> steps clk g ws tr g' ws' -> carried g g'.
Proof.
  intros V S. induction S as [|tr g1 ws1 c g2 ws2 S IH St].
  - eapply carried_same; [exact V|reflexivity|lia|auto].
  - eapply carried_trans; [exact IH|eapply step_carried; [eapply steps_inv; eauto|exact St]|].
    intros x Hx. apply (small_ids _ _ _ V Hx).
Qed.

(** ** Hops *)
Lemma grain_walkers g g' i t : grain (g_with_iter i (g_with_thr t g)) g' -> g_walkers g' = g_walkers g.
Proof. intros Gr. apply (r_walkers _ _ Gr). Qed.

Lemma hop_facts fuel id p src dst g g' ws : inv g ws -> In p ws -> walker_on g p src -> walker_to g p dst ->
  sys_hop clk fuel id p g = Ret tt g' ->
  let fin := if here g ws dst then src else dst in
  walker_on g' p fin /\ (forall q, q <> p -> ulookup q (g_walkers g') = ulookup q (g_walkers g)) /\
  (forall k s', ulookup k (g_sites g') = Some s' -> s_cluster s' = unassignedId ->
     exists s, ulookup k (g_sites g) = Some s /\ s_cluster s = unassignedId /\ s_visits s' = s_visits s + Z.b2z (k =? fin)).
Proof.
  intros V Hp (w1 & Ew1 & E1) (w2 & Ew2 & E2) E. apply hop_inv in E. destruct E as (w & g1 & Ew & _ & _ & Em & Ea).
  assert (w1 = w) by congruence. assert (w2 = w) by congruence. subst w1 w2. rewrite E1, E2 in Em.
  destruct (move_step _ _ _ _ _ _ _ _ V Hp (ex_intro _ w (conj Ew E1)) Em) as (V1 & D1 & _ & (n & t & W) & _ & Vi).
  destruct (attempt_step _ _ _ _ _ _ V1 Ea) as (_ & Gr). pose proof (grain_walkers _ _ _ _ Gr) as Wg.
  split; [|split].
  - exists (mkWalker (if here g ws dst then src else dst) n t). rewrite Wg, W, Z.eqb_refl. auto.
  - intros q Nq. rewrite Wg, W. apply Z.eqb_neq in Nq. rewrite Nq. reflexivity.
  - intros k s' Es' Hu. destruct (r_sites _ _ Gr k s' Es') as (s1 & Es1 & Ew1').
    cbn [g_sites g_with_iter g_with_thr] in Es1.
    assert (U1 : s_cluster s1 = unassignedId).
    { destruct (Z.eq_dec (s_cluster s1) unassignedId) as [|Ne]; [assumption|]. exfalso. apply (r_stay _ _ Gr k s1 s' Es1 Ne Es' Hu). }
    destruct (calm_site _ _ k s1 (calm_sym _ _ D1) Es1) as (s & Es & F).
    cbn [g_sites g_with_walkers] in Es. destruct (frz_s_eq _ _ F) as (_ & Ec & _).
    exists s. split; [exact Es|]. split; [congruence|].
    specialize (Vi k). unfold visits_of in Vi. rewrite Es1, Es in Vi. cbn [option_map] in Vi. inversion Vi as [Vi'].
    rewrite Ew1'. cbn [s_visits s_with_cluster]. rewrite Vi'.
    set (fin := if here g ws dst then src else dst). destruct (Z.eqb_spec k fin) as [->|]; cbn [andb Z.b2z]; [|lia].
    unfold free_in. assert (U0 : s_cluster s = unassignedId) by congruence. rewrite Es, U0, Z.eqb_refl. cbn [andb Z.b2z]. lia.
Qed.
Lemma free_visits g k s : ulookup k (g_sites g) = Some s -> s_cluster s = unassignedId -> sys_getVisits k g = Ret (s_visits s) g.
Proof.
  intros Es Hu. unfold sys_getVisits, bind, gets. unfold umem. rewrite Es.
  unfold in_sites, zoom, sc_getSite, read_key. rewrite Es. cbn [lift]. rewrite eta_sites.
  unfold sc_partOfCluster, read_key. rewrite Es. cbn [lift]. rewrite eta_sites. unfold s_partOfCluster. rewrite Hu. reflexivity.
Qed.
Lemma hop_visits fuel id p src dst g g' ws k v : inv g ws -> In p ws -> walker_on g p src -> walker_to g p dst ->
  sys_hop clk fuel id p g = Ret tt g' -> cluster_of g' k unassignedId -> visits g k v ->
  visits g' k (v + (if k =? (if here g ws dst then src else dst) then 1 else 0)).
Proof.
  intros V Hp H1 H2 E Hc [gx Hv]. rewrite cluster_of_iff in Hc. destruct Hc as (s' & Es' & Hu).
  destruct (hop_facts _ _ _ _ _ _ _ _ V Hp H1 H2 E) as (_ & _ & F). destruct (F k s' Es' Hu) as (s & Es & Us & Ev).
  rewrite (free_visits g k s Es Us) in Hv. inversion Hv; subst.
  exists g'. rewrite (free_visits g' k s' Es' Hu). rewrite Ev. unfold Z.b2z. reflexivity.
Qed.
Lemma taken_iff g ws k b : inv g ws -> taken g k b -> (b = true <-> exists q, In q ws /\ walker_on g q k).
Proof.
  intros V [gx E]. destruct (occupied_step _ _ _ _ _ (v_shape _ _ V) E (v_occ _ _ V)) as (_ & _ & Eb).
  rewrite <- here_true. rewrite Eb. destruct (here g ws k); cbn; split; congruence.
Qed.
Lemma here_dec g ws k : (exists q, In q ws /\ walker_on g q k) \/ ~ (exists q, In q ws /\ walker_on g q k).
Proof. rewrite <- here_true. destruct (here g ws k); [left; reflexivity|right; discriminate]. Qed.
Lemma hop_blocked fuel id p src dst g g' ws : inv g ws -> In p ws -> walker_on g p src -> walker_to g p dst ->
  sys_hop clk fuel id p g = Ret tt g' ->
  ((exists q, In q ws /\ q <> p /\ walker_on g q dst) -> walker_on g' p src) /\
  (~ (exists q, In q ws /\ q <> p /\ walker_on g q dst) -> walker_on g' p dst).
Proof.
  intros V Hp H1 H2 E. destruct (hop_facts _ _ _ _ _ _ _ _ V Hp H1 H2 E) as (F & _ & _).
  destruct (here g ws dst) eqn:Eh.
  - split; [auto|]. intros Nq. apply here_true in Eh. destruct Eh as (q & Hq & Oq).
    destruct (Z.eq_dec q p) as [->|Ne]; [|exfalso; apply Nq; eauto].
    rewrite <- (walker_on_fun g p src dst H1 Oq). exact F.
  - split; [|auto]. intros (q & Hq & _ & Oq).
    assert (here g ws dst = true) by (apply here_true; eauto). congruence.
Qed.
Lemma place_one g ws id p k g' : reach clk g ws -> ~ In p ws -> walker_on g p k -> (forall q, In q ws -> ~ walker_on g q k) ->
  cluster_of g k unassignedId -> sys_initializeWalkers [(id, p)] g = Ret tt g' ->
  walker_on g' p k /\ taken g' k true /\ reach clk g' (p :: ws).
Proof.
  intros R Np Hw Nq Hc E. pose proof (reach_inv clk _ _ R) as V.
  assert (R' : reach clk g' (p :: ws)).
  { destruct R as (tr & m & h & c & t & H1 & H2 & S). exists (tr ++ [KEnter [(id, p)]]), m, h, c, t. split; [exact H1|]. split; [exact H2|].
    eapply sts_step; [exact S|]. apply (st_enter clk g ws [(id, p)] g'); cbn [map snd]; try exact E.
    - constructor; [intros []|constructor].
    - intros x [<-|[]]. exact Np.
    - intros x y j [<-|[]] [<-|[]] _ _. reflexivity.
    - intros x q j [<-|[]] Hq Hj. rewrite <- (walker_on_fun g p k j Hw Hj). apply Nq, Hq.
    - intros x j [<-|[]] Hj. rewrite <- (walker_on_fun g p k j Hw Hj). exact Hc. }
  unfold sys_initializeWalkers in E. apply bind_ret_inv in E. destruct E as (f & g1 & E1 & E). inversion E1; subst f g1; clear E1.
  destruct (g_feats g); [discriminate|]. cbn [mfor fst snd] in E.
  apply bind_ret_inv in E. destruct E as ([] & g1 & E1 & E). inversion E; subst g1; clear E.
  assert (Nh : here g ws k = false) by (apply here_false; exact Nq).
  destruct (enter_step clk _ _ _ _ _ _ V Np Hw Nh Hc E1) as (V1 & D & _ & Hw').
  split; [exact Hw'|]. split; [|exact R'].
  rewrite cluster_of_iff in Hc. destruct Hc as (s & Es & Hu).
  destruct (calm_site _ _ k s D Es) as (s' & Es' & F). destruct (frz_s_eq _ _ F) as (_ & Ec & _).
  assert (Hu' : s_cluster s' = unassignedId) by congruence.
  assert (Ef : ulookup k (g_feats g') = Some (PSite k)).
  { rewrite (h_feat _ _ _ (v_shape _ _ V1) k), Es', Hu', Z.eqb_refl. reflexivity. }
  exists g'. unfold f_isOccupied, on_feature, bind, gets. rewrite Ef. unfold in_sites, zoom, at_key. rewrite Es'.
  assert (Ho : s_isOccupied s' = true).
  { unfold s_isOccupied. rewrite (proj1 (v_occ _ _ V1) k s' Es' Hu').
    assert (X : here g' (p :: ws) k = true) by (apply here_true; exists p; split; [left; reflexivity|exact Hw']). rewrite X. reflexivity. }
  rewrite Ho, (ureplace_id _ _ _ Es'), eta_sites. reflexivity.
Qed.
Lemma hop_on fuel id p g g' : sys_hop clk fuel id p g = Ret tt g' -> exists src dst, walker_on g p src /\ walker_to g p dst.
Proof. intros E. apply hop_inv in E. destruct E as (w & _ & Ew & _). exists (w_cur w), (w_pot w). split; exists w; auto. Qed.
Lemma hop_others fuel id p g g' ws : inv g ws -> In p ws -> sys_hop clk fuel id p g = Ret tt g' ->
  forall q, q <> p -> ulookup q (g_walkers g') = ulookup q (g_walkers g).
Proof.
  intros V Hp E. destruct (hop_on _ _ _ _ _ E) as (src & dst & H1 & H2). apply (hop_facts _ _ _ _ _ _ _ _ V Hp H1 H2 E).
Qed.
Lemma hop_one_visit fuel id p fin g g' ws : inv g ws -> In p ws -> sys_hop clk fuel id p g = Ret tt g' -> walker_on g' p fin ->
  forall k v, cluster_of g' k unassignedId -> visits g k v -> visits g' k (v + (if k =? fin then 1 else 0)).
Proof.
  intros V Hp E Hf k v Hc Hv. destruct (hop_on _ _ _ _ _ E) as (src & dst & H1 & H2).
  destruct (hop_facts _ _ _ _ _ _ _ _ V Hp H1 H2 E) as (Hf' & _ & _).
  rewrite (walker_on_fun g' p _ _ Hf Hf'). apply (hop_visits _ _ _ _ _ _ _ _ _ _ V Hp H1 H2 E Hc Hv).
Qed.

(** ** Consistency of clusters *)
Lemma inv_ndc g ws : inv g ws -> NoDup (ukeys (g_clusters g)).
Proof. intros V. apply (h_ndc _ _ _ (v_shape _ _ V)). Qed.
Lemma listed_once g ws k c c' : inv g ws -> listed g c k -> listed g c' k -> c = c'.
Proof.
  intros V. rewrite !listed_holds by apply (inv_ndc _ _ V). intros [m Hm] [m' Hm']. apply (h_disj _ _ _ (v_shape _ _ V) _ _ _ _ _ Hm Hm').
Qed.
Lemma listed_two g ws c : inv g ws -> is_cluster g c -> exists i j, i <> j /\ listed g c i /\ listed g c j.
Proof.
  intros V. pose proof (inv_ndc _ _ V) as ND. rewrite is_cluster_known by exact ND. intros Hc. apply ukeys_In in Hc. destruct Hc as [cl Ec].
  destruct (h_cl _ _ _ (v_shape _ _ V) c cl Ec) as (_ & _ & _ & i & j & Nij & Hi & Hj).
  apply ukeys_In in Hi, Hj. destruct Hi as [si Hi], Hj as [sj Hj].
  exists i, j. split; [exact Nij|]. rewrite !listed_holds by exact ND. split; [exists si|exists sj]; exists cl; auto.
Qed.
Lemma label_listed g ws k c : inv g ws ->
  (cluster_of g k c -> is_cluster g c -> listed g c k) /\
  (listed g c k -> exists c', cluster_of g k c' /\ c' <> unassignedId /\ (c' = c \/ ~ is_cluster g c')).
Proof.
  intros V. pose proof (inv_ndc _ _ V) as ND. pose proof (v_shape _ _ V) as Sh.
  assert (A : forall c, cluster_of g k c -> is_cluster g c -> listed g c k).
  { intros x. rewrite cluster_of_iff, is_cluster_known, listed_holds by exact ND. intros (s & Es & <-) Hc.
    apply ukeys_In in Hc. destruct Hc as [cl Ec]. destruct (h_own _ _ _ Sh k s cl Es Ec) as (c' & m & Hm & [->|[_ []]]). exists m. exact Hm. }
  split; [apply A|]. intros Hl. pose proof Hl as Hl0. rewrite listed_holds in Hl by exact ND. destruct Hl as [m Hm].
  destruct (h_mem _ _ _ Sh _ _ _ Hm) as (s & Es & Nu & _). exists (s_cluster s).
  assert (Hc : cluster_of g k (s_cluster s)) by (apply cluster_of_iff; eauto).
  split; [exact Hc|]. split; [exact Nu|]. destruct (in_dec Z.eq_dec (s_cluster s) (ukeys (g_clusters g))) as [Hk|Hk].
  - left. apply (listed_once g ws k); [exact V|apply A; [exact Hc|apply is_cluster_known; assumption]|exact Hl0].
  - right. rewrite is_cluster_known by exact ND. exact Hk.
Qed.
Lemma ids_once g g1 g2 ws ws1 ws2 tr tr1 c : inv g ws -> steps clk g ws tr g1 ws1 -> steps clk g1 ws1 tr1 g2 ws2 ->
  is_cluster g c -> ~ is_cluster g1 c -> ~ is_cluster g2 c.
Proof.
  intros V S1 S2. pose proof (steps_inv clk _ _ _ _ _ V S1) as V1. pose proof (steps_inv clk _ _ _ _ _ V1 S2) as V2.
  rewrite !is_cluster_known by (eapply inv_ndc; eauto). intros Hc N1 H2.
  destruct (y_fresh _ _ (steps_carried _ _ _ _ _ V1 S2) c H2) as [|X]; [contradiction|].
  pose proof (y_count _ _ (steps_carried _ _ _ _ _ V S1)).
  assert (0 <= c < g_count g) by (apply (small_ids _ _ _ V Hc)). lia.
Qed.
Lemma stay_together g g' ws ws' tr c i j : inv g ws -> steps clk g ws tr g' ws' -> listed g c i -> listed g c j ->
  exists c', listed g' c' i /\ listed g' c' j.
Proof.
  intros V S. pose proof (steps_inv clk _ _ _ _ _ V S) as V'. rewrite !listed_holds by apply (inv_ndc _ _ V). intros Hi Hj.
  destruct (y_together _ _ (steps_carried _ _ _ _ _ V S) c) as [c' X]. exists c'. rewrite !listed_holds by apply (inv_ndc _ _ V'). auto.
Qed.
Lemma survivor g g' ws ws' a c e k : inv g ws -> step clk g ws a g' ws' -> listed g c k -> listed g' e k ->
  e <= c /\ is_cluster g e /\ forall j, listed g e j -> listed g' e j.
Proof.
  intros V S. pose proof (step_inv clk _ _ _ _ _ V S) as V'. pose proof (inv_ndc _ _ V) as ND. pose proof (inv_ndc _ _ V') as ND'.
  pose proof (step_carried _ _ _ _ _ V S) as Y. rewrite (listed_holds g), (listed_holds g'), is_cluster_known by assumption. intros H1 H2.
  assert (Ke : known g e).
  { destruct (y_smaller _ _ Y _ _ _ H1 H2) as [->|[_ X]]; [eapply holds_known; eauto|exact X]. }
  split; [destruct (y_smaller _ _ Y _ _ _ H1 H2) as [->|[X _]]; lia|]. split; [exact Ke|].
  intros j. rewrite !listed_holds by assumption. apply (y_keep _ _ Y). eapply holds_known; eauto.
Qed.
Lemma favored_perm (sac sac' : umap Z) : Permutation sac sac' -> favored sac = favored sac'.
Proof.
  intros P. apply (smallest_unique (map snd sac) (map snd sac')); [|apply favored_smallest|apply favored_smallest].
  intros x. split; apply Permutation_in; [|symmetry]; apply Permutation_map, P.
Qed.
End Facts.
