(** * When coarse graining is attempted, and the errors of initialisation *)
From Coq Require Import ZArith List Bool Lia Permutation.
From Verif Require Import Base BaseProofs Num WalkerModel SiteModel SiteProofs ClusterModel ClusterFrame
  ContainerModel ContainerSpec ContainerProofs BasinModel SystemModel SystemSpec SystemShape SystemHop SystemCoarse SystemMerge SystemProofs SystemFacts.
Import ListNotations.
Open Scope Z_scope.

Section Control.
Context {I : Impl} {N : Num} {G : Rng} {U : Ugly}.
Variable clk : Z -> Z.

Definition same_holds (g g' : world) : Prop := forall c k, holds g' c k <-> holds g c k.
Lemma same_holds_refl g : same_holds g g. Proof. intros c k; tauto. Qed.
Lemma same_holds_trans a b c : same_holds a b -> same_holds b c -> same_holds a c.
Proof. intros H1 H2 x k. rewrite (H2 x k). apply H1. Qed.
Lemma same_clusters g g' : g_clusters g' = g_clusters g -> same_holds g g'.
Proof. intros E c k. unfold holds, member. rewrite E. tauto. Qed.
Lemma drift_holds g g' : drift g g' -> same_holds g g'.
Proof.
  intros C c k. split.
  - intros [m Hm]. destruct (calm_member _ _ _ _ _ (calm_sym _ _ C) Hm) as (m' & Hm' & _). exists m'. exact Hm'.
  - intros [m Hm]. destruct (calm_member _ _ _ _ _ C Hm) as (m' & Hm' & _). exists m'. exact Hm'.
Qed.

(** the hop counter, the current threshold and the minimum threshold *)
Definition counters (g : world) : Z * Z * Z := (g_iter g, g_thr g, g_thrmin g).
Lemma drift_counters g g' : drift g g' -> counters g' = counters g.
Proof.
  intros C. unfold counters. rewrite (k_iter _ _ (m_kept _ _ C)), (k_thr _ _ (m_kept _ _ C)), (k_thrmin _ _ (m_kept _ _ C)). reflexivity.
Qed.

(** ** Calls other than hops and thresholds *)
Lemma init_counters rates g g' : sys_initializeSystem clk rates g = Ret tt g' -> counters g' = counters g /\ g_clusters g' = g_clusters g.
Proof.
  unfold sys_initializeSystem. intros E.
  apply bind_ret_inv in E. destruct E as (r & g1 & E1 & E). inversion E1; subst r g1; clear E1.
  destruct (g_res g); [|discriminate]. apply bind_ret_inv in E. destruct E as ([] & g1 & E1 & E).
  set (Q := fun a b : world => counters b = counters a /\ g_clusters b = g_clusters a).
  assert (Qm : forall (A : Type) (l : list A) body, (forall x a b, body x a = Ret tt b -> Q a b) ->
            forall a b, mfor l body a = Ret tt b -> Q a b).
  { intros A l body Hb. induction l as [|x l IH]; cbn [mfor]; intros a b Eb.
    - inversion Eb; subst. split; reflexivity.
    - apply bind_ret_inv in Eb. destruct Eb as ([] & a1 & Ea & Eb). destruct (Hb _ _ _ Ea) as (A1 & A2).
      destruct (IH _ _ Eb) as (B1 & B2). split; congruence. }
  assert (S1 : Q g g1).
  { eapply Qm; [|exact E1]. intros [k r] a b Ea.
    apply init_site_inv in Ea. destruct Ea as (s & sd & _ & _ & _ & _ & ->). split; reflexivity. }
  assert (S2 : Q g1 g').
  { eapply Qm; [|exact E]. intros k a b Ea. apply init_drain_inv in Ea. destruct Ea as (t & _ & ->). split; reflexivity. }
  destruct S1, S2. split; congruence.
Qed.
Lemma visits_quiet k v g g' : sys_getVisits k g = Ret v g' -> counters g' = counters g /\ same_holds g g'.
Proof.
  intros E. apply getVisits_inv in E.
  destruct E as (s & Es & [(_ & _ & ->)|(_ & cl & cl' & v' & Ec & E & _ & ->)]); [split; [reflexivity|apply same_holds_refl]|].
  split; [reflexivity|]. pose proof (keeps_getVisits _ _ _ _ E) as K.
  assert (Mb : forall c j m, member (g_with_clusters (ureplace (s_cluster s) cl' (g_clusters g)) g) c j m <-> member g c j m).
  { intros c j m. rewrite (member_replace g _ cl cl') by exact Ec. unfold member. split.
    - intros [[-> X]|[_ X]]; [|exact X]. rewrite (sc_sites _ _ K) in X. eauto.
    - intros (x & Ex & Em). destruct (Z.eq_dec c (s_cluster s)) as [->|Ne]; [left|right; split; [exact Ne|eauto]].
      assert (x = cl) by congruence. subst x. rewrite (sc_sites _ _ K). auto. }
  intros c j. split; intros [m Hm]; exists m; apply Mb, Hm.
Qed.
Lemma quiet_step g ws c g' ws' : inv g ws -> step clk g ws c g' ws' -> is_hop c = false -> is_thr c = false ->
  counters g' = counters g /\ same_holds g g'.
Proof.
  intros V S. destruct S as [p g' E|t g' E|t g' E|s g' E|rates g' _ _ E|h|m Hm L|n t Hn|l g' H1 H2 H3 H4 H5 E|fuel id p g' Hp E|id p g' Hp E|k v g' E];
    intros Nh Nt; try discriminate.
  - inversion E; subst. split; [reflexivity|apply same_clusters; reflexivity].
  - unfold sys_setTimeResolution in E. destruct (nleb t n0); [discriminate|]. inversion E; subst.
    split; [reflexivity|apply same_clusters; reflexivity].
  - unfold sys_setRandomSeed in E. apply bind_ret_inv in E. destruct E as (f & g1 & E1 & E). inversion E1; subst f g1; clear E1.
    destruct (g_feats g); [|discriminate]. inversion E; subst. split; [reflexivity|apply same_clusters; reflexivity].
  - destruct (init_counters _ _ _ E) as (A & B). split; [exact A|apply same_clusters, B].
  - split; [reflexivity|apply same_clusters; reflexivity].
  - split; [reflexivity|apply same_clusters; reflexivity].
  - split; [reflexivity|apply same_clusters; reflexivity].
  - unfold sys_initializeWalkers in E. apply bind_ret_inv in E. destruct E as (f & g1 & E1 & E). inversion E1; subst f g1; clear E1.
    destruct (g_feats g); [discriminate|].
    assert (D : drift g g') by apply (enter_all clk l g g' ws V H1 H2 H3 H4 H5 E).
    split; [apply drift_counters, D|apply drift_holds, D].
  - destruct (leave_step _ _ _ _ _ _ V Hp E) as (_ & C). apply calm_drift in C. split; [apply drift_counters, C|apply drift_holds, C].
  - eapply visits_quiet; eauto.
Qed.

(** ** A successful attempt adds a site to a cluster *)
Lemma absorb_frame fuel fav todo : forall g g', ~ In fav todo -> NoDup (ukeys (g_clusters g)) ->
  mfor todo (absorb fuel fav) g = Ret tt g' ->
  g_sites g' = g_sites g /\ (In fav (ukeys (g_clusters g)) -> In fav (ukeys (g_clusters g'))).
Proof.
  induction todo as [|c todo IH]; intros g g' Nf ND E; cbn [mfor] in E; [inversion E; subst; auto|].
  apply bind_ret_inv in E. destruct E as ([] & g1 & E1 & E).
  assert (Nfc : fav <> c) by (intros ->; apply Nf; left; reflexivity).
  apply absorb_inv in E1; [|exact Nfc|exact ND].
  destruct E1 as (a & b & p & Ea & Eb & _ & m & -> & NDm & L).
  destruct (IH (g_with_clusters m g) g' (fun X => Nf (or_intror X)) NDm E) as [A B]. split; [exact A|].
  intros _. apply B. cbn [g_clusters g_with_clusters]. apply ulookup_In_key with (v := fst p). rewrite L.
  apply Z.eqb_neq in Nfc. rewrite Nfc, Z.eqb_refl. reflexivity.
Qed.
Lemma count_other (sac : umap Z) f : count_clusters sac <> 1%nat -> sac <> [] -> exists k c, In (k, c) sac /\ c <> f.
Proof.
  unfold count_clusters. intros E Ne.
  destruct (count_keys clk sac [] (NoDup_nil _)) as [ND A]. cbv zeta in *.
  set (r := fold_left (fun (s : umap unit) (e : Z * Z) => uinsert s (snd e)) sac []) in *.
  assert (X : exists c, In c (ukeys r) /\ c <> f).
  { destruct r as [|[a u] [|[b v] r']].
    - destruct sac as [|[k c] l]; [congruence|]. exfalso. apply (A c). right. left. reflexivity.
    - cbn in E. congruence.
    - cbn [ukeys map fst] in *. destruct (Z.eq_dec a f) as [->|]; [|exists a; split; [left; reflexivity|assumption]].
      exists b. split; [right; left; reflexivity|]. intros ->. inversion ND as [|? ? Na]; subst. apply Na. left; reflexivity. }
  destruct X as (c & Hc & Nc). apply A in Hc. destruct Hc as [[]|Hc]. apply in_map_iff in Hc. destruct Hc as ([k c'] & <- & Hin).
  exists k, c'. auto.
Qed.
Lemma merge_gain_fav fuel sac g g' : shape g -> NoDup (ukeys sac) ->
  (forall k c, ulookup k sac = Some c -> exists s, ulookup k (g_sites g) = Some s /\ c = s_cluster s) ->
  count_clusters sac <> 1%nat -> merge_clusters fuel sac (favored sac) g = Ret tt g' ->
  exists k, holds g' (favored sac) k /\ ~ holds g (favored sac) k.
Proof.
  intros Sh NDs Hsac Nc E. set (fav := favored sac) in *.
  assert (Small : forall k c, ulookup k sac = Some c -> c <> unassignedId -> fav <= c) by (intros k c; apply favored_le).
  destruct (merge_shape clk _ _ _ _ _ Sh NDs Hsac Small E) as [Sh' _].
  apply merge_mid in E; auto.
  destruct E as (iso & cids & g1 & g3 & a & a1 & a2 & _ & R & Ea & _ & _ & Eg3 & Eabs & F0 & NDc & Hc & _).
  assert (Fu : fav <> unassignedId) by (unfold unassignedId, INT_MIN; lia).
  assert (Ns : sac <> []) by (intros ->; apply Fu; reflexivity).
  destruct (count_other sac fav Nc Ns) as (k & c & Hk & Nf). apply In_ulookup in Hk; [|exact NDs].
  destruct (Hsac k c Hk) as (s & Es & Ec).
  assert (Nfc : ~ In fav (ukeys cids)) by (intros X; apply Hc in X; tauto).
  assert (NDc3 : NoDup (ukeys (g_clusters g3))) by (subst g3; cbn [g_clusters g_with_clusters]; rewrite ureplace_keys; apply Sh).
  pose proof (absorb_needs _ _ _ _ _ Nfc NDc3 Eabs) as Need.
  destruct (absorb_frame _ _ _ _ _ Nfc NDc3 Eabs) as [Fs Fk].
  assert (K3 : ukeys (g_clusters g3) = ukeys (g_clusters g)) by (subst g3; cbn [g_clusters g_with_clusters]; apply ureplace_keys).
  exists k. split.
  - assert (Hf : In fav (ukeys (g_clusters g'))) by (apply Fk; rewrite K3; eapply ulookup_In_key; eauto).
    apply ukeys_In in Hf. destruct Hf as [cl Hf].
    assert (Es' : ulookup k (g_sites g') = Some (s_with_cluster fav s)).
    { rewrite Fs. subst g3. cbn [g_sites g_with_clusters]. rewrite (b_sites _ _ _ _ R).
      assert (Mv : moved fav sac k = true) by (unfold moved; rewrite Hk; apply negb_true_iff, Z.eqb_neq; exact Nf).
      rewrite Mv, Es. reflexivity. }
    destruct (h_own _ _ _ Sh' k _ cl Es' Hf) as (c' & m & Hm & [->|[_ []]]). exists m. exact Hm.
  - intros [m Hm]. destruct (Z.eq_dec c unassignedId) as [Eu|Nu].
    + destruct (h_mem _ _ _ Sh _ _ _ Hm) as (s' & Es' & Hn & _). congruence.
    + assert (Hcc : In c (ukeys cids)) by (apply Hc; eauto).
      apply Need in Hcc. rewrite K3 in Hcc. apply ukeys_In in Hcc. destruct Hcc as [z Hz]. rewrite Ec in Hz.
      destruct (h_own _ _ _ Sh k s z Es Hz) as (c' & y & Hy & [->|[_ []]]).
      apply Nf. rewrite Ec. apply (h_disj _ _ _ Sh _ _ _ _ _ Hy Hm).
Qed.
Lemma merge_gain fuel sac g g' : shape g -> NoDup (ukeys sac) ->
  (forall k c, ulookup k sac = Some c -> exists s, ulookup k (g_sites g) = Some s /\ c = s_cluster s) ->
  count_clusters sac <> 1%nat -> merge_clusters fuel sac (favored sac) g = Ret tt g' ->
  exists c k, holds g' c k /\ ~ holds g c k.
Proof. intros A B C D E. destruct (merge_gain_fav _ _ _ _ A B C D E) as [k X]. eauto. Qed.
Lemma create_gain fuel ids limit g g' : shape g -> ids <> [] ->
  (forall k, In k ids -> exists s, ulookup k (g_sites g) = Some s /\ s_cluster s = unassignedId) ->
  create_cluster clk fuel ids limit g = Ret tt g' -> exists c k, holds g' c k /\ ~ holds g c k.
Proof.
  intros Sh Ne Hids E. destruct (create_shape _ _ _ _ _ _ Sh Hids E) as [Sh' _]. apply create_inv in E.
  destruct E as (t & l & tres & c1 & c2 & e & g1 & _ & _ & _ & _ & E). cbv zeta in E.
  set (cl := c_with_rng e _) in E.
  destruct E as (_ & Em & Ec1 & _ & Es1 & _ & _ & _ & _ & _ & _ & _ & _ & Lb).
  destruct ids as [|k ids]; [congruence|]. destruct (Hids k (or_introl eq_refl)) as (s & Es & _).
  exists (g_count g), k. split.
  - assert (Es' : ulookup k (g_sites g') = Some (s_with_cluster (g_count g) s)).
    { rewrite (b_sites _ _ _ _ Lb), Es1. cbn [existsb]. rewrite Z.eqb_refl. cbn [orb]. rewrite Es. reflexivity. }
    assert (Hc : ulookup (g_count g) (g_clusters g') = Some cl).
    { rewrite (b_clusters _ _ _ _ Lb), Ec1, uset_lookup by apply Sh. rewrite Z.eqb_refl. reflexivity. }
    destruct (h_own _ _ _ Sh' k _ cl Es' Hc) as (c' & m & Hm & [->|[_ []]]). exists m. exact Hm.
  - intros (m & y & Ey & _). apply umem_false_lookup in Em. congruence.
Qed.
Lemma coarse_gain fuel k g b g' : shape g -> coarse_grain clk fuel k g = Ret b g' ->
  (b = false /\ same_holds g g') \/ (b = true /\ exists c j, holds g' c j /\ ~ holds g c j).
Proof.
  intros Sh E. destruct (coarse_inv _ _ _ _ _ _ Sh E) as (ids & _ & ok & _ & H1). cbv zeta in H1.
  set (g1 := g_with_tick (g_tick g + 1) g) in *.
  assert (Sh1 : shape g1) by (apply (calm_shape clk g); [apply calm_tick|exact Sh]).
  assert (Hg : forall c j, holds g c j <-> holds g1 c j) by (intros; unfold holds, member; tauto).
  destruct H1 as [[-> ->]|(-> & _ & sac & ND & A1 & A2 & [(_ & A3 & Ne & E1)|(Nc & E1)])].
  - left. split; [reflexivity|]. apply same_clusters. reflexivity.
  - right. split; [reflexivity|]. destruct (fun X => create_gain _ _ _ _ _ Sh1 Ne X E1) as (c & j & H1 & H2).
    + intros j Hj. destruct (A1 j Hj) as (s & Es & E2). rewrite (A3 j Hj) in E2. inversion E2. exists s. auto.
    + exists c, j. rewrite Hg. auto.
  - right. split; [reflexivity|]. destruct (fun X => merge_gain _ _ _ _ Sh1 ND X Nc E1) as (c & j & H1 & H2).
    + intros j c Ej. destruct (in_dec Z.eq_dec j ids) as [Hj|Hj].
      * destruct (A1 j Hj) as (s & Es & E2). exists s. split; [exact Es|congruence].
      * rewrite (A2 j Hj) in Ej. discriminate.
    + exists c, j. rewrite Hg. auto.
Qed.

(** ** What a hop does to the counters and to the clusters *)
Lemma hop_counts fuel id p g g' ws : inv g ws -> In p ws -> sys_hop clk fuel id p g = Ret tt g' ->
  in_int (g_iter g + 1) = true /\ g_thrmin g' = g_thrmin g /\
  ((g_iter g < g_thr g /\ g_iter g' = g_iter g + 1 /\ g_thr g' = g_thr g /\ same_holds g g') \/
   (g_thr g <= g_iter g /\ g_thrmin g = inf_iterations /\ g_iter g' = 0 /\ g_thr g' = g_thr g /\ same_holds g g') \/
   (g_thr g <= g_iter g /\ g_thrmin g <> inf_iterations /\ g_iter g' = 0 /\
    ((g_thr g' = g_thrmin g /\ exists c k, holds g' c k /\ ~ holds g c k) \/
     (g_thr g' = 2 * g_thr g /\ in_int (2 * g_thr g) = true /\ same_holds g g')))).
Proof.
  intros V Hp E. apply hop_inv in E. destruct E as (w & g1 & Ew & _ & _ & E1 & E2).
  destruct (move_step _ _ _ _ _ _ _ _ V Hp (ex_intro _ w (conj Ew eq_refl)) E1) as (V1 & D1 & _).
  pose proof (drift_counters _ _ D1) as C. injection C as C1 C2 C3. pose proof (drift_holds _ _ D1) as Hh.
  apply attempt_inv in E2. rewrite C1, C2, C3 in E2. destruct E2 as (Ei & E2). split; [exact Ei|].
  destruct E2 as [(L & ->)|[(L & F & ->)|(L & F & b & g2 & E & Eb & ->)]].
  - split; [exact C3|]. left. split; [exact L|]. split; [reflexivity|]. split; [exact C2|].
    eapply same_holds_trans; [exact Hh|apply same_clusters; reflexivity].
  - split; [exact C3|]. right. left. split; [exact L|]. split; [exact F|]. split; [reflexivity|]. split; [exact C2|].
    eapply same_holds_trans; [exact Hh|apply same_clusters; reflexivity].
  - assert (Sh1 : shape (g_with_iter (g_iter g + 1) g1)) by (destruct (v_shape _ _ V1); constructor; assumption).
    destruct (coarse_shape clk _ _ _ _ _ Sh1 E) as [_ G2]. destruct (coarse_gain _ _ _ _ _ Sh1 E) as [(-> & Hs)|(-> & c & k & A & B)].
    + split; [cbn; rewrite (r_thrmin _ _ G2); exact C3|].
      right. right. split; [exact L|]. split; [exact F|]. split; [reflexivity|]. right.
      pose proof (r_thr _ _ G2) as Et. cbn [g_thr g_with_iter] in Et. rewrite C2 in Et. specialize (Eb eq_refl). rewrite Et, Z.mul_comm in Eb.
      split; [cbn [g_thr g_with_iter g_with_thr]; rewrite Et; lia|]. split; [exact Eb|].
      intros c k. rewrite <- (Hh c k). apply (Hs c k).
    + split; [cbn; rewrite (r_thrmin _ _ G2); exact C3|].
      right. right. split; [exact L|]. split; [exact F|]. split; [reflexivity|]. left. split; [reflexivity|].
      exists c, k. split; [exact A|]. rewrite <- (Hh c k). exact B.
Qed.
Lemma step_hop g ws p g' ws' : step clk g ws (KHop p) g' ws' -> exists fuel id, In p ws /\ ws' = ws /\ sys_hop clk fuel id p g = Ret tt g'.
Proof. intros S. inversion S; subst. eauto. Qed.

(** switched off *)
Lemma off_steps g ws tr g' ws' : inv g ws -> g_thrmin g = inf_iterations -> steps clk g ws tr g' ws' -> no_thr tr ->
  g_thrmin g' = inf_iterations /\ same_holds g g'.
Proof.
  intros V F S. induction S as [|tr g1 ws1 c g2 ws2 S IH St]; intros Ht; [split; [exact F|apply same_holds_refl]|].
  unfold no_thr in Ht; rewrite forallb_app in Ht. apply andb_true_iff in Ht. destruct Ht as [Ht Hc]. cbn [forallb] in Hc. rewrite andb_true_r in Hc. apply negb_true_iff in Hc.
  destruct (IH Ht) as [F1 H1]. pose proof (steps_inv clk _ _ _ _ _ V S) as V1.
  destruct (is_hop c) eqn:Eh.
  - destruct c; try discriminate. apply step_hop in St. destruct St as (fuel & id & Hp & -> & E).
    destruct (hop_counts _ _ _ _ _ _ V1 Hp E) as (_ & Ft & [(_ & _ & _ & Hs)|[(_ & _ & _ & _ & Hs)|(_ & X & _)]]); [| |congruence].
    + split; [congruence|eapply same_holds_trans; eauto].
    + split; [congruence|eapply same_holds_trans; eauto].
  - destruct (quiet_step _ _ _ _ _ V1 St Eh Hc) as [C Hs]. inversion C. split; [congruence|eapply same_holds_trans; eauto].
Qed.

(** waiting *)
Lemma hops_app a b : hops (a ++ b) = hops a + hops b.
Proof. unfold hops. rewrite filter_app, app_length. lia. Qed.
Lemma wait_steps g ws tr g' ws' : inv g ws -> steps clk g ws tr g' ws' -> no_thr tr ->
  g_iter g + hops tr <= g_thr g ->
  counters g' = (g_iter g + hops tr, g_thr g, g_thrmin g) /\ same_holds g g'.
Proof.
  intros V S. induction S as [|tr g1 ws1 c g2 ws2 S IH St]; intros Ht Hn.
  { unfold hops, counters. cbn. rewrite Z.add_0_r. split; [reflexivity|apply same_holds_refl]. }
  unfold no_thr in Ht; rewrite forallb_app in Ht. apply andb_true_iff in Ht. destruct Ht as [Ht Hc]. cbn [forallb] in Hc. rewrite andb_true_r in Hc. apply negb_true_iff in Hc.
  rewrite hops_app in *. assert (H0 : 0 <= hops [c]) by (unfold hops; lia).
  destruct (IH Ht ltac:(lia)) as [C1 H1]. pose proof (steps_inv clk _ _ _ _ _ V S) as V1. pose proof C1 as C1'; injection C1' as E1 E2 E3.
  destruct (is_hop c) eqn:Eh.
  - assert (Hh : hops [c] = 1) by (unfold hops; cbn [filter]; rewrite Eh; reflexivity). rewrite Hh in *.
    destruct c; try discriminate. apply step_hop in St. destruct St as (fuel & id & Hp & -> & E).
    destruct (hop_counts _ _ _ _ _ _ V1 Hp E) as (_ & Ft & [(_ & B1 & B2 & Hs)|[(X & _)|(X & _)]]); [|lia|lia].
    split; [unfold counters; rewrite B1, B2, Ft, E1, E2, E3; f_equal; f_equal; lia|eapply same_holds_trans; eauto].
  - assert (Hh : hops [c] = 0) by (unfold hops; cbn [filter]; rewrite Eh; reflexivity). rewrite Hh, Z.add_0_r in *.
    destruct (quiet_step _ _ _ _ _ V1 St Eh Hc) as [C Hs]. split; [congruence|eapply same_holds_trans; eauto].
Qed.
Lemma min_kept tr g ws : reach_by clk tr g ws -> g_thrmin g = min_thr tr.
Proof.
  intros (m & h & count & tick & ND & Hc & S).
  assert (V0 : inv (world_new m h count tick) []).
  { apply (reach_inv clk). exists [], m, h, count, tick. split; [exact ND|]. split; [exact Hc|constructor]. }
  induction S as [|tr g1 ws1 c g2 ws2 S IH St]; [reflexivity|]. pose proof (steps_inv clk _ _ _ _ _ V0 S) as V1.
  unfold min_thr. rewrite fold_left_app. cbn [fold_left]. fold (min_thr tr).
  destruct (is_hop c) eqn:Eh.
  - destruct c; try discriminate. apply step_hop in St. destruct St as (fuel & id & Hp & -> & E).
    destruct (hop_counts _ _ _ _ _ _ V1 Hp E) as (_ & Ft & _). congruence.
  - destruct (is_thr c) eqn:Et.
    + destruct c; try discriminate. inversion St; subst. match goal with X : sys_setThreshold _ _ = _ |- _ => inversion X end. reflexivity.
    + destruct (quiet_step _ _ _ _ _ V1 St Eh Et) as [C _]. injection C as _ _ C3. destruct c; try discriminate; congruence.
Qed.
(** nothing has been counted before the first hop *)
Lemma fresh_counts tr g ws : reach_by clk tr g ws -> hops tr = 0 -> counters g = (0, min_thr tr, min_thr tr) /\ forall c k, ~ holds g c k.
Proof.
  intros (m & h & count & tick & ND & Hc & S).
  assert (V0 : inv (world_new m h count tick) []).
  { apply (reach_inv clk). exists [], m, h, count, tick. split; [exact ND|]. split; [exact Hc|constructor]. }
  induction S as [|tr g1 ws1 c g2 ws2 S IH St]; intros Hh.
  { split; [reflexivity|]. intros c k (x & y & Ey & _). discriminate. }
  pose proof (steps_inv clk _ _ _ _ _ V0 S) as V1.
  rewrite hops_app in Hh. assert (H0 : 0 <= hops tr /\ 0 <= hops [c]) by (unfold hops; lia).
  unfold min_thr. rewrite fold_left_app. cbn [fold_left]. fold (min_thr tr).
  destruct (IH ltac:(lia)) as [C1 H1]. destruct (is_hop c) eqn:Eh.
  { exfalso. assert (X : hops [c] = 1) by (unfold hops; cbn [filter]; rewrite Eh; reflexivity). lia. }
  destruct (is_thr c) eqn:Et.
  - destruct c; try discriminate. inversion St; subst. match goal with X : sys_setThreshold _ _ = _ |- _ => inversion X; subst end.
    injection C1 as C1 _ _. split; [unfold counters; cbn; rewrite C1; reflexivity|exact H1].
  - destruct (quiet_step _ _ _ _ _ V1 St Eh Et) as [C Hs]. rewrite C, C1. split; [destruct c; try discriminate; reflexivity|].
    intros x k X. apply (H1 x k), Hs, X.
Qed.

(** ** The same about listings *)
Definition same_listed (g g' : world) : Prop := forall c k, listed g' c k <-> listed g c k.
Lemma listed_same g ws g' ws' : inv g ws -> inv g' ws' -> same_holds g g' -> same_listed g g'.
Proof. intros V V' Hs c k. rewrite !listed_holds by (eapply inv_ndc; eauto). apply Hs. Qed.
Lemma off_listed g ws tr g' ws' : inv g ws -> g_thrmin g = inf_iterations -> steps clk g ws tr g' ws' -> no_thr tr -> same_listed g g'.
Proof.
  intros V F S Ht. destruct (off_steps _ _ _ _ _ V F S Ht) as [_ Hs].
  apply (listed_same g ws g' ws'); [exact V|eapply steps_inv; eauto|exact Hs].
Qed.
Lemma wait_listed g ws tr g' ws' : inv g ws -> steps clk g ws tr g' ws' -> no_thr tr -> g_iter g + hops tr <= g_thr g -> same_listed g g'.
Proof.
  intros V S Ht Hn. destruct (wait_steps _ _ _ _ _ V S Ht Hn) as [_ Hs].
  apply (listed_same g ws g' ws'); [exact V|eapply steps_inv; eauto|exact Hs].
Qed.
Lemma hop_listed fuel id p g g' ws : inv g ws -> In p ws -> sys_hop clk fuel id p g = Ret tt g' ->
  g_thrmin g' = g_thrmin g /\
  ((g_iter g < g_thr g /\ g_iter g' = g_iter g + 1 /\ g_thr g' = g_thr g /\ same_listed g g') \/
   (g_thr g <= g_iter g /\ g_thrmin g = inf_iterations /\ g_iter g' = 0 /\ g_thr g' = g_thr g /\ same_listed g g') \/
   (g_thr g <= g_iter g /\ g_thrmin g <> inf_iterations /\ g_iter g' = 0 /\
    ((g_thr g' = g_thrmin g /\ exists c k, listed g' c k /\ ~ listed g c k) \/
     (g_thr g' = 2 * g_thr g /\ same_listed g g')))).
Proof.
  intros V Hp E. assert (V' : inv g' ws) by (eapply (step_inv clk g ws (KHop p)); [exact V|eapply st_hop; eauto]).
  assert (L : same_holds g g' -> same_listed g g') by (apply (listed_same g ws g' ws); assumption).
  destruct (hop_counts _ _ _ _ _ _ V Hp E) as (_ & F & [(A1 & A2 & A3 & A4)|[(A1 & A2 & A3 & A4 & A5)|(A1 & A2 & A3 & [(A4 & c & k & A5 & A6)|(A4 & _ & A5)])]]);
    (split; [exact F|]).
  - left. auto.
  - right. left. repeat (split; [assumption|]). auto.
  - right. right. split; [exact A1|]. split; [exact A2|]. split; [exact A3|]. left. split; [exact A4|]. exists c, k.
    rewrite !listed_holds by (eapply inv_ndc; eauto). auto.
  - right. right. repeat (split; [assumption|]). right. auto.
Qed.
Lemma after_success fuel id p g g1 ws tr g2 ws2 : inv g ws -> In p ws -> sys_hop clk fuel id p g = Ret tt g1 ->
  (exists c k, listed g1 c k /\ ~ listed g c k) -> steps clk g1 ws tr g2 ws2 -> no_thr tr -> hops tr <= g_thrmin g -> same_listed g1 g2.
Proof.
  intros V Hp E (c & k & A & B) S Ht Hn.
  assert (V1 : inv g1 ws) by (eapply (step_inv clk g ws (KHop p)); [exact V|eapply st_hop; eauto]).
  assert (X : g_iter g1 = 0 /\ g_thr g1 = g_thrmin g).
  { destruct (hop_listed _ _ _ _ _ _ V Hp E) as (_ & [(_ & _ & _ & X)|[(_ & _ & _ & _ & X)|(_ & _ & X1 & [(X2 & _)|(_ & X)])]]);
      try (exfalso; apply B, X, A). auto. }
  apply (wait_listed g1 ws tr g2 ws2 V1 S Ht). lia.
Qed.
End Control.
