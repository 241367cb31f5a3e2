(** * Which sites and clusters an attempt to coarse grain changes, for every arithmetic *)
From Coq Require Import ZArith List Bool Lia Permutation Relations.
From Verif Require Import Base BaseProofs Num WalkerModel SiteModel SiteProofs ClusterModel ClusterFrame
  ContainerModel BasinModel BasinSpec BasinProofs SystemModel SystemSpec SystemShape SystemHop SystemCoarse SystemMerge
  SystemProofs SystemFacts SystemControl SystemInit ValidSpec.
Import ListNotations.
Open Scope Z_scope.

Section Effect.
Context {I : Impl} {N : Num} {G : Rng} {U : Ugly}.
Variable clk : Z -> Z.

(** ** The search with more fuel *)
Lemma loop_more nonce h b sites n : forall fuel i q L, basin_loop fuel nonce i h b sites q = Ok L ->
  basin_loop (fuel + n) nonce i h b sites q = Ok L.
Proof.
  induction fuel as [|f IH]; intros i q L E.
  - cbn [basin_loop] in E. destruct (q_front q) as [|e r] eqn:Eq; [|discriminate]. destruct n; cbn [plus basin_loop]; rewrite Eq; exact E.
  - cbn [plus basin_loop] in *. destruct (q_front q) as [|e r]; [exact E|].
    destruct (add_edges _ _ _ _ _ _) as [q'| |]; cbn [rbind] in *; try discriminate.
    destruct (b_max b <? _); [exact E|]. apply IH, E.
Qed.
Lemma basin_more nonce h b sites cl k fuel n L : find_basin fuel nonce h b sites cl k = Ok L ->
  find_basin (fuel + n) nonce h b sites cl k = Ok L.
Proof.
  unfold find_basin. repeat (match goal with |- context [rbind ?x _] => destruct x; cbn [rbind]; [|discriminate|discriminate] end).
  apply loop_more.
Qed.
Lemma basin_result nonce h b sites cl k fuel L : NoDup (ukeys sites) -> find_basin fuel nonce h b sites cl k = Ok L ->
  L = [] \/ (NoDup L /\ In k L /\ forall j, In j L -> clos_refl_trans Z (hop_in sites L) k j).
Proof.
  intros ND E. pose proof E as E0. unfold find_basin in E0.
  unfold ask at 1, sc_getFastest, read_key in E0.
  destruct (ulookup k sites) as [s|] eqn:Es; cbn [lift rbind throw] in E0; [|discriminate].
  unfold ask at 1, sc_partOfCluster, read_key in E0. rewrite Es in E0. cbn [lift rbind] in E0.
  assert (Hc : 0 <= s_cluster s -> exists c, ulookup (s_cluster s) cl = Some c).
  { intros P. unfold s_partOfCluster in E0. rewrite Z.gtb_ltb in E0. destruct (Z.ltb_spec (-1) (s_cluster s)); [|lia].
    unfold ask at 1, sc_getClusterId, read_key in E0. rewrite Es in E0. cbn [lift rbind] in E0.
    unfold ask at 1, cc_getCluster, read_key, s_getClusterId in E0.
    destruct (ulookup (s_cluster s) cl) as [c|]; [eauto|]. cbn [lift rbind throw] in E0. discriminate. }
  destruct (search_any h sites k ND cl s b nonce (ulookup_In _ _ _ Es) Hc) as (n & L' & HL & R).
  assert (L' = L).
  { specialize (R (fuel + n)%nat ltac:(lia)). rewrite (basin_more _ _ _ _ _ _ _ n _ E) in R. congruence. }
  subst L'. destruct HL as [->|(A & B & _ & D)]; auto.
Qed.

(** ** Absorbing *)
Lemma absorb_holds fuel fav c g g' : fav <> c -> NoDup (ukeys (g_clusters g)) ->
  (forall x cl, ulookup x (g_clusters g) = Some cl -> NoDup (ukeys (c_sites cl))) -> absorb fuel fav c g = Ret tt g' ->
  g_sites g' = g_sites g /\ NoDup (ukeys (g_clusters g')) /\
  (forall x cl, ulookup x (g_clusters g') = Some cl -> NoDup (ukeys (c_sites cl))) /\
  forall x k, holds g' x k <-> x <> c /\ (holds g x k \/ (x = fav /\ holds g c k)).
Proof.
  intros Ne ND NDs E. apply absorb_inv in E; [|exact Ne|exact ND].
  destruct E as (a & b & p & Ea & Eb & Em & m & -> & NDm & L).
  destruct (migrate_inv _ _ _ _ _ Em (NDs _ _ Ea)) as (c0 & K & Ic & ND0 & A1 & A2 & A3).
  assert (Es0 := sc_sites _ _ K). split; [reflexivity|]. split; [exact NDm|]. split.
  - intros x cl. cbn [g_clusters g_with_clusters]. rewrite L. destruct (x =? c); [discriminate|].
    destruct (x =? fav); [|apply NDs]. intros X. inversion X; subst cl. rewrite Es0. exact ND0.
  - intros x k. unfold holds, member. cbn [g_clusters g_with_clusters].
    destruct (Z.eqb_spec x c) as [->|Nx].
    + rewrite L, Z.eqb_refl. split; [intros (m0 & cl & X & _); discriminate|tauto].
    + assert (Lx : ulookup x m = if x =? fav then Some (fst p) else ulookup x (g_clusters g)).
      { rewrite L. apply Z.eqb_neq in Nx. rewrite Nx. reflexivity. }
      rewrite Lx. destruct (Z.eqb_spec x fav) as [->|Nf].
      * split.
        -- intros (m0 & cl & X & Y). inversion X; subst cl. rewrite Es0 in Y. split; [exact Nx|].
           destruct (A3 k m0 Y) as [H1|(y0 & H1 & _)]; [left; eauto|right; eauto].
        -- intros [_ [(m0 & cl & X & Y)|(_ & m0 & cl & X & Y)]].
           ++ assert (cl = a) by congruence. subst cl. exists m0, (fst p). split; [reflexivity|]. rewrite Es0. auto.
           ++ assert (cl = b) by congruence. subst cl. destruct (ulookup k (c_sites a)) as [y|] eqn:Ek.
              ** exists y, (fst p). split; [reflexivity|]. rewrite Es0. auto.
              ** exists (s_with_cluster (c_id a) m0), (fst p). split; [reflexivity|]. rewrite Es0. apply A2; auto. apply (NDs _ _ Eb).
      * split; [intros X; split; [exact Nx|left; exact X]|]. intros [_ [X|[X _]]]; [exact X|congruence].
Qed.
Lemma absorbs_holds fuel fav todo : forall g g', ~ In fav todo -> NoDup todo -> NoDup (ukeys (g_clusters g)) ->
  (forall x cl, ulookup x (g_clusters g) = Some cl -> NoDup (ukeys (c_sites cl))) ->
  mfor todo (absorb fuel fav) g = Ret tt g' -> g_sites g' = g_sites g /\
  forall x k, holds g' x k <-> ~ In x todo /\ (holds g x k \/ (x = fav /\ exists c, In c todo /\ holds g c k)).
Proof.
  induction todo as [|c todo IH]; intros g g' Nf NDt ND NDs E; cbn [mfor] in E.
  - inversion E; subst. split; [reflexivity|]. intros x k. split; [intros X; split; [intros []|auto]|].
    intros [_ [X|(_ & c & [] & _)]]; exact X.
  - apply bind_ret_inv in E. destruct E as ([] & g1 & E1 & E). inversion NDt; subst.
    assert (Nc : fav <> c) by (intros ->; apply Nf; left; reflexivity).
    destruct (absorb_holds _ _ _ _ _ Nc ND NDs E1) as (S1 & ND1 & NDs1 & A1).
    destruct (IH g1 g' (fun X => Nf (or_intror X)) H2 ND1 NDs1 E) as (S2 & A2). split; [congruence|].
    intros x k. rewrite A2, A1. split.
    + intros (X1 & [(X2 & [X3|(X3 & X4)])|(X2 & c' & X3 & X4)]).
      * split; [intros [Y|Y]; [congruence|tauto]|auto].
      * split; [intros [Y|Y]; [congruence|tauto]|]. right. split; [exact X3|]. exists c. split; [left; reflexivity|exact X4].
      * apply A1 in X4. destruct X4 as (X4 & X5). split; [intros [Y|Y]; [congruence|tauto]|]. right. split; [exact X2|].
        destruct X5 as [X5|(X5 & X6)]; [exists c'; split; [right; exact X3|exact X5]|]. subst c'. exfalso. apply Nf. right. exact X3.
    + intros (X1 & X2). split; [intros Y; apply X1; right; exact Y|]. destruct X2 as [X2|(-> & c' & [<-|X3] & X4)].
      * left. split; [intros ->; apply X1; left; reflexivity|auto].
      * left. split; [exact Nc|auto].
      * right. split; [reflexivity|]. exists c'. split; [exact X3|]. apply A1. split; [intros ->; tauto|auto].
Qed.

(** ** An attempt that succeeds *)
(** cluster [x] has a site in [B] *)
Definition touched (g : world) (B : list Z) (x : Z) : Prop := exists j, In j B /\ holds g x j.
(** the sites [B] are now part of cluster [c], together with all sites of the
    clusters that had sites in [B] *)
Record made (g g' : world) (k : Z) (B : list Z) (c : Z) : Prop := {
  d_nd : NoDup B; d_in : In k B;
  d_known : forall j, In j B -> In j (ukeys (g_sites g));
  d_reach : forall j, In j B -> clos_refl_trans Z (hop_in (g_sites g) B) k j;
  d_holds : forall x j, holds g' x j <->
    (x = c \/ ~ touched g B x) /\
    (holds g x j \/ (x = c /\ (In j B \/ exists x', touched g B x' /\ holds g x' j)));
  d_label : forall j, ulookup j (g_sites g') =
    if existsb (Z.eqb j) B then option_map (s_with_cluster c) (ulookup j (g_sites g)) else ulookup j (g_sites g);
  d_which : (c = g_count g /\ forall x, ~ touched g B x) \/ (touched g B c /\ forall x, touched g B x -> c <= x);
  d_some : forall j s, In j B -> ulookup j (g_sites g) = Some s -> s_cluster s = unassignedId \/ holds g (s_cluster s) j;
  d_more : forall x, touched g B x -> exists j, In j B /\ ~ holds g x j }.

Lemma create_made fuel k ids limit g g' : shape g -> NoDup ids -> In k ids ->
  (forall j, In j ids -> clos_refl_trans Z (hop_in (g_sites g) ids) k j) ->
  (forall k, In k ids -> exists s, ulookup k (g_sites g) = Some s /\ s_cluster s = unassignedId) ->
  create_cluster clk fuel ids limit g = Ret tt g' -> made g g' k ids (g_count g).
Proof.
  intros Sh NDi Hk Hr Hids E. apply create_inv in E.
  destruct E as (t & l & tres & c1 & c2 & e & g1 & El & Er & Ea & Eu & E). cbv zeta in E.
  set (cl := c_with_rng e _) in E.
  destruct E as (_ & Em & Ec1 & En1 & Es1 & Ef1 & Ew1 & Eh1 & Ep1 & Er1 & Ei1 & Et1 & Etm1 & Lb).
  pose proof (keeps_update _ _ _ _ _ Eu) as Ku.
  destruct (addSites_inv _ _ _ Ea) as (m & Ec & Hm). cbn [c_sites c_with_tol c_with_method cluster_new c_id] in Hm.
  specialize (Hm (NoDup_nil _)). destruct Hm as (NDm & Hin & Hout & _).
  assert (Ecl : c_sites cl = m).
  { subst cl. cbn [c_sites c_with_rng c_with_inc c_with_res]. rewrite (sc_sites _ _ Ku), Ec. reflexivity. }
  destruct (copy_inv _ _ _ _ El) as (_ & L1 & L2).
  set (cid := g_count g) in *.
  assert (M1 : forall k x, ulookup k m = Some x -> In k ids).
  { intros j x Ex. destruct (Hout j x Ex) as [Hx|(s & Hs & Ei & ->)]; [discriminate|].
    destruct (L2 s Hs) as (k' & Hk' & Es). destruct (h_site _ _ _ Sh k' s Es) as [Ei' _].
    assert (k' = j) by congruence. subst k'. exact Hk'. }
  assert (M2 : forall k, In k ids -> exists s, ulookup k m = Some s).
  { intros j Hj. destruct (L1 j Hj) as (s & Es & Hs).
    destruct (Hin s Hs) as (k' & Ei & Ek). destruct (h_site _ _ _ Sh j s Es) as [Ei' _]. assert (k' = j) by congruence. subst k'. eauto. }
  assert (Lc : forall c, ulookup c (g_clusters g') = if c =? cid then Some cl else ulookup c (g_clusters g)).
  { intros c. rewrite (b_clusters _ _ _ _ Lb), Ec1. apply uset_lookup. apply (h_ndc _ _ _ Sh). }
  assert (Ncid : ulookup cid (g_clusters g) = None) by (apply umem_false_lookup; exact Em).
  assert (Nt : forall x, ~ touched g ids x).
  { intros x (j & Hj & m0 & Hm). destruct (Hids j Hj) as (s & Es & Eu0). destruct (h_mem _ _ _ Sh _ _ _ Hm) as (s' & Es' & Hn & _). congruence. }
  constructor; auto.
  - intros j Hj. destruct (Hids j Hj) as (s & Es & _). eapply ulookup_In_key; eauto.
  - intros x j. split.
    + intros (m0 & y & E1 & E2). rewrite Lc in E1. split; [right; apply Nt|].
      destruct (Z.eqb_spec x cid) as [->|Ne].
      * right. split; [reflexivity|]. left. inversion E1; subst y. rewrite Ecl in E2. apply (M1 _ _ E2).
      * left. exists m0, y. auto.
    + intros [_ [(m0 & y & E1 & E2)|(-> & [Hj|(x' & Ht & _)])]]; [| |exfalso; apply (Nt _ Ht)].
      * exists m0, y. split; [|exact E2]. rewrite Lc. destruct (Z.eqb_spec x cid) as [->|]; [congruence|exact E1].
      * destruct (M2 j Hj) as [s Es]. exists s, cl. rewrite Lc, Z.eqb_refl, Ecl. auto.
  - intros j. rewrite (b_sites _ _ _ _ Lb), Es1. reflexivity.
  - intros j s Hj Es. left. destruct (Hids j Hj) as (s' & Es' & X). congruence.
  - intros x Ht. exfalso. apply (Nt _ Ht).
Qed.

Lemma merge_made fuel k ids sac g g' : shape g -> NoDup ids -> In k ids ->
  (forall j, In j ids -> clos_refl_trans Z (hop_in (g_sites g) ids) k j) -> NoDup (ukeys sac) ->
  (forall j, In j ids -> exists s, ulookup j (g_sites g) = Some s /\ ulookup j sac = Some (s_cluster s)) ->
  (forall j, ~ In j ids -> ulookup j sac = None) -> count_clusters sac <> 1%nat ->
  merge_clusters fuel sac (favored sac) g = Ret tt g' -> made g g' k ids (favored sac).
Proof.
  intros Sh NDi Hk Hr NDs A1 A2 Cn E. set (fav := favored sac) in *.
  assert (Hsac : forall j c, ulookup j sac = Some c -> In j ids /\ exists s, ulookup j (g_sites g) = Some s /\ c = s_cluster s).
  { intros j c Ej. destruct (in_dec Z.eq_dec j ids) as [Hj|Hj]; [|rewrite (A2 j Hj) in Ej; discriminate].
    split; [exact Hj|]. destruct (A1 j Hj) as (s & Es & E2). exists s. split; [exact Es|congruence]. }
  apply (merge_mid clk) in E; [|exact Sh|exact NDs|intros j c Ej; apply (Hsac j c Ej)].
  destruct E as (iso & cids & g1 & g3 & a & a1 & a2 & _ & R & Ea & Ea1 & Ea2 & Eg3 & Eabs & F0 & NDc & Hc & Hi).
  assert (Fu : fav <> unassignedId) by (unfold unassignedId, INT_MIN; lia).
  destruct (h_cl _ _ _ Sh fav a Ea) as (Ia & Ra & NDa & _).
  destruct (addSites_inv _ _ _ Ea1) as (m & Em & Hm). specialize (Hm NDa). destruct Hm as (NDm & Hin & Hout & Hold).
  pose proof (keeps_update _ _ _ _ _ Ea2) as K.
  assert (Es2 : c_sites a2 = m) by (rewrite (sc_sites _ _ K), Em; reflexivity).
  assert (Lc : forall c, ulookup c (g_clusters g3) = if c =? fav then Some a2 else ulookup c (g_clusters g)).
  { intros c. subst g3. cbn [g_clusters g_with_clusters]. apply (ureplace_lookup_some _ _ _ a), Ea. }
  assert (Nfc : ~ In fav (ukeys cids)) by (intros X; apply Hc in X; tauto).
  assert (NDc3 : NoDup (ukeys (g_clusters g3))) by (subst g3; cbn [g_clusters g_with_clusters]; rewrite ureplace_keys; apply Sh).
  pose proof (absorb_needs _ _ _ _ _ Nfc NDc3 Eabs) as Need.
  assert (NDs3 : forall x cl, ulookup x (g_clusters g3) = Some cl -> NoDup (ukeys (c_sites cl))).
  { intros x cl. rewrite Lc. destruct (x =? fav); [intros X; inversion X; subst cl; rewrite Es2; exact NDm|].
    intros X. apply (h_cl _ _ _ Sh x cl X). }
  destruct (absorbs_holds _ _ _ _ _ Nfc NDc NDc3 NDs3 Eabs) as (Ss & Hh).
  (* labels of the sites of the basin exist *)
  assert (Lab : forall j s, In j ids -> ulookup j (g_sites g) = Some s -> s_cluster s <> unassignedId -> holds g (s_cluster s) j).
  { intros j s Hj Es Nu. assert (exists cl, ulookup (s_cluster s) (g_clusters g) = Some cl) as [cl Ecl].
    { destruct (Z.eq_dec (s_cluster s) fav) as [->|Nf]; [eauto|].
      assert (X : In (s_cluster s) (ukeys cids)).
      { apply Hc. split; [|auto]. exists j. destruct (A1 j Hj) as (s' & Es' & E'). congruence. }
      apply Need, ukeys_In in X. destruct X as [z Hz]. rewrite Lc in Hz. apply Z.eqb_neq in Nf. rewrite Nf in Hz. eauto. }
    destruct (h_own _ _ _ Sh j s cl Es Ecl) as (c' & y & Hy & [->|[_ []]]). exists y. exact Hy. }
  assert (Tch : forall x, touched g ids x <-> x = fav \/ In x (ukeys cids)).
  { intros x. split.
    - intros (j & Hj & Hx). pose proof Hx as Hx'. destruct Hx as (y & Hy). destruct (h_mem _ _ _ Sh _ _ _ Hy) as (s & Es & Nu & _).
      pose proof (Lab j s Hj Es Nu) as (y' & Hy'). assert (x = s_cluster s) by apply (h_disj _ _ _ Sh _ _ _ _ _ Hy Hy'). subst x.
      destruct (Z.eq_dec (s_cluster s) fav) as [|Nf]; [auto|right]. apply Hc. split; [|auto]. exists j. destruct (A1 j Hj) as (s' & Es' & E'). congruence.
    - intros Hx. assert (exists j, ulookup j sac = Some x) as [j Ej].
      { destruct Hx as [->|Hx]; [|apply Hc in Hx; tauto].
        destruct (favored_smallest sac) as [[X _]|(X & _)]; [fold fav in X; congruence|]. apply in_map_iff in X. destruct X as ([j c] & X & Hj).
        exists j. fold fav in X. cbn [snd] in X. subst c. apply In_ulookup; assumption. }
      assert (Nu : x <> unassignedId) by (destruct Hx as [->|Hx]; [exact Fu|apply Hc in Hx; tauto]).
      destruct (Hsac j x Ej) as (Hj & s & Es & ->). exists j. split; [exact Hj|]. apply Lab; auto. }
  assert (H3 : forall x j, holds g3 x j <-> holds g x j \/ (x = fav /\ ulookup j sac = Some unassignedId)).
  { intros x j. unfold holds, member. rewrite Lc. destruct (Z.eqb_spec x fav) as [->|Nf].
    - split.
      + intros (y & cl & X & Y). inversion X; subst cl. rewrite Es2 in Y. destruct (Hout j y Y) as [H1|(s & Hs & Ei & _)]; [left; eauto|right].
        split; [reflexivity|]. apply Hi in Hs. destruct Hs as (k' & Hk' & Es). destruct (h_site _ _ _ Sh k' s Es) as [Ei' _]. congruence.
      + intros [(y & cl & X & Y)|(_ & X)].
        * assert (cl = a) by congruence. subst cl. exists y, a2. split; [reflexivity|]. rewrite Es2. auto.
        * destruct (Hsac j _ X) as (_ & s & Es & _). destruct (Hin s) as (k' & Ei & Ek'); [apply Hi; eauto|].
          destruct (h_site _ _ _ Sh j s Es) as [Ei' _]. assert (k' = j) by congruence. subst k'. exists (s_with_cluster (c_id a) s), a2.
          rewrite Es2. auto.
    - split; [auto|]. intros [X|[X _]]; [exact X|congruence]. }
  constructor; auto.
  - intros j Hj. destruct (A1 j Hj) as (s & Es & _). eapply ulookup_In_key; eauto.
  - intros x j. rewrite Hh. split.
    + intros (X1 & X2). split.
      * destruct (Z.eq_dec x fav) as [|Nf]; [auto|right]. rewrite Tch. tauto.
      * destruct X2 as [X2|(-> & c & X3 & X4)].
        -- apply H3 in X2. destruct X2 as [X2|(-> & X2)]; [auto|right]. split; [reflexivity|]. left. apply (Hsac _ _ X2).
        -- apply H3 in X4. destruct X4 as [X4|(-> & _)]; [|tauto]. right. split; [reflexivity|]. right. exists c. split; [apply Tch; auto|exact X4].
    + intros (X1 & X2). assert (Nx : ~ In x (ukeys cids)) by (destruct X1 as [->|X1]; [exact Nfc|rewrite Tch in X1; tauto]).
      split; [exact Nx|]. destruct X2 as [X2|(-> & [Hj|(x' & X3 & X4)])].
      * left. apply H3. auto.
      * destruct (A1 j Hj) as (s & Es & E'). destruct (Z.eq_dec (s_cluster s) unassignedId) as [Eu|Nu]; [left; apply H3; right; split; congruence|].
        pose proof (Lab j s Hj Es Nu) as Hx. destruct (Z.eq_dec (s_cluster s) fav) as [Ef|Nf]; [left; apply H3; rewrite <- Ef; auto|].
        right. split; [reflexivity|]. exists (s_cluster s). split; [apply Hc; eauto|apply H3; auto].
      * apply Tch in X3. destruct X3 as [->|X3]; [left; apply H3; auto|]. right. split; [reflexivity|]. exists x'. split; [exact X3|apply H3; auto].
  - intros j. rewrite Ss. subst g3. cbn [g_sites g_with_clusters]. rewrite (b_sites _ _ _ _ R). unfold moved.
    destruct (existsb (Z.eqb j) ids) eqn:Ej.
    + apply existsb_In in Ej. destruct (A1 j Ej) as (s & Es & E'). rewrite E'. destruct (Z.eqb_spec (s_cluster s) fav) as [Ef|]; [|reflexivity].
      cbn [negb]. rewrite Es. cbn [option_map]. f_equal. rewrite <- Ef. apply s_with_cluster_self.
    + apply existsb_notIn in Ej. rewrite (A2 j Ej). reflexivity.
  - right. split; [apply Tch; auto|]. intros x Hx. apply Tch in Hx. destruct Hx as [->|Hx]; [lia|]. apply Hc in Hx. destruct Hx as ((j & Ej) & _ & Nu).
    apply (favored_le _ _ _ Ej Nu).
  - intros j s Hj Es. destruct (Z.eq_dec (s_cluster s) unassignedId) as [|Nu]; [auto|right; auto].
  - intros x Hx. destruct (forallb (fun e => snd e =? x) sac) eqn:Ef.
    + exfalso. apply Cn. unfold count_clusters. destruct (A1 k Hk) as (s & _ & Ek). rewrite forallb_forall in Ef.
      destruct (count_keys clk sac [] (NoDup_nil _)) as [NDr Hr']. cbv zeta in *.
      set (r := fold_left (fun (s : umap unit) (e : Z * Z) => uinsert s (snd e)) sac []) in *.
      assert (Ak : forall c, In c (ukeys r) -> c = x).
      { intros c X. apply Hr' in X. destruct X as [[]|X]. apply in_map_iff in X. destruct X as (e & <- & He). apply Z.eqb_eq, Ef, He. }
      assert (Sk : In (s_cluster s) (ukeys r)) by (apply Hr'; right; apply ulookup_In in Ek; apply (in_map snd) in Ek; exact Ek).
      destruct r as [|[a0 ?] [|[b0 ?] ?]]; [destruct Sk|reflexivity|]. exfalso. cbn [ukeys map fst] in NDr, Ak.
      inversion NDr as [|? ? X _]; subst. apply X. left. rewrite (Ak a0), (Ak b0); cbn [In]; auto.
    + assert (exists e, In e sac /\ snd e <> x) as ([j c] & Hj & Nc).
      { clear - Ef. induction sac as [|[j c] l IH]; [discriminate|]. cbn [forallb snd] in Ef. destruct (Z.eqb_spec c x) as [->|Ne].
        - destruct (IH Ef) as (e & He & X). exists e. split; [right; exact He|exact X].
        - exists (j, c). split; [left; reflexivity|exact Ne]. }
      cbn [snd] in Nc. assert (Ej : ulookup j sac = Some c) by (apply In_ulookup; assumption). destruct (Hsac j c Ej) as (Hj' & s & Es & ->).
      exists j. split; [exact Hj'|]. intros (y & Hy). destruct (h_mem _ _ _ Sh _ _ _ Hy) as (s' & Es' & Nu & _). assert (s' = s) by congruence. subst s'.
      destruct (Lab j s Hj' Es Nu) as (y' & Hy'). apply Nc. apply (h_disj _ _ _ Sh _ _ _ _ _ Hy' Hy).
Qed.

(** the condition of coarse graining *)
Definition in_balance (g : world) (nonce : Z) (B : list Z) : Prop :=
  exists tc t, exit_time (g_heap g) (g_sites g) B = Ok tc /\ g_res g = Some t /\
    let cross := nmul (internal_limit nonce (g_heap g) (g_sites g) B) (nofZ 2) in
    nltb (nmul cross (g_perf g)) tc = true /\ nltb cross t = true.
Lemma balance_inv ids limit g : equilibrium ids limit g = Ret true g -> exists tc t,
  exit_time (g_heap g) (g_sites g) ids = Ok tc /\ g_res g = Some t /\
  nltb (nmul (nmul limit (nofZ 2)) (g_perf g)) tc = true /\ nltb (nmul limit (nofZ 2)) t = true.
Proof.
  unfold equilibrium. intros E. apply bind_ret_inv in E. destruct E as (x & g1 & E1 & E). inversion E1; subst x g1; clear E1.
  apply bind_ret_inv in E. destruct E as (tc & g1 & E1 & E). apply lift_ret in E1. destruct E1 as [E1 ->]. cbv zeta in E.
  destruct (nltb _ tc) eqn:El; [|discriminate]. destruct (g_res g) as [t|]; [|discriminate]. injection E as E. exists tc, t. auto.
Qed.
Lemma coarse_found fuel k g g' : shape g -> coarse_grain clk fuel k g = Ret true g' ->
  exists B c, find_basin fuel (g_tick g) (g_heap g) explorer_new (g_sites g) (g_clusters g) k = Ok B /\ made g g' k B c /\ in_balance g (g_tick g) B /\
    let g1 := g_with_tick (g_tick g + 1) g in
    ((c = g_count g /\ create_cluster clk fuel B (internal_limit (g_tick g) (g_heap g) (g_sites g) B) g1 = Ret tt g') \/
     (exists sac, NoDup (ukeys sac) /\ c = favored sac /\ count_clusters sac <> 1%nat /\
        (forall j, In j B -> exists s, ulookup j (g_sites g) = Some s /\ ulookup j sac = Some (s_cluster s)) /\
        (forall j, ~ In j B -> ulookup j sac = None) /\ merge_clusters fuel sac c g1 = Ret tt g')).
Proof.
  intros Sh E. destruct (coarse_inv clk _ _ _ _ _ Sh E) as (B & Eb & ok & Eq & H1). cbv zeta in H1, Eq.
  set (g1 := g_with_tick (g_tick g + 1) g) in *.
  destruct H1 as [[X _]|(_ & -> & sac & ND & A1 & A2 & H1)]; [discriminate|].
  destruct (balance_inv _ _ _ Eq) as (tc & t & F1 & F2 & F3 & F4).
  assert (Bal : in_balance g (g_tick g) B) by (exists tc, t; auto).
  assert (Sh1 : shape g1) by (apply (calm_shape clk g); [apply calm_tick|exact Sh]).
  destruct (basin_result _ _ _ _ _ _ _ _ (h_nds _ _ _ Sh) Eb) as [->|(NDB & HkB & HrB)].
  - exfalso. destruct H1 as [(_ & _ & X & _)|(Cn & E1)]; [congruence|].
    destruct sac as [|[j c] sac]; [|specialize (A2 j (fun x => x)); cbn [ulookup] in A2; rewrite Z.eqb_refl in A2; discriminate].
    apply (merge_mid clk) in E1; [|exact Sh1|exact ND|intros j c X; discriminate].
    destruct E1 as (? & ? & ? & ? & ? & ? & ? & _ & _ & _ & _ & _ & _ & _ & F0 & _). cbn in F0. unfold unassignedId, INT_MIN in F0. lia.
  - destruct H1 as [(Cn & A3 & _ & E1)|(Cn & E1)].
    + exists B, (g_count g). split; [exact Eb|]. split; [|split; [exact Bal|left; split; [reflexivity|exact E1]]].
      assert (X : made g1 g' k B (g_count g1)).
      { eapply create_made; eauto. intros j Hj. destruct (A1 j Hj) as (s & Es & E2). rewrite (A3 j Hj) in E2. exists s. split; [exact Es|congruence]. }
      destruct X; constructor; assumption.
    + exists B, (favored sac). split; [exact Eb|]. split; [|split; [exact Bal|right; exists sac; auto 10]].
      assert (X : made g1 g' k B (favored sac)) by (eapply merge_made; eauto).
      destruct X; constructor; assumption.
Qed.
Lemma coarse_made fuel k g g' : shape g -> coarse_grain clk fuel k g = Ret true g' ->
  exists B c, made g g' k B c /\ in_balance g (g_tick g) B /\
    let g1 := g_with_tick (g_tick g + 1) g in
    ((c = g_count g /\ create_cluster clk fuel B (internal_limit (g_tick g) (g_heap g) (g_sites g) B) g1 = Ret tt g') \/
     (exists sac, NoDup (ukeys sac) /\ c = favored sac /\ count_clusters sac <> 1%nat /\
        (forall j, In j B -> exists s, ulookup j (g_sites g) = Some s /\ ulookup j sac = Some (s_cluster s)) /\
        (forall j, ~ In j B -> ulookup j sac = None) /\ merge_clusters fuel sac c g1 = Ret tt g')).
Proof. intros Sh E. destruct (coarse_found _ _ _ _ Sh E) as (B & c & _ & X). exists B, c. exact X. Qed.

(** ** A hop *)
Lemma hop_made fuel id p g g' ws : inv g ws -> In p ws -> sys_hop clk fuel id p g = Ret tt g' ->
  exists g1 i k, inv g1 ws /\ drift g g1 /\ walker_to g p k /\
    let g2 := g_with_iter i g1 in
    ((g_sites g' = g_sites g1 /\ g_clusters g' = g_clusters g1) \/
     exists g3 B c, g' = g_with_iter 0 (g_with_thr (g_thrmin g1) g3) /\ coarse_grain clk fuel k g2 = Ret true g3 /\
       made g1 g3 k B c /\ in_balance g1 (g_tick g1) B /\
       ((c = g_count g1 /\ create_cluster clk fuel B (internal_limit (g_tick g1) (g_heap g1) (g_sites g1) B) (g_with_tick (g_tick g2 + 1) g2) = Ret tt g3) \/
        (exists sac, NoDup (ukeys sac) /\ c = favored sac /\ count_clusters sac <> 1%nat /\
          (forall j, In j B -> exists s, ulookup j (g_sites g1) = Some s /\ ulookup j sac = Some (s_cluster s)) /\
          (forall j, ~ In j B -> ulookup j sac = None) /\ merge_clusters fuel sac c (g_with_tick (g_tick g2 + 1) g2) = Ret tt g3))).
Proof.
  intros V Hp E. apply hop_inv in E. destruct E as (w & g1 & Ew & _ & _ & E1 & E2).
  destruct (move_step _ _ _ _ _ _ _ _ V Hp (ex_intro _ w (conj Ew eq_refl)) E1) as (V1 & D & _).
  exists g1, (g_iter g1 + 1), (w_pot w). split; [exact V1|]. split; [exact D|]. split; [exists w; auto|]. cbv zeta.
  apply attempt_inv in E2. destruct E2 as (_ & [(_ & ->)|[(_ & _ & ->)|(_ & _ & b & g3 & E & _ & ->)]]); [left; auto|left; auto|].
  set (g2 := g_with_iter (g_iter g1 + 1) g1) in *.
  assert (Sh2 : shape g2) by (destruct (v_shape _ _ V1); constructor; assumption).
  destruct b.
  - right. destruct (coarse_made _ _ _ _ Sh2 E) as (B & c & Md & Bal & H1). cbv zeta in H1. exists g3, B, c. split; [reflexivity|]. split; [exact E|].
    split; [destruct Md; constructor; assumption|]. split; [exact Bal|]. exact H1.
  - left. destruct (coarse_inv clk _ _ _ _ _ Sh2 E) as (B & _ & ok & _ & [[_ ->]|(X & _)]); [split; reflexivity|discriminate].
Qed.

(** ** Settings *)
Lemma hop_kept fuel id p g g' ws : inv g ws -> In p ws -> sys_hop clk fuel id p g = Ret tt g' ->
  g_heap g' = g_heap g /\ g_perf g' = g_perf g /\ g_res g' = g_res g.
Proof.
  intros V Hp E. apply hop_inv in E. destruct E as (w & g1 & Ew & _ & _ & E1 & E2).
  destruct (move_step _ _ _ _ _ _ _ _ V Hp (ex_intro _ w (conj Ew eq_refl)) E1) as (V1 & D & _).
  destruct (attempt_step _ _ _ _ _ _ V1 E2) as [_ R]. destruct (m_kept _ _ D), R. cbn in *. repeat split; congruence.
Qed.
Lemma visits_kept k v g g' : sys_getVisits k g = Ret v g' ->
  g_heap g' = g_heap g /\ g_perf g' = g_perf g /\ g_res g' = g_res g /\ g_sites g' = g_sites g.
Proof. intros E. apply getVisits_inv in E. destruct E as (s & _ & [(_ & _ & ->)|(_ & cl & cl' & v' & _ & _ & _ & ->)]); auto. Qed.
Lemma enter_drift g ws l g' ws' : inv g ws -> step clk g ws (KEnter l) g' ws' -> drift g g'.
Proof.
  intros V St. inversion St; subst. match goal with X : sys_initializeWalkers _ _ = _ |- _ => rename X into E end.
  unfold sys_initializeWalkers in E. apply bind_ret_inv in E. destruct E as (f & g1 & E1 & E). inversion E1; subst f g1; clear E1.
  destruct (g_feats g); [discriminate|]. eapply enter_all; eauto.
Qed.
Lemma leave_calm g ws p g' ws' : inv g ws -> step clk g ws (KLeave p) g' ws' -> calm g g'.
Proof. intros V St. inversion St; subst. eapply leave_step; eauto. Qed.
Lemma step_settings g ws c g' ws' : inv g ws -> step clk g ws c g' ws' ->
  (c = KRates \/ g_heap g' = g_heap g) /\
  g_perf g' = (match c with KPerf q => q | _ => g_perf g end) /\ g_res g' = (match c with KRes u => Some u | _ => g_res g end).
Proof.
  intros V S. pose proof S as S0. destruct S as [p g' E|t g' E|t g' E|s g' E|rates g' ND _ E|h|m Hm L|n t Hn|l g' H1 H2 H3 H4 H5 E|fuel id p g' Hp E|id p g' Hp E|k v g' E].
  - inversion E; subst; auto.
  - unfold sys_setTimeResolution in E. destruct (nleb t n0); [discriminate|]. inversion E; subst; auto.
  - inversion E; subst; auto.
  - unfold sys_setRandomSeed in E. apply bind_ret_inv in E. destruct E as (f & g1 & E1 & E). inversion E1; subst f g1; clear E1.
    destruct (g_feats g); [|discriminate]. inversion E; subst; auto.
  - destruct (init_all clk _ _ _ _ V ND E) as ([] & _). auto.
  - auto.
  - auto.
  - auto.
  - pose proof (enter_drift _ _ _ _ _ V S0) as D. destruct (m_kept _ _ D). auto.
  - destruct (hop_kept _ _ _ _ _ _ V Hp E) as (A & B & C). auto.
  - pose proof (leave_calm _ _ _ _ _ V S0) as D. destruct (m_kept _ _ D). auto.
  - destruct (visits_kept _ _ _ _ E) as (A & B & C & _). auto.
Qed.
Lemma settings_kept tr g ws : reach_by clk tr g ws -> g_perf g = ratio tr /\ g_res g = resolution tr.
Proof.
  intros (m & h & count & tick & ND & Hc & S).
  assert (V0 : inv (world_new m h count tick) []).
  { apply (reach_inv clk). exists [], m, h, count, tick. split; [exact ND|]. split; [exact Hc|constructor]. }
  induction S as [|tr g1 ws1 c g2 ws2 S IH St]; [split; reflexivity|]. pose proof (steps_inv clk _ _ _ _ _ V0 S) as V1.
  destruct IH as [A B]. destruct (step_settings _ _ _ _ _ V1 St) as (_ & P & R).
  unfold ratio, resolution. rewrite !fold_left_app. cbn [fold_left]. fold (ratio tr) (resolution tr). rewrite <- A, <- B. auto.
Qed.

(** ** What stays when nothing is coarse grained *)
Definition look (s : site) : umap Z * Z := (s_neigh s, s_cluster s).
Record still (g g' : world) : Prop := {
  l_heap : g_heap g' = g_heap g;
  l_nd : NoDup (ukeys (g_sites g')) <-> NoDup (ukeys (g_sites g));
  l_look : forall k, option_map look (ulookup k (g_sites g')) = option_map look (ulookup k (g_sites g));
  l_holds : same_holds g g' }.
Lemma still_same g g' : g_heap g' = g_heap g -> g_sites g' = g_sites g -> g_clusters g' = g_clusters g -> still g g'.
Proof. intros A B C. constructor; [exact A|rewrite B; tauto|rewrite B; reflexivity|apply (same_clusters clk), C]. Qed.
Lemma still_drift g g' : drift g g' -> still g g'.
Proof.
  intros D. constructor; [apply (k_heap _ _ (m_kept _ _ D))|rewrite (same_keys _ _ _ (m_sites _ _ D)); tauto| |apply drift_holds, D].
  intros k. pose proof (same_lookup _ _ _ (m_sites _ _ D) k) as E. cbn [g_sites g_with_walkers] in E.
  destruct (ulookup k (g_sites g')) as [s'|], (ulookup k (g_sites g)) as [s|]; cbn [option_map] in E |- *; try discriminate; [|reflexivity].
  assert (E' : frz_s s' = frz_s s) by congruence. destruct (frz_s_eq _ _ E') as (_ & B & _ & C & _). unfold look. congruence.
Qed.
Lemma still_trans a b c : still a b -> still b c -> still a c.
Proof.
  intros [] []. constructor; [congruence|tauto|intros k; rewrite l_look1; apply l_look0|eapply same_holds_trans; eauto].
Qed.
Definition is_rates (c : call) : bool := match c with KRates => true | _ => false end.
Lemma step_still g ws c g' ws' : inv g ws -> step clk g ws c g' ws' -> is_init c = false -> is_rates c = false -> is_hop c = false -> still g g'.
Proof.
  intros V S. pose proof S as S0. destruct S as [p g' E|t g' E|t g' E|s g' E|rates g' ND _ E|h|m Hm L|n t Hn|l g' H1 H2 H3 H4 H5 E|fuel id p g' Hp E|id p g' Hp E|k v g' E]; intros N1 N2 N3; try discriminate.
  - inversion E; subst; apply still_same; reflexivity.
  - unfold sys_setTimeResolution in E. destruct (nleb t n0); [discriminate|]. inversion E; subst; apply still_same; reflexivity.
  - inversion E; subst; apply still_same; reflexivity.
  - unfold sys_setRandomSeed in E. apply bind_ret_inv in E. destruct E as (f & g1 & E1 & E). inversion E1; subst f g1; clear E1.
    destruct (g_feats g); [|discriminate]. inversion E; subst; apply still_same; reflexivity.
  - apply still_same; reflexivity.
  - apply still_same; reflexivity.
  - apply still_drift. eapply enter_drift; eauto.
  - apply still_drift, calm_drift. eapply leave_calm; eauto.
  - destruct (visits_kept _ _ _ _ E) as (A & _ & _ & B). destruct (visits_quiet clk _ _ _ _ E) as (_ & C). constructor; [exact A|rewrite B; tauto|rewrite B; reflexivity|exact C].
Qed.
End Effect.
