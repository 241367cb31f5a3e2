(** * What moving a walker does to the system, for every arithmetic *)
From Coq Require Import ZArith List Bool Lia Permutation.
From Verif Require Import Base BaseProofs Num WalkerModel SiteModel SiteProofs ClusterModel ClusterFrame
  ContainerModel BasinModel SystemModel SystemSpec SystemShape.
Import ListNotations.
Open Scope Z_scope.

Section Hop.
Context {I : Impl} {N : Num} {G : Rng} {U : Ugly}.
Variable clk : Z -> Z.

(** ** What stays the same *)
(** a site without its counters and engine *)
Definition frz_s (s : site) : site := s_with_rng (eseed 0) (s_with_visits 0 (s_with_occ 0 s)).
Definition on_snd {V W} (f : V -> W) (e : Z * V) : Z * W := (fst e, f (snd e)).
(** a cluster without counters, engine and remaining dwell times *)
Definition frz_c (c : cluster) : cluster :=
  c_with_sites (map (on_snd frz_s) (c_sites c)) (c_with_rng (eseed 0) (c_with_remaining [] (c_with_occ 0 (c_with_visits 0 c)))).

Record calm (g g' : world) : Prop := {
  m_kept : kept g g';
  m_sites : map (on_snd frz_s) (g_sites g') = map (on_snd frz_s) (g_sites g);
  m_clusters : map (on_snd frz_c) (g_clusters g') = map (on_snd frz_c) (g_clusters g) }.
Lemma calm_refl g : calm g g.
Proof. constructor; [apply kept_refl| |]; reflexivity. Qed.
Lemma calm_trans a b c : calm a b -> calm b c -> calm a c.
Proof. intros [K1 S1 C1] [K2 S2 C2]. constructor; [eapply kept_trans; eauto| |]; congruence. Qed.

Lemma map_replace {V W} (f : V -> W) k (v v0 : V) m : ulookup k m = Some v0 -> f v = f v0 ->
  map (on_snd f) (ureplace k v m) = map (on_snd f) m.
Proof.
  intros E Ef. induction m as [|[k' v'] m IH]; cbn [ureplace map]; [reflexivity|].
  simpl in E. destruct (Z.eqb_spec k k') as [->|].
  - inversion E; subst. unfold on_snd at 1 3. cbn [fst snd map]. rewrite Ef. reflexivity.
  - cbn [map]. rewrite IH by exact E. reflexivity.
Qed.
Lemma map_lookup {V W} (f : V -> W) m k : ulookup k (map (on_snd f) m) = option_map f (ulookup k m).
Proof.
  induction m as [|[k' v'] m IH]; [reflexivity|]. cbn [map on_snd fst snd ulookup].
  destruct (k =? k'); [reflexivity|exact IH].
Qed.
Lemma map_keys {V W} (f : V -> W) m : ukeys (map (on_snd f) m) = ukeys m.
Proof. unfold ukeys. rewrite map_map. reflexivity. Qed.
Lemma same_lookup {V W} (f : V -> W) m m' : map (on_snd f) m' = map (on_snd f) m ->
  forall k, option_map f (ulookup k m') = option_map f (ulookup k m).
Proof. intros E k. rewrite <- !map_lookup, E. reflexivity. Qed.
Lemma same_keys {V W} (f : V -> W) m m' : map (on_snd f) m' = map (on_snd f) m -> ukeys m' = ukeys m.
Proof. intros E. rewrite <- (map_keys f m'), E. apply map_keys. Qed.
Lemma same_some {V W} (f : V -> W) m m' k v : map (on_snd f) m' = map (on_snd f) m ->
  ulookup k m = Some v -> exists v', ulookup k m' = Some v' /\ f v' = f v.
Proof.
  intros E Ek. pose proof (same_lookup f m m' E k) as L. rewrite Ek in L. simpl in L.
  destruct (ulookup k m') as [v'|]; [|discriminate]. exists v'. split; [reflexivity|]. simpl in L. congruence.
Qed.

Lemma frz_s_eq s s' : frz_s s' = frz_s s ->
  s_id s' = s_id s /\ s_cluster s' = s_cluster s /\ s_tau s' = s_tau s /\ s_neigh s' = s_neigh s /\ s_prob s' = s_prob s.
Proof. unfold frz_s. intros E. inversion E. auto. Qed.
Lemma frz_c_sites c c' : frz_c c' = frz_c c -> map (on_snd frz_s) (c_sites c') = map (on_snd frz_s) (c_sites c).
Proof. unfold frz_c. intros E. inversion E. auto. Qed.
Lemma frz_c_id c c' : frz_c c' = frz_c c -> c_id c' = c_id c.
Proof. unfold frz_c. intros E. inversion E. auto. Qed.
Lemma frz_c_like c c' : frz_c c' = frz_c c -> like c c'.
Proof.
  intros E. pose proof (frz_c_sites _ _ E) as Es. constructor.
  - apply frz_c_id, E.
  - rewrite (same_keys _ _ _ Es). auto.
  - intros k. rewrite (same_keys _ _ _ Es). tauto.
  - intros k m Em. destruct (same_some _ _ _ _ _ (eq_sym Es) Em) as (m0 & E0 & F). exists m0. split; [exact E0|].
    destruct (frz_s_eq _ _ F) as (_ & _ & _ & En & _). symmetry; exact En.
Qed.

Lemma calm_site g g' k s : calm g g' -> ulookup k (g_sites g) = Some s ->
  exists s', ulookup k (g_sites g') = Some s' /\ frz_s s' = frz_s s.
Proof. intros C. apply same_some, C. Qed.
Lemma calm_sym g g' : calm g g' -> calm g' g.
Proof. intros [[] S C]. constructor; [constructor; congruence| |]; congruence. Qed.
Lemma calm_cluster g g' c cl : calm g g' -> ulookup c (g_clusters g) = Some cl ->
  exists cl', ulookup c (g_clusters g') = Some cl' /\ frz_c cl' = frz_c cl.
Proof. intros C. apply same_some, C. Qed.
Lemma calm_member g g' c k m : calm g g' -> member g c k m ->
  exists m', member g' c k m' /\ frz_s m' = frz_s m.
Proof.
  intros C (cl & E1 & E2). destruct (calm_cluster _ _ _ _ C E1) as (cl' & E3 & F).
  destruct (same_some _ _ _ _ _ (frz_c_sites _ _ F) E2) as (m' & E4 & F'). exists m'. split; [exists cl'; auto|exact F'].
Qed.

Lemma shape_calm fav todo g g' : calm g g' -> shape_while fav todo g -> shape_while fav todo g'.
Proof.
  intros C Sh. pose proof (calm_sym _ _ C) as C'. destruct C as [[] Cs Cc]. destruct Sh.
  assert (Ks := same_keys _ _ _ Cs). assert (Kc := same_keys _ _ _ Cc).
  constructor; rewrite ?Ks, ?Kc, ?k_feats, ?k_count; auto.
  - intros k s E. destruct (calm_site _ _ _ _ C' E) as (s0 & E0 & F).
    destruct (frz_s_eq _ _ F) as (Ei & Ec & _). rewrite <- Ei, <- Ec. auto.
  - intros k. rewrite h_feat. pose proof (same_lookup _ _ _ Cs k) as L.
    destruct (ulookup k (g_sites g)) as [s|], (ulookup k (g_sites g')) as [s'|]; simpl in L; try discriminate; auto.
    assert (F : frz_s s' = frz_s s) by congruence. destruct (frz_s_eq _ _ F) as (_ & -> & _). reflexivity.
  - intros c cl E. destruct (calm_cluster _ _ _ _ C' E) as (cl0 & E0 & F).
    destruct (h_cl _ _ E0) as (E1 & E2 & E3 & i & j & E4 & E5 & E6).
    destruct (frz_c_like _ _ (eq_sym F)) as [Li Ln Lk _]. rewrite Li. split; [exact E1|]. split; [exact E2|].
    split; [auto|]. exists i, j. rewrite !Lk. auto.
  - intros c k m Hm. destruct (calm_member _ _ _ _ _ C' Hm) as (m0 & Hm0 & F).
    destruct (h_mem _ _ _ Hm0) as (s & E1 & E2 & E3).
    destruct (same_some _ _ _ _ _ Cs E1) as (s' & E1' & F'). exists s'. split; [exact E1'|].
    destruct (frz_s_eq _ _ F) as (_ & _ & _ & En & _), (frz_s_eq _ _ F') as (_ & -> & _ & -> & _).
    split; [exact E2|]. congruence.
  - intros c c' k m m' H1 H2. destruct (calm_member _ _ _ _ _ C' H1) as (? & ? & _), (calm_member _ _ _ _ _ C' H2) as (? & ? & _). eauto.
  - intros k s cl E1 E2. destruct (calm_site _ _ _ _ C' E1) as (s0 & E0 & F).
    destruct (calm_cluster _ _ _ _ C' E2) as (cl0 & E3 & F2).
    destruct (frz_s_eq _ _ F) as (_ & Ec & _). rewrite <- Ec in *.
    destruct (h_own _ _ _ E0 E3) as (c' & m & Hm & Hc).
    assert (Cf : calm g g') by (apply calm_sym, C').
    destruct (calm_member _ _ _ _ _ Cf Hm) as (m' & Hm' & _). exists c', m'. auto.
Qed.

(** ** One call through a feature pointer *)
Definition visits_of (g : world) (k : Z) : option Z := option_map s_visits (ulookup k (g_sites g)).

Lemma feature_calm {A} k (ms : M site A) (mc : M cluster A) g a g' :
  (forall s a s', ms s = Ret a s' -> frz_s s' = frz_s s) ->
  (forall c a c', (exists m, ulookup k (c_sites c) = Some m) -> mc c = Ret a c' -> frz_c c' = frz_c c) ->
  shape g -> on_feature k ms mc g = Ret a g' -> calm g g'.
Proof.
  intros Hs Hc Sh E. apply (feature_at g k Sh) in E.
  destruct E as [(s & s' & E1 & E2 & E3 & ->)|(s & cl & cl' & m & E1 & E2 & E3 & E4 & E5 & ->)].
  - constructor; [constructor; reflexivity| |reflexivity].
    cbn [g_sites g_with_sites]. apply map_replace with (v0 := s); eauto.
  - constructor; [constructor; reflexivity|reflexivity|].
    cbn [g_clusters g_with_clusters]. apply map_replace with (v0 := cl); eauto.
Qed.

Lemma calm_tick g n : calm g (g_with_tick n g).
Proof. constructor; [constructor; reflexivity| |]; reflexivity. Qed.
Lemma read_clock_ret (g : world) a g' : read_clock clk g = Ret a g' -> g' = g_with_tick (g_tick g + 1) g.
Proof. unfold read_clock, bind, next_tick, ret. intros E; inversion E; reflexivity. Qed.
Lemma occ_tick g n oc : occ_is (g_with_tick n g) oc <-> occ_is g oc.
Proof. reflexivity. Qed.

Lemma uset_old {V} (m : umap V) k v v0 : ulookup k m = Some v0 -> uset m k v = ureplace k v m.
Proof. intros E. unfold uset, umem. rewrite E. reflexivity. Qed.

(** dwell times and picks *)
Lemma dwell_s s a s' : s_getDwellTime s = Ret a s' -> s' = s_with_rng (s_rng s') s.
Proof.
  unfold s_getDwellTime, s_draw, bind, gets, ret. destruct (edraw (s_rng s)) as [u e]. intros E. inversion E. reflexivity.
Qed.
Lemma pick_s s a s' : s_pick s = Ret a s' -> s' = s_with_rng (s_rng s') s.
Proof.
  unfold s_pick, s_draw, bind, gets, ret. destruct (edraw (s_rng s)) as [u e]. intros E. inversion E. reflexivity.
Qed.
Definition rr (c c' : cluster) : Prop := c' = c_with_remaining (c_remaining c') (c_with_rng (c_rng c') c).
Lemma rr_refl c : rr c c.
Proof. destruct c; reflexivity. Qed.
Lemma rr_trans a b c : rr a b -> rr b c -> rr a c.
Proof. unfold rr. intros E1 E2. rewrite E2. rewrite E1. reflexivity. Qed.
Definition rrs {A} (m : M cluster A) : Prop := forall c a c', m c = Ret a c' -> rr c c'.
Lemma rrs_bind {A B} (m : M cluster A) (f : A -> M cluster B) : rrs m -> (forall a, rrs (f a)) -> rrs (bind m f).
Proof.
  intros Hm Hf c b c'' E. apply bind_ret_inv in E. destruct E as (a & c' & E1 & E2).
  eapply rr_trans; [apply (Hm _ _ _ E1) | apply (Hf _ _ _ _ E2)].
Qed.
Lemma rrs_ret {A} (a : A) : rrs (ret a).
Proof. intros c b c' E; inversion E; subst; apply rr_refl. Qed.
Lemma rrs_gets {A} (f : cluster -> A) : rrs (gets f).
Proof. intros c b c' E; inversion E; subst; apply rr_refl. Qed.
Lemma rrs_lift {A} (r : res A) : rrs (lift r).
Proof. intros c b c' E. unfold lift in E. destruct r; inversion E; subst; apply rr_refl. Qed.
Lemma rrs_assert b : rrs (cassert b).
Proof. unfold cassert. destruct b; [apply rrs_ret|]. intros c a c' E; discriminate. Qed.
Lemma rrs_draw : rrs c_draw.
Proof. intros c a c' E. unfold c_draw in E. destruct (edraw (c_rng c)). inversion E. unfold rr. reflexivity. Qed.
Lemma rrs_modify f : (forall c, rr c (f c)) -> rrs (modify f).
Proof. intros Hf c a c' E. inversion E; subst. apply Hf. Qed.
Lemma rrs_dwell w : rrs (c_getDwellTime w).
Proof.
  unfold c_getDwellTime.
  apply rrs_bind; [apply rrs_gets|intros c0]. apply rrs_bind; [apply rrs_assert|intros _].
  apply rrs_bind. { destruct (umem _ _); [apply rrs_ret|]. apply rrs_bind; [apply rrs_draw|intros]. apply rrs_modify. intros; reflexivity. }
  intros _. apply rrs_bind; [apply rrs_gets|intros c1]. cbv zeta. apply rrs_bind; [apply rrs_modify; intros; reflexivity|intros _].
  destruct (nltb _ _); [apply rrs_ret|]. apply rrs_bind; [apply rrs_assert|intros _; apply rrs_ret].
Qed.
Lemma rrs_pick w : rrs (c_pick w).
Proof.
  unfold c_pick. apply rrs_bind; [apply rrs_gets|intros c0]. apply rrs_bind; [apply rrs_lift|intros b].
  destruct b; unfold c_pickInternal, c_pickNeighbor; repeat (apply rrs_bind; [|intros ?]);
    first [apply rrs_draw | apply rrs_gets | apply rrs_ret | (apply rrs_modify; intros; reflexivity)].
Qed.
Lemma rr_frz c c' : rr c c' -> frz_c c' = frz_c c.
Proof. unfold rr. intros E. rewrite E. reflexivity. Qed.
Lemma rr_sites c c' : rr c c' -> c_sites c' = c_sites c.
Proof. unfold rr. intros E. rewrite E. reflexivity. Qed.

Lemma quiet_occ {A} k (ms : M site A) (mc : M cluster A) g a g' oc :
  (forall s a s', ms s = Ret a s' -> s' = s_with_rng (s_rng s') s) -> rrs mc ->
  shape g -> on_feature k ms mc g = Ret a g' -> occ_is g oc ->
  calm g g' /\ occ_is g' oc /\ (forall j, visits_of g' j = visits_of g j).
Proof.
  intros Hs Hc Sh E [O1 O2]. pose proof E as E0.
  apply feature_calm in E; [| | |exact Sh].
  2:{ intros s b s' Es. apply Hs in Es. rewrite Es. reflexivity. }
  2:{ intros c b c' _ Ec. apply rr_frz, (Hc _ _ _ Ec). }
  split; [exact E|].
  apply (feature_at g k Sh) in E0.
  destruct E0 as [(s & s' & E1 & E2 & E3 & ->)|(s & cl & cl' & m & E1 & E2 & E3 & E4 & E5 & ->)].
  - apply Hs in E3. split; [split|].
    + cbn [g_sites g_with_sites]. intros j x. rewrite (ureplace_lookup_some _ _ _ s) by exact E1.
      destruct (Z.eqb_spec j k) as [->|]; [|apply O1]. intros Ex Eu. inversion Ex; subst x.
      rewrite E3. apply (O1 k s); assumption.
    + intros c j x Hx. apply (O2 c j x). exact Hx.
    + intros j. unfold visits_of. cbn [g_sites g_with_sites]. rewrite (ureplace_lookup_some _ _ _ s) by exact E1.
      destruct (Z.eqb_spec j k) as [->|]; [|reflexivity]. rewrite E1, E3. reflexivity.
  - apply Hc, rr_sites in E5. split; [split|].
    + exact O1.
    + intros c j x Hx. apply (member_replace _ _ cl) in Hx; [|exact E3].
      destruct Hx as [[-> Hx]|[_ Hx]]; [|eauto]. rewrite E5 in Hx. apply (O2 (s_cluster s)). exists cl. auto.
    + reflexivity.
Qed.

Lemma dwell_step k w g a g' oc : shape g -> f_getDwellTime k w g = Ret a g' -> occ_is g oc ->
  calm g g' /\ occ_is g' oc /\ (forall j, visits_of g' j = visits_of g j).
Proof. intros Sh E. apply (quiet_occ _ _ _ _ _ _ _ dwell_s (rrs_dwell w) Sh E). Qed.
Lemma pick_step k w g a g' oc : shape g -> f_pick k w g = Ret a g' -> occ_is g oc ->
  calm g g' /\ occ_is g' oc /\ (forall j, visits_of g' j = visits_of g j).
Proof. intros Sh E. apply (quiet_occ _ _ _ _ _ _ _ pick_s (rrs_pick w) Sh E). Qed.

(** isOccupied *)
Lemma occupied_step k g b g' oc : shape g -> f_isOccupied k k g = Ret b g' -> occ_is g oc ->
  g' = g /\ In k (ukeys (g_sites g)) /\ b = (oc k >? 0).
Proof.
  intros Sh E [O1 O2]. apply (feature_at g k Sh) in E.
  destruct E as [(s & s' & E1 & E2 & E3 & ->)|(s & cl & cl' & m & E1 & E2 & E3 & E4 & E5 & ->)].
  - inversion E3; subst. split.
    + assert (X : ureplace k s' (g_sites g) = g_sites g).
      { clear - E1. revert E1. induction (g_sites g) as [|[k' v] l IH]; simpl; [reflexivity|].
        destruct (Z.eqb_spec k k') as [_|]; intros E; [inversion E; reflexivity|]. rewrite IH by exact E. reflexivity. }
      rewrite X. apply eta_sites.
    + split; [eapply ulookup_In_key; eauto|]. unfold s_isOccupied. rewrite (O1 k s') by assumption. reflexivity.
  - apply bind_ret_inv in E5. destruct E5 as (x & c1 & Ex & E5). inversion Ex; subst x c1.
    unfold lift, c_isOccupied in E5. rewrite E4 in E5. inversion E5; subst cl' b. split.
    + assert (X : ureplace (s_cluster s) cl (g_clusters g) = g_clusters g).
      { clear - E3. revert E3. induction (g_clusters g) as [|[k' v] l IH]; simpl; [reflexivity|].
        destruct (Z.eqb_spec (s_cluster s) k') as [_|]; intros E; [inversion E; reflexivity|]. rewrite IH by exact E. reflexivity. }
      rewrite X. apply eta_clusters.
    + split; [eapply ulookup_In_key; eauto|]. unfold s_isOccupied. rewrite (O2 (s_cluster s) k m); [reflexivity|].
      exists cl. auto.
Qed.

(** vacate *)
Lemma vacate_gen k g (mc : M cluster unit) ms g' oc t :
  (forall s a s', ms s = Ret a s' -> s' = s_with_occ (s_occ s - 1) s) ->
  (forall c a c', mc c = Ret a c' -> c' = match c_vacate t k c with Ret _ x => x | _ => c end) ->
  shape g -> on_feature k ms mc g = Ret tt g' -> occ_is g oc ->
  calm g g' /\ occ_is g' (fun j => if j =? k then oc k - 1 else oc j) /\
  (forall j, visits_of g' j = visits_of g j) /\ In k (ukeys (g_sites g)).
Proof.
  intros Hs Hc Sh E O. pose proof E as E0.
  assert (Hc' : forall c a c' m, ulookup k (c_sites c) = Some m -> mc c = Ret a c' ->
            c' = c_with_occ (c_occ c - 1) (c_with_sites (ureplace k (s_with_occ (s_occ m - 1) m) (c_sites c)) c)).
  { intros c a c' m Em Ec. apply Hc in Ec. unfold c_vacate, c_vacate0, bind, modify in Ec.
    rewrite Em in Ec. cbv zeta in Ec. rewrite (uset_old _ _ _ m Em) in Ec. exact Ec. }
  apply feature_calm in E; [| | |exact Sh].
  2:{ intros s b s' Es. apply Hs in Es. rewrite Es. reflexivity. }
  2:{ intros c b c' [m Em] Ec. apply (Hc' _ _ _ m Em) in Ec. rewrite Ec.
      unfold frz_c. cbn [c_sites c_with_occ c_with_sites].
      rewrite (map_replace frz_s k _ m) by (exact Em || reflexivity). reflexivity. }
  split; [exact E|].
  apply (feature_at g k Sh) in E0.
  destruct E0 as [(s & s' & E1 & E2 & E3 & ->)|(s & cl & cl' & m & E1 & E2 & E3 & E4 & E5 & ->)].
  - apply Hs in E3. split; [|split].
    + apply (occ_site g oc k s s'); auto; [rewrite E3; exact E2|].
      rewrite E3. cbn [s_occ s_with_occ]. f_equal. apply (proj1 O k s); assumption.
    + intros j. unfold visits_of. cbn [g_sites g_with_sites]. rewrite (ureplace_lookup_some _ _ _ s) by exact E1.
      destruct (Z.eqb_spec j k) as [->|]; [|reflexivity]. rewrite E1, E3. reflexivity.
    + eapply ulookup_In_key; eauto.
  - apply (Hc' _ _ _ m E4) in E5. split; [|split].
    + apply (occ_member g oc k s cl cl'); auto; [eapply ulookup_In_key; eauto|].
      intros j x. rewrite E5. cbn [c_sites c_with_occ c_with_sites].
      rewrite (ureplace_lookup_some _ _ _ m) by exact E4. destruct (Z.eqb_spec j k) as [->|]; [|eauto].
      intros Ex. inversion Ex; subst x. cbn [s_occ s_with_occ]. f_equal. apply (proj2 O (s_cluster s)). exists cl. auto.
    + reflexivity.
    + eapply ulookup_In_key; eauto.
Qed.

Lemma calm_shape g g' : calm g g' -> shape g -> shape g'.
Proof. apply shape_calm. Qed.

Lemma vacate_step k g g' oc : shape g -> f_vacate clk k k g = Ret tt g' -> occ_is g oc ->
  calm g g' /\ occ_is g' (fun j => if j =? k then oc k - 1 else oc j) /\
  (forall j, visits_of g' j = visits_of g j) /\ In k (ukeys (g_sites g)).
Proof.
  unfold f_vacate. intros Sh E O. apply bind_ret_inv in E. destruct E as (t & g1 & E1 & E).
  apply read_clock_ret in E1.
  assert (C1 : calm g g1) by (subst g1; apply calm_tick).
  assert (O1 : occ_is g1 oc) by (subst g1; exact O).
  apply (vacate_gen k g1 _ _ g' oc t) in E; [| | |apply (calm_shape _ _ C1 Sh)|exact O1].
  - destruct E as (C & E). split; [eapply calm_trans; eauto|]. subst g1. exact E.
  - intros s a s' Es. inversion Es. reflexivity.
  - intros c a c' Ec. rewrite Ec. reflexivity.
Qed.
Lemma remove_step k w g g' oc : shape g -> f_removeWalker clk k w k g = Ret tt g' -> occ_is g oc ->
  calm g g' /\ occ_is g' (fun j => if j =? k then oc k - 1 else oc j) /\
  (forall j, visits_of g' j = visits_of g j) /\ In k (ukeys (g_sites g)).
Proof.
  unfold f_removeWalker. intros Sh E O. apply bind_ret_inv in E. destruct E as (t & g1 & E1 & E).
  apply read_clock_ret in E1.
  assert (C1 : calm g g1) by (subst g1; apply calm_tick).
  assert (O1 : occ_is g1 oc) by (subst g1; exact O).
  apply (vacate_gen k g1 _ _ g' oc t) in E; [| | |apply (calm_shape _ _ C1 Sh)|exact O1].
  - destruct E as (C & E). split; [eapply calm_trans; eauto|]. subst g1. exact E.
  - intros s a s' Es. inversion Es. reflexivity.
  - intros c a c' Ec. unfold c_removeWalker in Ec. rewrite Ec. reflexivity.
Qed.

(** occupy a free site *)
Definition free_in (g : world) (k : Z) : bool :=
  match ulookup k (g_sites g) with Some s => s_cluster s =? unassignedId | None => false end.

Lemma occupy_step k g g' oc : shape g -> f_occupy k k g = Ret tt g' -> occ_is g oc -> oc k = 0 ->
  calm g g' /\ occ_is g' (fun j => if j =? k then 1 else oc j) /\
  (forall j, visits_of g' j = option_map (Z.add (Z.b2z ((j =? k) && free_in g k))) (visits_of g j)) /\
  In k (ukeys (g_sites g)).
Proof.
  unfold f_occupy. intros Sh E O Ok. pose proof E as E0.
  assert (Hc' : forall c a c' m, ulookup k (c_sites c) = Some m -> c_occupy k c = Ret a c' ->
            c' = c_with_sites (ureplace k (s_with_occ 1 m) (c_sites c)) (c_with_visits (c_visits c + 1) c)).
  { intros c a c' m Em Ec. unfold c_occupy in Ec. apply bind_ret_inv in Ec. destruct Ec as (x & c1 & Ex & Ec).
    inversion Ex; subst x c1. apply bind_ret_inv in Ec. destruct Ec as (x & c1 & Ex1 & Ec).
    unfold cassert in Ex1. destruct (umem _ _); [|discriminate]. inversion Ex1; subst x c1.
    rewrite Em in Ec. inversion Ec. rewrite (uset_old _ _ _ m Em). reflexivity. }
  apply feature_calm in E; [| | |exact Sh].
  2:{ intros s b s' Es. inversion Es. reflexivity. }
  2:{ intros c b c' [m Em] Ec. apply (Hc' _ _ _ m Em) in Ec. rewrite Ec.
      unfold frz_c. cbn [c_sites c_with_visits c_with_sites].
      rewrite (map_replace frz_s k _ m) by (exact Em || reflexivity). reflexivity. }
  split; [exact E|].
  apply (feature_at g k Sh) in E0.
  destruct E0 as [(s & s' & E1 & E2 & E3 & ->)|(s & cl & cl' & m & E1 & E2 & E3 & E4 & E5 & ->)].
  - inversion E3 as [E3']; subst s'. split; [|split].
    + apply (occ_site g oc k s); auto.
      cbn [s_occ s_with_occ s_with_visits]. rewrite (proj1 O k s) by assumption. rewrite Ok. reflexivity.
    + intros j. unfold visits_of, free_in. cbn [g_sites g_with_sites]. rewrite (ureplace_lookup_some _ _ _ s) by exact E1.
      rewrite E1. destruct (Z.eqb_spec j k) as [->|].
      * rewrite E1, E2, Z.eqb_refl. cbn [andb Z.b2z option_map s_visits s_with_visits]. f_equal. lia.
      * cbn [andb Z.b2z]. destruct (ulookup j (g_sites g)); reflexivity.
    + eapply ulookup_In_key; eauto.
  - apply (Hc' _ _ _ m E4) in E5. split; [|split].
    + apply (occ_member g oc k s cl cl'); auto; [eapply ulookup_In_key; eauto|].
      intros j x. rewrite E5. cbn [c_sites c_with_visits c_with_sites].
      rewrite (ureplace_lookup_some _ _ _ m) by exact E4. destruct (Z.eqb_spec j k) as [->|]; [|eauto].
      intros Ex. inversion Ex; subst x. reflexivity.
    + intros j. unfold free_in. rewrite E1. apply Z.eqb_neq in E2. rewrite E2, andb_false_r.
      unfold visits_of. cbn [g_sites g_with_clusters Z.b2z]. destruct (ulookup j (g_sites g)); reflexivity.
    + eapply ulookup_In_key; eauto.
Qed.

(** occupy() of initializeWalkers on a free, unclustered site *)
Lemma occupy0_step k g g' oc s : shape g -> f_occupy0 k g = Ret tt g' -> occ_is g oc -> oc k = 0 ->
  ulookup k (g_sites g) = Some s -> s_cluster s = unassignedId ->
  calm g g' /\ occ_is g' (fun j => if j =? k then 1 else oc j).
Proof.
  unfold f_occupy0. intros Sh E O Ok Es Eu.
  apply (feature_at g k Sh) in E.
  destruct E as [(s1 & s' & E1 & E2 & E3 & ->)|(s1 & cl & cl' & m & E1 & E2 & E3 & E4 & E5 & ->)].
  - inversion E3 as [E3']; subst s'. split.
    + constructor; [constructor; reflexivity| |reflexivity]. cbn [g_sites g_with_sites].
      apply map_replace with (v0 := s1); [exact E1|reflexivity].
    + apply (occ_site g oc k s1); auto.
      cbn [s_occ s_with_occ s_with_visits]. rewrite (proj1 O k s1) by assumption. rewrite Ok. reflexivity.
  - congruence.
Qed.
End Hop.
