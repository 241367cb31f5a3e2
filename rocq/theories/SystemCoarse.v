(** * What creating and merging clusters does to the system, for every arithmetic *)
From Coq Require Import ZArith List Bool Lia Permutation.
From Verif Require Import Base BaseProofs Num WalkerModel SiteModel SiteProofs ClusterModel ClusterFrame
  ContainerModel BasinModel SystemModel SystemSpec SystemShape SystemHop.
Import ListNotations.
Open Scope Z_scope.

Section Coarse.
Context {I : Impl} {N : Num} {G : Rng} {U : Ugly}.
Variable clk : Z -> Z.

(** ** Clusters *)
Lemma gets_ret {S A} (f : S -> A) s a s' : gets f s = Ret a s' -> a = f s /\ s' = s.
Proof. intros E; inversion E; auto. Qed.
Lemma lift_ret {S A} (r : res A) (s : S) a s' : lift r s = Ret a s' -> r = Ok a /\ s' = s.
Proof. unfold lift. destruct r; intros E; inversion E; auto. Qed.
Lemma assert_ret {S} b (s : S) a s' : cassert b s = Ret a s' -> b = true /\ s' = s.
Proof. unfold cassert. destruct b; intros E; inversion E; auto. Qed.

Ltac inv_ret E :=
  repeat match type of E with
  | bind _ _ _ = Ret _ _ =>
      let x := fresh "x" in let s := fresh "s" in let E1 := fresh "E" in
      apply bind_ret_inv in E; destruct E as (x & s & E1 & E);
      first [ apply gets_ret in E1; destruct E1; subst x s
            | apply assert_ret in E1; destruct E1 as [E1 ?]; subst s; clear x
            | apply lift_ret in E1; destruct E1 as [E1 ?]; subst s
            | (rewrite modify_eq in E1; inversion E1; subst x s; clear E1)
            | idtac ]
  end.

Lemma update_size fuel h c c' : c_update fuel h c = Ret tt c' -> (1 < length (c_sites c))%nat.
Proof.
  intros E. unfold c_update in E.
  apply bind_ret_inv in E. destruct E as (k0 & a0 & E0 & E). apply gets_ret in E0. destruct E0; subst k0 a0.
  apply bind_ret_inv in E. destruct E as (sv & a1 & E1 & E). pose proof (keeps_visitList _ _ _ _ E1) as K1.
  apply bind_ret_inv in E. destruct E as (u2 & a2 & E2 & E). pose proof (keeps_solve _ _ _ _ _ E2) as K2.
  apply bind_ret_inv in E. destruct E as (u3 & a3 & E3 & E). inversion E3 as [[X3 X3']]. clear E3.
  apply bind_ret_inv in E. destruct E as (u4 & a4 & E4 & E). inversion E4 as [[X4 X4']]. clear E4.
  apply bind_ret_inv in E. destruct E as (u5 & a5 & E5 & _).
  unfold c_calcHopOff in E5. apply bind_ret_inv in E5. destruct E5 as (u6 & a6 & E6 & E5).
  apply gets_ret in E6. destruct E6; subst u6 a6.
  apply bind_ret_inv in E5. destruct E5 as (u7 & a7 & E7 & _). apply assert_ret in E7. destruct E7 as [E7 _].
  apply Z.ltb_lt in E7. subst a4 a3. unfold c_size in E7. cbn [c_sites c_with_sumint c_with_sumoff] in E7.
  rewrite (sc_sites _ _ K2), (sc_sites _ _ K1) in E7. lia.
Qed.

Lemma addSites_inv l : forall c c', c_addSites l c = Ret tt c' ->
  exists m, c' = c_with_sites m c /\ (NoDup (ukeys (c_sites c)) ->
    NoDup (ukeys m) /\
    (forall s, In s l -> exists k, s_id s = Some k /\ ulookup k m = Some (s_with_cluster (c_id c) s)) /\
    (forall k x, ulookup k m = Some x -> ulookup k (c_sites c) = Some x \/
       exists s, In s l /\ s_id s = Some k /\ x = s_with_cluster (c_id c) s) /\
    (forall k x, ulookup k (c_sites c) = Some x -> ulookup k m = Some x)).
Proof.
  induction l as [|s l IH]; intros c c' E.
  - inversion E; subst. exists (c_sites c'). split; [destruct c'; reflexivity|]. intros ND.
    split; [exact ND|]. split; [intros s []|]. split; [auto|auto].
  - unfold c_addSites in E. cbn [mfor] in E. apply bind_ret_inv in E. destruct E as ([] & c1 & E1 & E).
    apply bind_ret_inv in E1. destruct E1 as (x1 & c2 & E1 & E1'). inversion E1'; subst c2; clear E1'.
    unfold c_addSite in E1. inv_ret E1. inversion E1; subst x1 c1; clear E1.
    apply IH in E. destruct E as (m & -> & Hm). cbn [c_sites c_with_sites c_id] in *.
    exists m. split; [destruct c; reflexivity|]. intros ND.
    destruct (Hm (uset_NoDup _ _ _ ND)) as (ND' & A1 & A2 & A3). clear Hm.
    unfold s_getId in E0. destruct (s_id s) as [i|] eqn:Ei; [|discriminate]. inversion E0; subst x; clear E0.
    apply negb_true_iff in E2. rewrite umem_false_lookup in E2.
    split; [exact ND'|]. split; [|split].
    + intros y [<-|Hy]; [|auto]. exists i. split; [exact Ei|]. apply A3. apply uset_lookup_same, ND.
    + intros k y Ey. destruct (A2 k y Ey) as [H1|(t & Ht & H1)].
      * rewrite uset_lookup in H1 by exact ND. destruct (Z.eqb_spec k i) as [->|]; [|auto].
        right. exists s. inversion H1. split; [left; reflexivity|]. auto.
      * right. exists t. split; [right; exact Ht|exact H1].
    + intros k y Ey. apply A3. rewrite uset_lookup by exact ND.
      destruct (Z.eqb_spec k i) as [->|]; [congruence|exact Ey].
Qed.

Lemma two_members (m : umap site) : NoDup (ukeys m) -> (1 < length m)%nat ->
  exists i j, i <> j /\ In i (ukeys m) /\ In j (ukeys m).
Proof.
  destruct m as [|[i x] [|[j y] m]]; simpl; try lia. intros ND _. exists i, j.
  inversion ND as [|? ? H1 H2]; subst. split; [intros ->; apply H1; left; reflexivity|]. auto.
Qed.

Lemma migrate_inv fuel h a b p : c_migrate fuel h (a, b) = Ret tt p -> NoDup (ukeys (c_sites a)) ->
  exists c0, same_core c0 (fst p) /\ c_id c0 = c_id a /\ NoDup (ukeys (c_sites c0)) /\
    (forall k m, ulookup k (c_sites a) = Some m -> ulookup k (c_sites c0) = Some m) /\
    (forall k m, ulookup k (c_sites b) = Some m -> ulookup k (c_sites a) = None -> NoDup (ukeys (c_sites b)) ->
       ulookup k (c_sites c0) = Some (s_with_cluster (c_id a) m)) /\
    (forall k m, ulookup k (c_sites c0) = Some m -> ulookup k (c_sites a) = Some m \/
       exists m0, ulookup k (c_sites b) = Some m0 /\ m = s_with_cluster (c_id a) m0).
Proof.
  intros E ND. unfold c_migrate in E.
  apply bind_ret_inv in E. destruct E as (i & p0 & E0 & E). apply gets_ret in E0. destruct E0; subst i p0. cbn [fst] in E.
  apply bind_ret_inv in E. destruct E as (u1 & p1 & E1 & E). unfold onSnd, zoom, modify in E1. inversion E1; subst u1 p1. clear E1.
  cbn [fst snd] in E.
  apply bind_ret_inv in E. destruct E as (ids & p2 & E2 & E). apply gets_ret in E2. destruct E2; subst ids p2.
  apply bind_ret_inv in E. destruct E as (vs & p3 & E3 & E). unfold onSnd, zoom in E3.
  destruct (c_visitList _ _) as [vs' b1|? ?|?] eqn:Ev; inversion E3; subst vs' p3. clear E3.
  apply keeps_visitList in Ev. cbn [fst snd] in *.
  apply bind_ret_inv in E. destruct E as (mv & p4 & E4 & E). apply gets_ret in E4. destruct E4; subst mv p4. cbn [fst snd] in E.
  apply bind_ret_inv in E. destruct E as (u5 & p5 & E5 & E). unfold onFst, zoom, modify in E5. inversion E5; subst u5 p5. clear E5.
  cbn [fst snd] in E.
  apply bind_ret_inv in E. destruct E as (u6 & p6 & E6 & E). unfold onSnd, zoom, modify in E6. inversion E6; subst u6 p6. clear E6.
  cbn [fst snd] in E.
  apply bind_ret_inv in E. destruct E as (u7 & p7 & E7 & E). unfold onFst, zoom in E7. cbn [fst snd] in E7.
  destruct (c_update _ _ _) as [u a1|? ?|?] eqn:Eu; inversion E7; subst u7 p7. clear E7. cbn [fst snd] in E.
  destruct u. apply keeps_update in Eu.
  set (c0 := c_with_sites _ a) in Eu. exists c0.
  assert (K : same_core c0 (fst p)).
  { eapply same_core_trans; [exact Eu|]. clear - E. revert E.
    set (q := (a1, c_clearMigrated b1)). change a1 with (fst q). generalize q. clear.
    induction vs as [|e vs IH]; intros q E; [inversion E; apply same_core_refl|].
    cbn [mfor] in E. apply bind_ret_inv in E. destruct E as (u & q1 & E1 & E).
    eapply same_core_trans; [|apply (IH q1 E)]. unfold onFst, zoom in E1.
    destruct (c_setVisits _ _ _) eqn:Es; inversion E1; subst. cbn [fst].
    eapply keeps_setVisits; eauto. }
  split; [exact K|]. split; [reflexivity|].
  subst c0. cbn [c_sites c_with_sites]. rewrite (sc_sites _ _ Ev). cbn [c_sites c_with_sites].
  assert (X : forall l (m0 : umap site), NoDup (ukeys m0) ->
     let r := fold_left (fun m e => if umem (fst e) m then m else uset m (fst e) (snd e))
                        (map (fun e => (fst e, s_with_cluster (c_id a) (snd e))) l) m0 in
     NoDup (ukeys r) /\ (forall k m, ulookup k m0 = Some m -> ulookup k r = Some m) /\
     (forall k m, ulookup k l = Some m -> ulookup k m0 = None -> ulookup k r = Some (s_with_cluster (c_id a) m)) /\
     (forall k m, ulookup k r = Some m -> ulookup k m0 = Some m \/ exists x, ulookup k l = Some x /\ m = s_with_cluster (c_id a) x)).
  { clear. induction l as [|[k0 x0] l IH]; intros m0 ND; cbn [map fold_left fst snd].
    - split; [exact ND|]. split; [auto|]. split; [discriminate|auto].
    - set (m1 := if umem k0 m0 then m0 else uset m0 k0 (s_with_cluster (c_id a) x0)).
      assert (ND1 : NoDup (ukeys m1)) by (subst m1; destruct (umem k0 m0); [exact ND|apply uset_NoDup, ND]).
      assert (L1 : forall k, ulookup k m1 = if (k =? k0) && negb (umem k0 m0) then Some (s_with_cluster (c_id a) x0) else ulookup k m0).
      { intros k. subst m1. destruct (umem k0 m0) eqn:Em; cbn [negb]; [rewrite andb_false_r; reflexivity|].
        rewrite uset_lookup by exact ND. rewrite andb_true_r. reflexivity. }
      destruct (IH m1 ND1) as (N1 & A1 & A2 & A3). cbv zeta in *. split; [exact N1|]. split; [|split].
      + intros k m E. apply A1. rewrite L1. destruct (Z.eqb_spec k k0) as [->|]; [|exact E].
        unfold umem. rewrite E. reflexivity.
      + intros k m E En. cbn [ulookup] in E. destruct (Z.eqb_spec k k0) as [->|Ne].
        * inversion E; subst. apply A1. rewrite L1, Z.eqb_refl. unfold umem. rewrite En. reflexivity.
        * apply A2; [exact E|]. rewrite L1. apply Z.eqb_neq in Ne. rewrite Ne. exact En.
      + intros k m E. cbn [ulookup]. destruct (A3 k m E) as [H1|(x & H1 & ->)].
        * rewrite L1 in H1. destruct (Z.eqb_spec k k0) as [->|]; [|auto].
          destruct (umem k0 m0); cbn [negb andb] in H1; [auto|]. inversion H1. right; eauto.
        * destruct (Z.eqb_spec k k0) as [->|]; [|right; eauto].
          (* a later duplicate key cannot win *)
          assert (ulookup k0 m1 <> None).
          { rewrite L1, Z.eqb_refl. unfold umem. destruct (ulookup k0 m0); cbn; congruence. }
          destruct (ulookup k0 m1) as [y|] eqn:Ey; [|congruence].
          specialize (A1 k0 y Ey). assert (y = s_with_cluster (c_id a) x) by congruence.
          rewrite L1, Z.eqb_refl in Ey. destruct (umem k0 m0) eqn:Em; cbn [negb andb] in Ey.
          -- left. congruence.
          -- right. exists x0. split; [reflexivity|]. congruence. }
  specialize (X (c_sites b) (c_sites a) ND). cbv zeta in X. destruct X as (N1 & A1 & A2 & A3).
  split; [exact N1|]. split; [exact A1|]. split; [intros k m E1 E2 _; apply A2; assumption|exact A3].
Qed.

(** ** Reading parts of coarse graining *)
Lemma clusters_of_inv ids : forall acc g sac g', shape g -> NoDup (ukeys acc) ->
  clusters_of ids acc g = Ret sac g' ->
  g' = g /\ NoDup (ukeys sac) /\
  (forall k, In k ids -> exists s, ulookup k (g_sites g) = Some s /\ ulookup k sac = Some (s_cluster s)) /\
  (forall k, ~ In k ids -> ulookup k sac = ulookup k acc).
Proof.
  induction ids as [|k ids IH]; cbn [clusters_of]; intros acc g sac g' Sh ND E.
  - inversion E; subst. split; [reflexivity|]. split; [exact ND|]. split; [intros ? []|auto].
  - apply bind_ret_inv in E. destruct E as (b & g1 & E1 & E). apply sites_read in E1.
    destruct E1 as (-> & s & Es & Eb). inversion Eb; subst b; clear Eb.
    apply bind_ret_inv in E. destruct E as (c & g2 & E2 & E).
    assert (Hc : c = s_cluster s /\ g2 = g).
    { destruct (h_site _ _ _ Sh k s Es) as [_ Hs]. unfold s_partOfCluster in E2.
      destruct (s_cluster s >? -1) eqn:Eg.
      - apply sites_read in E2. destruct E2 as (-> & s' & Es' & E2). inversion E2. rewrite Es in Es'. inversion Es'; subst. auto.
      - inversion E2; subst. split; [|reflexivity].
        destruct Hs as [->|Hs]; [reflexivity|]. rewrite Z.gtb_ltb in Eg. apply Z.ltb_ge in Eg. lia. }
    destruct Hc as [-> ->]. apply IH in E; [|exact Sh|apply uset_NoDup, ND].
    destruct E as (-> & N1 & A1 & A2). split; [reflexivity|]. split; [exact N1|]. split.
    + intros j [<-|Hj]; [|auto]. destruct (in_dec Z.eq_dec k ids) as [H1|H1]; [auto|].
      exists s. split; [exact Es|]. rewrite (A2 k H1). apply uset_lookup_same, ND.
    + intros j Hj. rewrite A2 by (intros X; apply Hj; right; exact X). apply uset_lookup_other; [exact ND|].
      intros ->. apply Hj. left; reflexivity.
Qed.

Lemma count_keys (sac : umap Z) : forall acc, NoDup (ukeys acc) ->
  let r := fold_left (fun s e => uinsert s (snd e)) sac acc in
  NoDup (ukeys r) /\ (forall c, In c (ukeys r) <-> In c (ukeys acc) \/ In c (map snd sac)).
Proof.
  induction sac as [|[k c] sac IH]; intros acc ND; cbn [fold_left map snd]; cbv zeta.
  - split; [exact ND|]. intros; simpl; tauto.
  - destruct (IH (uinsert acc c) (uinsert_NoDup _ _ ND)) as [N1 A1]. split; [exact N1|].
    intros x. rewrite A1. rewrite uinsert_In. simpl. intuition.
Qed.
Lemma count_one (sac : umap Z) k c : count_clusters sac = 1%nat -> In (k, c) sac -> forall k' c', In (k', c') sac -> c' = c.
Proof.
  unfold count_clusters. intros E H1 k' c' H2.
  destruct (count_keys sac [] (NoDup_nil _)) as [ND A]. cbv zeta in *.
  set (r := fold_left (fun (s : umap unit) (e : Z * Z) => uinsert s (snd e)) sac []) in *.
  assert (X1 : In c (ukeys r)) by (apply A; right; apply (in_map snd) in H1; exact H1).
  assert (X2 : In c' (ukeys r)) by (apply A; right; apply (in_map snd) in H2; exact H2).
  destruct r as [|[a ?] [|? ?]]; simpl in E; try discriminate. simpl in X1, X2. intuition congruence.
Qed.

(** ** The frame of coarse graining *)
Record grain (g g' : world) : Prop := {
  r_perf : g_perf g' = g_perf g; r_res : g_res g' = g_res g; r_iter : g_iter g' = g_iter g;
  r_thr : g_thr g' = g_thr g; r_thrmin : g_thrmin g' = g_thrmin g;
  r_walkers : g_walkers g' = g_walkers g; r_heap : g_heap g' = g_heap g;
  r_keys : ukeys (g_sites g') = ukeys (g_sites g);
  r_sites : forall k s', ulookup k (g_sites g') = Some s' ->
    exists s, ulookup k (g_sites g) = Some s /\ s' = s_with_cluster (s_cluster s') s;
  r_stay : forall k s s', ulookup k (g_sites g) = Some s -> s_cluster s <> unassignedId ->
    ulookup k (g_sites g') = Some s' -> s_cluster s' <> unassignedId;
  r_count : g_count g <= g_count g';
  (* members keep their counters; no member is lost; old clusters are only united *)
  r_free : forall c k m', member g' c k m' ->
    exists m, m' = s_with_cluster (s_cluster m') m /\ ((exists c0, member g c0 k m) \/
      (ulookup k (g_sites g) = Some m /\ s_cluster m = unassignedId));
  r_together : forall c, exists c', forall k m, member g c k m -> exists m', member g' c' k m';
  r_smaller : forall c c' k m m', member g c k m -> member g' c' k m' ->
    c' = c \/ (c' < c /\ In c' (ukeys (g_clusters g)));
  r_fresh : forall c, In c (ukeys (g_clusters g')) -> In c (ukeys (g_clusters g)) \/ g_count g <= c;
  r_keep : forall c k m, In c (ukeys (g_clusters g')) -> member g c k m -> exists m', member g' c k m' }.

Lemma s_with_cluster_self s : s = s_with_cluster (s_cluster s) s.
Proof. destruct s; reflexivity. Qed.
Lemma grain_occ g g' oc : grain g g' -> occ_is g oc -> occ_is g' oc.
Proof.
  intros Gr [O1 O2]. split.
  - intros k s' E Eu. destruct (r_sites _ _ Gr _ _ E) as (s & Es & Ew). rewrite Ew. cbn [s_occ s_with_cluster].
    apply (O1 k s Es). destruct (Z.eq_dec (s_cluster s) unassignedId) as [|Ne]; [assumption|].
    exfalso. apply (r_stay _ _ Gr k s s' Es Ne E Eu).
  - intros c k m' Hm. destruct (r_free _ _ Gr _ _ _ Hm) as (m & Ew & [[c0 H0]|[H0 H1]]); rewrite Ew; cbn [s_occ s_with_cluster]; eauto.
Qed.

Lemma grain_tick g n : shape g -> grain g (g_with_tick n g).
Proof.
  intros Sh. constructor; cbn; auto; try lia; try reflexivity.
  - intros k s E. exists s. split; [exact E|apply s_with_cluster_self].
  - intros k s s' E1 E2 E3. congruence.
  - intros c k m Hm. exists m. split; [apply s_with_cluster_self|]. left. exists c. exact Hm.
  - intros c. exists c. intros k m Hm. exists m. exact Hm.
  - intros c c' k m m' H1 H2. left. symmetry. apply (h_disj _ _ _ Sh _ _ _ _ _ H1 H2).
  - intros c k m _ Hm. exists m. exact Hm.
Qed.

Lemma grain_refl fav todo g : shape_while fav todo g -> grain g g.
Proof.
  intros Sh.
  constructor; auto; try lia; try reflexivity.
  - intros k s E. exists s. split; [exact E|apply s_with_cluster_self].
  - intros k s s' E1 E2 E3. congruence.
  - intros c k m Hm. exists m. split; [apply s_with_cluster_self|]. left. exists c. exact Hm.
  - intros c. exists c. intros k m Hm. exists m. exact Hm.
  - intros c c' k m m' H1 H2. left. symmetry. apply (h_disj _ _ _ Sh _ _ _ _ _ H1 H2).
  - intros c k m _ Hm. exists m. exact Hm.
Qed.
Lemma grain_trans fav todo a b c : shape_while fav todo a -> grain a b -> grain b c -> grain a c.
Proof.
  intros Sh [] []. constructor; try congruence; try lia.
  - intros k s' E. destruct (r_sites1 k s' E) as (s1 & E1 & F1). destruct (r_sites0 k s1 E1) as (s & E2 & F2).
    exists s. split; [exact E2|]. rewrite F1, F2. reflexivity.
  - intros k s s' E1 E2 E3. destruct (r_sites1 k s' E3) as (s1 & E4 & _).
    apply (r_stay1 k s1 s' E4); [|exact E3]. apply (r_stay0 k s s1 E1 E2 E4).
  - intros cc k m'' Hm. destruct (r_free1 cc k m'' Hm) as (m' & F1 & [[c0 H0]|[H0 Hu]]).
    + destruct (r_free0 c0 k m' H0) as (m & F2 & H1). exists m. split; [|exact H1]. rewrite F1, F2. reflexivity.
    + destruct (r_sites0 k m' H0) as (m & E2 & F2). exists m. split; [rewrite F1, F2; reflexivity|]. right.
      split; [exact E2|]. destruct (Z.eq_dec (s_cluster m) unassignedId) as [|Ne]; [assumption|].
      exfalso. apply (r_stay0 k m m' E2 Ne H0 Hu).
  - intros x. destruct (r_together0 x) as [y Hy]. destruct (r_together1 y) as [z Hz]. exists z.
    intros k m Hm. destruct (Hy k m Hm) as [m' Hm']. apply (Hz k m' Hm').
  - intros x z k m m'' Hm Hm''. destruct (r_together0 x) as [y Hy]. destruct (Hy k m Hm) as [m' Hm'].
    destruct (r_smaller0 _ _ _ _ _ Hm Hm') as [->|[L1 I1]], (r_smaller1 _ _ _ _ _ Hm' Hm'') as [->|[L2 I2]]; auto.
    + right. split; [exact L2|]. destruct (r_fresh0 z I2) as [|X]; [assumption|].
      exfalso. destruct Hm as (cl & Ec & _). destruct (h_cl _ _ _ Sh x cl Ec) as (_ & B & _). lia.
    + right. split; [lia|]. destruct (r_fresh0 z I2) as [|X]; [assumption|].
      exfalso. destruct Hm as (cl & Ec & _). destruct (h_cl _ _ _ Sh x cl Ec) as (_ & B & _). lia.
  - intros x Hx. destruct (r_fresh1 x Hx) as [Hy|Hy]; [auto|right; lia].
  - intros x k m Hx Hm. destruct (r_fresh1 x Hx) as [Hy|Hy].
    + destruct (r_keep0 x k m Hy Hm) as [m' Hm']. apply (r_keep1 x k m' Hx Hm').
    + exfalso. destruct Hm as (cl & Ec & _). destruct (h_cl _ _ _ Sh x cl Ec) as (_ & B & _). lia.
Qed.

(** ** The loops that relabel sites *)
(** [c] is the new cluster of the sites in [S] *)
Record relabelled (S : Z -> bool) (c : Z) (g g' : world) : Prop := {
  b_perf : g_perf g' = g_perf g; b_res : g_res g' = g_res g; b_iter : g_iter g' = g_iter g;
  b_thr : g_thr g' = g_thr g; b_thrmin : g_thrmin g' = g_thrmin g;
  b_walkers : g_walkers g' = g_walkers g; b_heap : g_heap g' = g_heap g;
  b_clusters : g_clusters g' = g_clusters g; b_count : g_count g' = g_count g;
  b_seed : g_seed g' = g_seed g; b_tick : g_tick g' = g_tick g;
  b_keys : ukeys (g_sites g') = ukeys (g_sites g);
  b_sites : forall k, ulookup k (g_sites g') =
    if S k then option_map (s_with_cluster c) (ulookup k (g_sites g)) else ulookup k (g_sites g);
  b_known : forall k, S k = true -> In k (ukeys (g_sites g));
  b_ndf : NoDup (ukeys (g_feats g)) -> NoDup (ukeys (g_feats g'));
  b_feats : NoDup (ukeys (g_feats g)) -> forall k, ulookup k (g_feats g') =
    if S k then Some (PCluster c) else ulookup k (g_feats g) }.

Lemma relabelled_refl c g : relabelled (fun _ => false) c g g.
Proof. constructor; auto; discriminate. Qed.
Lemma relabelled_ext S S' c g g' : (forall k, S k = S' k) -> relabelled S c g g' -> relabelled S' c g g'.
Proof. intros E []. constructor; auto; intros; rewrite <- ?E in *; auto. Qed.
Lemma relabel_one k c g g' g1 :
  g1 = g_with_feats (uset (g_feats g) k (PCluster c)) g \/ g1 = g ->
  in_sites (sc_setClusterId k c) g1 = Ret tt g' ->
  exists s, ulookup k (g_sites g) = Some s /\ g' = g_with_sites (ureplace k (s_with_cluster c s) (g_sites g)) g1.
Proof.
  intros H1 E. apply in_sites_ret in E. destruct E as (m & E & ->). apply at_key_ret in E.
  destruct E as [[_ E]|(v & v' & E2 & E3 & ->)]; [discriminate|]. inversion E3; subst v'. exists v.
  destruct H1 as [-> | ->]; auto.
Qed.
Lemma relabelled_step S k c g s : ulookup k (g_sites g) = Some s ->
  forall g', relabelled S c (g_with_feats (uset (g_feats g) k (PCluster c)) (g_with_sites (ureplace k (s_with_cluster c s) (g_sites g)) g)) g' ->
  relabelled (fun j => (j =? k) || S j) c g g'.
Proof.
  intros Es g' []. cbn [g_perf g_res g_iter g_thr g_thrmin g_walkers g_heap g_clusters g_count g_seed g_tick g_sites g_feats g_with_feats g_with_sites] in *.
  constructor; auto.
  - rewrite b_keys0. apply ureplace_keys.
  - intros j. rewrite b_sites0. rewrite (ureplace_lookup_some _ _ _ s) by exact Es.
    destruct (Z.eqb_spec j k) as [->|]; cbn [orb]; [|reflexivity]. rewrite Es. destruct (S k); reflexivity.
  - intros j Hj. apply orb_true_iff in Hj. destruct Hj as [Hj|Hj].
    + apply Z.eqb_eq in Hj. subst j. eapply ulookup_In_key; eauto.
    + apply b_known0 in Hj. rewrite ureplace_keys in Hj. exact Hj.
  - intros ND. apply b_ndf0. apply uset_NoDup, ND.
  - intros ND j. rewrite b_feats0 by apply uset_NoDup, ND. rewrite uset_lookup by exact ND.
    destruct (Z.eqb_spec j k) as [->|]; cbn [orb]; [|reflexivity]. destruct (S k); reflexivity.
Qed.

Lemma label_all cid ids : forall g g',
  mfor ids (fun k => in_sites (sc_setClusterId k cid) ;;
                     modify (fun g => g_with_feats (uset (g_feats g) k (PCluster cid)) g)) g = Ret tt g' ->
  relabelled (fun k => existsb (Z.eqb k) ids) cid g g'.
Proof.
  induction ids as [|k ids IH]; cbn [mfor]; intros g g' E.
  - inversion E; subst. apply relabelled_refl.
  - apply bind_ret_inv in E. destruct E as ([] & g1 & E1 & E).
    apply bind_ret_inv in E1. destruct E1 as ([] & g2 & E1 & E2). rewrite modify_eq in E2. inversion E2; subst g1.
    apply (relabel_one _ _ g) in E1; [|auto]. destruct E1 as (s & Es & ->).
    apply IH in E. cbn [existsb]. apply (relabelled_step _ _ _ _ s Es). exact E.
Qed.

Lemma copy_inv ids : forall g l g', copy_sites ids g = Ret l g' ->
  g' = g /\ (forall k, In k ids -> exists s, ulookup k (g_sites g) = Some s /\ In s l) /\
  (forall s, In s l -> exists k, In k ids /\ ulookup k (g_sites g) = Some s).
Proof.
  induction ids as [|k ids IH]; cbn [copy_sites]; intros g l g' E.
  - inversion E; subst. split; [reflexivity|]. split; [intros ? []|intros ? []].
  - apply bind_ret_inv in E. destruct E as (s & g1 & E1 & E). apply sites_read in E1.
    destruct E1 as (-> & s' & Es & E1). inversion E1; subst s'; clear E1.
    apply bind_ret_inv in E. destruct E as (l1 & g2 & E2 & E). inversion E; subst l g2; clear E.
    apply IH in E2. destruct E2 as (-> & A1 & A2). split; [reflexivity|]. split.
    + intros j [<-|Hj]; [exists s; split; [exact Es|left; reflexivity]|].
      destruct (A1 j Hj) as (x & E1 & E2). exists x. split; [exact E1|right; exact E2].
    + intros x [<-|Hx]; [exists k; split; [left; reflexivity|exact Es]|].
      destruct (A2 x Hx) as (j & E1 & E2). exists j. split; [right; exact E1|exact E2].
Qed.

(** ** Creating a cluster *)
Lemma use_seed_ret (g : world) o g' : use_seed g = Ret o g' -> exists s, g' = g_with_seed s g.
Proof.
  unfold use_seed. destruct (g_seed g); intros E; inversion E; subst; [eauto|]. exists (g_seed g'). destruct g'; reflexivity.
Qed.
Lemma new_cluster_ret (g : world) c g' : new_cluster clk g = Ret c g' ->
  exists t, c = cluster_new (g_count g) t /\ g' = g_with_count (g_count g + 1) (g_with_tick (g_tick g + 1) g).
Proof.
  unfold new_cluster. intros E. apply bind_ret_inv in E. destruct E as (t & g1 & E1 & E).
  apply read_clock_ret in E1. subst g1. apply bind_ret_inv in E. destruct E as (i & g2 & E2 & E).
  inversion E2; subst i g2. apply bind_ret_inv in E. destruct E as (u & g3 & E3 & E). inversion E3; subst u g3.
  inversion E; subst. exists t. auto.
Qed.

Lemma c_with_rng_self c : c = c_with_rng (c_rng c) c.
Proof. destruct c; reflexivity. Qed.
(** everything known about a created cluster *)
Lemma create_inv fuel ids limit g g' : create_cluster clk fuel ids limit g = Ret tt g' ->
  exists t l tres c1 c2 e g1,
    copy_sites ids g = Ret l g /\ g_res g = Some tres /\
    c_addSites l (c_with_tol (nlit 1 1000) (c_with_method ByTolerance (cluster_new (g_count g) t))) = Ret tt c1 /\
    c_update fuel (g_heap g) c1 = Ret tt c2 /\
    let r := chosen_resolution (c_tau c2) limit tres in
    let cl := c_with_rng e (c_with_inc (ndiv (c_tau c2) r) (c_with_res r c2)) in
    nleb (nofZ 2) r = true /\ umem (g_count g) (g_clusters g) = false /\
    g_clusters g1 = uset (g_clusters g) (g_count g) cl /\ g_count g1 = g_count g + 2 /\
    g_sites g1 = g_sites g /\ g_feats g1 = g_feats g /\ g_walkers g1 = g_walkers g /\ g_heap g1 = g_heap g /\
    g_perf g1 = g_perf g /\ g_res g1 = g_res g /\ g_iter g1 = g_iter g /\ g_thr g1 = g_thr g /\ g_thrmin g1 = g_thrmin g /\
    relabelled (fun k => existsb (Z.eqb k) ids) (g_count g) g1 g'.
Proof.
  unfold create_cluster. intros E. apply bind_ret_inv in E. destruct E as (c0 & g1 & E1 & E).
  apply new_cluster_ret in E1. destruct E1 as (t & -> & ->).
  set (g1 := g_with_count _ _) in E.
  apply bind_ret_inv in E. destruct E as (l & g2 & E2 & E).
  assert (E2' : copy_sites ids g = Ret l g).
  { pose proof (copy_inv _ _ _ _ E2) as (Hg & _). subst g2.
    clear -E2. revert l E2. subst g1. induction ids as [|k ids IH]; intros l E; [inversion E; reflexivity|].
    cbn [copy_sites] in *. apply bind_ret_inv in E. destruct E as (s & g2 & E1 & E). apply sites_read in E1.
    destruct E1 as (-> & s' & Es & E1). inversion E1; subst s'.
    apply bind_ret_inv in E. destruct E as (l1 & g2 & E2 & E). inversion E; subst.
    unfold bind at 1. unfold in_sites, zoom, sc_getSite, read_key. cbn [g_sites] in Es. 
    unfold g_with_count, g_with_tick in Es. cbn [g_sites] in Es. rewrite Es. cbn [lift]. rewrite eta_sites.
    unfold bind. rewrite (IH l1 E2). reflexivity. }
  pose proof (copy_inv _ _ _ _ E2) as (-> & _). clear E2.
  apply bind_ret_inv in E. destruct E as (h & g3 & E3 & E). inversion E3; subst h g3. clear E3.
  apply bind_ret_inv in E. destruct E as ([u c2] & g3 & E3 & E). apply local_ret in E3. destruct E3 as [-> E3].
  cbn [fst snd] in E3.
  apply bind_ret_inv in E3. destruct E3 as (u1 & k1 & F1 & E3). inversion F1; subst u1 k1. clear F1.
  apply bind_ret_inv in E3. destruct E3 as (u1 & k1 & F1 & E3).
  apply bind_ret_inv in F1. destruct F1 as (u2 & k2 & F2 & F1). apply assert_ret in F2. destruct F2 as [_ ->].
  inversion F1; subst u1 k1. clear F1.
  apply bind_ret_inv in E3. destruct E3 as (u1 & c1 & F1 & E3). destruct u1, u.
  apply bind_ret_inv in E. destruct E as (tr & g3 & E4 & E). inversion E4; subst tr g3. clear E4.
  change (g_res g1) with (g_res g) in E. destruct (g_res g) as [tres|] eqn:Er; [|discriminate].
  apply bind_ret_inv in E. destruct E as ([u c3] & g3 & E4 & E). apply local_ret in E4. destruct E4 as [-> E4]. cbn [fst snd] in *.
  apply bind_ret_inv in E4. destruct E4 as (u3 & k3 & F3 & E4). apply assert_ret in F3. destruct F3 as [F3 ->].
  inversion E4; subst u c3. clear E4.
  apply bind_ret_inv in E. destruct E as (seed & g3 & E4 & E). apply use_seed_ret in E4. destruct E4 as (sd & ->).
  apply bind_ret_inv in E. destruct E as ([u c4] & g3 & E4 & E). apply local_ret in E4. destruct E4 as [-> E4]. cbn [fst snd] in *.
  set (cl0 := c_with_inc _ _) in E4.
  assert (Hcl : exists e, c4 = c_with_rng e cl0).
  { destruct seed as [x|]; inversion E4; [exists (eseed x); reflexivity|]. exists (c_rng cl0). apply c_with_rng_self. }
  clear E4. destruct Hcl as [e ->].
  apply bind_ret_inv in E. destruct E as (u5 & g3 & E5 & E). apply in_clusters_ret in E5. destruct E5 as (m & E5 & ->).
  apply bind_ret_inv in E5. destruct E5 as (m0 & m1 & F5 & E5). inversion F5; subst m0 m1. clear F5.
  assert (Hid : c_id (c_with_rng e cl0) = g_count g).
  { subst cl0. cbn [c_id c_with_rng c_with_inc c_with_res]. rewrite (sc_id _ _ (keeps_update _ _ _ _ _ E3)).
    destruct (addSites_inv _ _ _ F1) as (mm & -> & _). reflexivity. }
  rewrite Hid in E5. destruct (umem (g_count g) _) eqn:Em; [discriminate|]. inversion E5; subst u5 m. clear E5.
  apply bind_ret_inv in E. destruct E as (cx & g3 & E5 & E). apply new_cluster_ret in E5. destruct E5 as (t' & -> & ->).
  cbn [c_id cluster_new] in E. apply label_all in E.
  exists t, l, tres, c1, c2, e. eexists. split; [exact E2'|]. split; [reflexivity|]. split; [exact F1|]. split; [exact E3|].
  cbv zeta. split; [exact F3|]. split; [reflexivity|].
  repeat (split; [shelve|]). exact E.
  Unshelve.
  all: try reflexivity; cbn; try lia; try congruence.
Qed.
End Coarse.
