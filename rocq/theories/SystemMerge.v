(** * Creating and merging clusters keeps the invariant, for every arithmetic *)
From Coq Require Import ZArith List Bool Lia Permutation.
From Verif Require Import Base BaseProofs Num WalkerModel SiteModel SiteProofs ClusterModel ClusterFrame
  ContainerModel ContainerSpec BasinModel SystemModel SystemSpec SystemShape SystemHop SystemCoarse.
Import ListNotations.
Open Scope Z_scope.

Section Merge.
Context {I : Impl} {N : Num} {G : Rng} {U : Ugly}.
Variable clk : Z -> Z.

Lemma existsb_In (k : Z) l : existsb (Z.eqb k) l = true <-> In k l.
Proof.
  rewrite existsb_exists. split; [intros (x & Hx & E); apply Z.eqb_eq in E; subst; exact Hx|].
  intros Hk. exists k. split; [exact Hk|apply Z.eqb_refl].
Qed.
Lemma existsb_notIn (k : Z) l : existsb (Z.eqb k) l = false <-> ~ In k l.
Proof. rewrite <- existsb_In. destruct (existsb _ _); split; congruence. Qed.

(** ** Creating *)
Lemma create_shape fuel ids limit g g' : shape g ->
  (forall k, In k ids -> exists s, ulookup k (g_sites g) = Some s /\ s_cluster s = unassignedId) ->
  create_cluster clk fuel ids limit g = Ret tt g' -> shape g' /\ grain g g'.
Proof.
  intros Sh Hids E. apply create_inv in E.
  destruct E as (t & l & tres & c1 & c2 & e & g1 & El & Er & Ea & Eu & E). cbv zeta in E.
  set (cl := c_with_rng e _) in E.
  destruct E as (_ & Em & Ec1 & En1 & Es1 & Ef1 & Ew1 & Eh1 & Ep1 & Er1 & Ei1 & Et1 & Etm1 & Lb).
  pose proof (update_size _ _ _ _ Eu) as Sz. pose proof (keeps_update _ _ _ _ _ Eu) as Ku.
  destruct (addSites_inv _ _ _ Ea) as (m & Ec & Hm). cbn [c_sites c_with_tol c_with_method cluster_new c_id] in Hm.
  specialize (Hm (NoDup_nil _)). destruct Hm as (NDm & Hin & Hout & _).
  assert (Ecl : c_sites cl = m).
  { subst cl. cbn [c_sites c_with_rng c_with_inc c_with_res]. rewrite (sc_sites _ _ Ku), Ec. reflexivity. }
  assert (Eid : c_id cl = g_count g).
  { subst cl. cbn [c_id c_with_rng c_with_inc c_with_res]. rewrite (sc_id _ _ Ku), Ec. reflexivity. }
  rewrite Ec in Sz. cbn [c_sites c_with_sites] in Sz.
  destruct (copy_inv _ _ _ _ El) as (_ & L1 & L2).
  set (cid := g_count g) in *.
  assert (C0 : 0 <= cid) by apply (h_cnt _ _ _ Sh).
  assert (M1 : forall k x, ulookup k m = Some x -> In k ids /\ exists s, ulookup k (g_sites g) = Some s /\ x = s_with_cluster cid s).
  { intros k x Ex. destruct (Hout k x Ex) as [Hx|(s & Hs & Ei & ->)]; [discriminate|].
    destruct (L2 s Hs) as (k' & Hk' & Es). destruct (h_site _ _ _ Sh k' s Es) as [Ei' _].
    assert (k' = k) by congruence. subst k'. split; [exact Hk'|]. exists s. auto. }
  assert (M2 : forall k, In k ids -> exists s, ulookup k (g_sites g) = Some s /\ ulookup k m = Some (s_with_cluster cid s)).
  { intros k Hk. destruct (L1 k Hk) as (s & Es & Hs). exists s. split; [exact Es|].
    destruct (Hin s Hs) as (k' & Ei & Ek). destruct (h_site _ _ _ Sh k s Es) as [Ei' _]. congruence. }
  assert (Lc : forall c, ulookup c (g_clusters g') = if c =? cid then Some cl else ulookup c (g_clusters g)).
  { intros c. rewrite (b_clusters _ _ _ _ Lb), Ec1. apply uset_lookup. apply (h_ndc _ _ _ Sh). }
  assert (Ncid : ulookup cid (g_clusters g) = None) by (apply umem_false_lookup; exact Em).
  assert (Mb : forall c k x, member g' c k x <-> (c = cid /\ ulookup k m = Some x) \/ (c <> cid /\ member g c k x)).
  { intros c k x. unfold member. rewrite Lc. destruct (Z.eqb_spec c cid) as [->|Ne].
    - split; [intros (y & E1 & E2); inversion E1; subst y; rewrite Ecl in E2; auto|].
      intros [[_ E2]|[E2 _]]; [exists cl; rewrite Ecl; auto|congruence].
    - split; [auto|]. intros [[E1 _]|[_ E1]]; [congruence|exact E1]. }
  assert (Ls : forall k, ulookup k (g_sites g') = if existsb (Z.eqb k) ids then option_map (s_with_cluster cid) (ulookup k (g_sites g)) else ulookup k (g_sites g)).
  { intros k. rewrite (b_sites _ _ _ _ Lb), Es1. reflexivity. }
  assert (Uc : cid <> unassignedId) by (unfold unassignedId, INT_MIN; lia).
  assert (Mnew : forall c k x, member g c k x -> c <> cid /\ ~ In k ids).
  { intros c k x Hx. split.
    - intros ->. destruct Hx as (y & Ey & _). congruence.
    - intros Hk. destruct (Hids k Hk) as (s & Es & Eus). destruct (h_mem _ _ _ Sh _ _ _ Hx) as (s' & Es' & Hn & _). congruence. }
  assert (Cnt : g_count g' = cid + 2) by (rewrite (b_count _ _ _ _ Lb); exact En1).
  split.
  - constructor.
    + rewrite (b_keys _ _ _ _ Lb), Es1. apply Sh.
    + rewrite (b_clusters _ _ _ _ Lb), Ec1. apply uset_NoDup, Sh.
    + apply (b_ndf _ _ _ _ Lb). rewrite Ef1. apply Sh.
    + rewrite Cnt. lia.
    + intros k s'. rewrite Ls, Cnt. destruct (existsb (Z.eqb k) ids).
      * destruct (ulookup k (g_sites g)) as [s|] eqn:Es; [|discriminate]. cbn [option_map]. intros E'; inversion E'.
        cbn [s_id s_cluster s_with_cluster]. split; [apply (h_site _ _ _ Sh k s Es)|right; lia].
      * intros Es. destruct (h_site _ _ _ Sh k s' Es) as [H1 H2]. split; [exact H1|].
        destruct H2 as [H2|H2]; [auto|right; fold cid in H2; lia].
    + intros k. rewrite (b_feats _ _ _ _ Lb) by (rewrite Ef1; apply Sh). rewrite Ef1, Ls, (h_feat _ _ _ Sh k).
      destruct (existsb (Z.eqb k) ids) eqn:Ek; [|reflexivity]. apply existsb_In in Ek. destruct (M2 k Ek) as (s & Es & _).
      rewrite Es. cbn [option_map s_cluster s_with_cluster]. apply Z.eqb_neq in Uc. rewrite Uc. reflexivity.
    + intros c x. rewrite Lc, Cnt. destruct (Z.eqb_spec c cid) as [->|Ne]; intros Ex.
      * inversion Ex; subst x. split; [exact Eid|]. split; [lia|]. rewrite Ecl. split; [exact NDm|].
        apply two_members; [exact NDm|exact Sz].
      * destruct (h_cl _ _ _ Sh c x Ex) as (X1 & X2 & X3). split; [exact X1|]. split; [fold cid in X2; lia|exact X3].
    + intros c k x Hx. apply Mb in Hx. destruct Hx as [[-> Hx]|[Ne Hx]].
      * destruct (M1 k x Hx) as (Hk & s & Es & ->). exists (s_with_cluster cid s). rewrite Ls. apply existsb_In in Hk.
        rewrite Hk, Es. split; [reflexivity|]. split; [exact Uc|reflexivity].
      * destruct (Mnew _ _ _ Hx) as [_ Hk]. apply existsb_notIn in Hk. rewrite Ls, Hk. apply (h_mem _ _ _ Sh _ _ _ Hx).
    + intros c c' k x x' H1 H2. apply Mb in H1, H2.
      destruct H1 as [[-> H1]|[N1 H1]], H2 as [[-> H2]|[N2 H2]]; [reflexivity| | |apply (h_disj _ _ _ Sh _ _ _ _ _ H1 H2)].
      * exfalso. apply (proj2 (Mnew _ _ _ H2)). apply (M1 _ _ H1).
      * exfalso. apply (proj2 (Mnew _ _ _ H1)). apply (M1 _ _ H2).
    + intros k s' x. rewrite Ls. destruct (existsb (Z.eqb k) ids) eqn:Ek; intros Es Ex.
      * apply existsb_In in Ek. destruct (M2 k Ek) as (s & Es' & Hk). rewrite Es' in Es. inversion Es; subst s'.
        cbn [s_cluster s_with_cluster] in *. exists cid, (s_with_cluster cid s). split; [apply Mb; auto|auto].
      * assert (Ne : s_cluster s' <> cid).
        { destruct (h_site _ _ _ Sh k s' Es) as [_ [->|Hb]]; [auto|fold cid in Hb; lia]. }
        rewrite Lc in Ex. apply Z.eqb_neq in Ne. rewrite Ne in Ex.
        destruct (h_own _ _ _ Sh k s' x Es Ex) as (c' & y & Hy & [->|[_ []]]).
        exists (s_cluster s'), y. split; [|auto]. apply Mb. right. split; [apply Z.eqb_neq; exact Ne|exact Hy].
  - constructor; rewrite ?(b_perf _ _ _ _ Lb), ?(b_res _ _ _ _ Lb), ?(b_iter _ _ _ _ Lb), ?(b_thr _ _ _ _ Lb), ?(b_thrmin _ _ _ _ Lb), ?(b_walkers _ _ _ _ Lb), ?(b_heap _ _ _ _ Lb), ?(b_keys _ _ _ _ Lb), ?Es1; auto.
    + intros k s'. rewrite Ls. destruct (existsb (Z.eqb k) ids).
      * destruct (ulookup k (g_sites g)) as [s|]; [|discriminate]. intros E'; inversion E'. exists s. auto.
      * intros Es. exists s'. split; [exact Es|apply s_with_cluster_self].
    + intros k s s' Es Hn. rewrite Ls. destruct (existsb (Z.eqb k) ids); rewrite Es; intros E'; inversion E'; [exact Uc|congruence].
    + rewrite Cnt. fold cid. lia.
    + intros c k x Hx. apply Mb in Hx. destruct Hx as [[-> Hx]|[Ne Hx]].
      * destruct (M1 k x Hx) as (Hk & s & Es & ->). exists s. split; [reflexivity|]. right. split; [exact Es|].
        destruct (Hids k Hk) as (s' & Es' & Hu). congruence.
      * exists x. split; [apply s_with_cluster_self|]. left. exists c. exact Hx.
    + intros c. exists c. intros k x Hx. exists x. apply Mb. right. split; [apply (Mnew _ _ _ Hx)|exact Hx].
    + intros c c' k x x' H1 H2. apply Mb in H2. destruct H2 as [[-> H2]|[_ H2]].
      * exfalso. apply (proj2 (Mnew _ _ _ H1)). apply (M1 _ _ H2).
      * left. apply (h_disj _ _ _ Sh _ _ _ _ _ H2 H1).
    + intros c. rewrite (b_clusters _ _ _ _ Lb), Ec1. rewrite uset_keys_In. fold cid. intuition lia.
    + intros c k x _ Hx. exists x. apply Mb. right. split; [apply (Mnew _ _ _ Hx)|exact Hx].
Qed.

(** ** Merging: the first loop *)
Definition moved (fav : Z) (sac : umap Z) (k : Z) : bool :=
  match ulookup k sac with Some c => negb (c =? fav) | None => false end.

Lemma scan_inv fav sac : fav <> unassignedId -> forall iso cids g x g', NoDup (ukeys sac) -> NoDup (ukeys cids) ->
  merge_scan fav sac iso cids g = Ret x g' ->
  relabelled (moved fav sac) fav g g' /\
  (forall s, In s (fst x) <-> In s iso \/ exists k, In (k, unassignedId) sac /\ ulookup k (g_sites g) = Some s) /\
  (forall c, In c (ukeys (snd x)) <-> In c (ukeys cids) \/ (exists k, In (k, c) sac) /\ c <> fav /\ c <> unassignedId) /\
  NoDup (ukeys (snd x)).
Proof.
  intros Fu. induction sac as [|[k c] sac IH]; intros iso cids g x g' ND NDc E.
  - inversion E; subst. split; [apply (relabelled_ext (fun _ => false)); [reflexivity|apply relabelled_refl]|].
    cbn [fst snd]. split; [|split; [|exact NDc]]; intros; (split; [auto|]); intros [?|X]; auto.
    + destruct X as (? & [] & _).
    + destruct X as ((? & []) & _).
  - cbn [merge_scan] in E. inversion ND as [|? ? Nk ND']; subst. cbn [fst] in Nk.
    assert (Nl : ulookup k sac = None) by (apply ulookup_None; exact Nk).
    destruct (Z.eqb_spec c fav) as [->|Ne].
    + destruct (IH _ _ _ _ _ ND' NDc E) as (R & A1 & A2 & A3). split; [|split; [|split; [|exact A3]]].
      * eapply relabelled_ext; [|exact R]. intros j. unfold moved. cbn [ulookup].
        destruct (Z.eqb_spec j k) as [->|]; [|reflexivity]. rewrite Nl, Z.eqb_refl. reflexivity.
      * intros s. rewrite A1. split; (intros [?|(j & Hj & Es)]; [auto|right; exists j; split; [|exact Es]]).
        -- right; exact Hj.
        -- destruct Hj as [Hj|Hj]; [inversion Hj; congruence|exact Hj].
      * intros z. rewrite A2. split; (intros [?|((j & Hj) & Hz)]; [auto|right; split; [exists j|exact Hz]]).
        -- right; exact Hj.
        -- destruct Hj as [Hj|Hj]; [inversion Hj; subst; tauto|exact Hj].
    + apply bind_ret_inv in E. destruct E as (iso' & g1 & E1 & E).
      assert (Hi : g1 = g /\ ((c = unassignedId /\ exists s, ulookup k (g_sites g) = Some s /\ iso' = iso ++ [s]) \/
                    (c <> unassignedId /\ iso' = iso))).
      { destruct (Z.eqb_spec c unassignedId) as [->|Nu].
        - apply bind_ret_inv in E1. destruct E1 as (s & g2 & E1 & E2). apply sites_read in E1.
          destruct E1 as (-> & s' & Es & E1). inversion E1; subst s'. inversion E2; subst. split; [reflexivity|].
          left. split; [reflexivity|]. exists s. auto.
        - inversion E1; subst. auto. }
      destruct Hi as [-> Hi]. clear E1.
      apply bind_ret_inv in E. destruct E as (fc & g1 & E1 & E). apply clusters_read in E1. destruct E1 as (-> & _).
      apply bind_ret_inv in E. destruct E as (u & g1 & E1 & E). inversion E1; subst u g1; clear E1.
      apply bind_ret_inv in E. destruct E as ([] & g1 & E1 & E).
      apply (relabel_one _ _ g) in E1; [|auto]. destruct E1 as (s & Es & ->).
      assert (NDc' : NoDup (ukeys (if c =? unassignedId then cids else uinsert cids c)))
        by (destruct (c =? unassignedId); [exact NDc|apply uinsert_NoDup, NDc]).
      destruct (IH _ _ _ _ _ ND' NDc' E) as (R & A1 & A2 & A3). clear E.
      assert (Lk : forall j, In j (ukeys sac) -> ulookup j (ureplace k (s_with_cluster fav s) (g_sites g)) = ulookup j (g_sites g)).
      { intros j Hj. rewrite (ureplace_lookup_some _ _ _ s) by exact Es. destruct (Z.eqb_spec j k) as [->|]; [contradiction|reflexivity]. }
      split; [|split; [|split; [|exact A3]]].
      * eapply relabelled_ext; [|apply (relabelled_step _ _ _ _ s Es _ R)].
        intros j. unfold moved. cbn [ulookup]. destruct (Z.eqb_spec j k) as [->|]; cbn [orb]; [|reflexivity].
        apply Z.eqb_neq in Ne. rewrite Ne. reflexivity.
      * intros y. rewrite A1. cbn [g_sites g_with_sites g_with_feats]. split.
        -- intros [Hy|(j & Hj & Ey)].
           ++ destruct Hi as [(-> & s0 & Es0 & ->)|(_ & ->)]; [|auto]. apply in_app_or in Hy. destruct Hy as [|[<-|[]]]; [auto|].
              right. exists k. split; [left; reflexivity|exact Es0].
           ++ right. exists j. rewrite Lk in Ey by (apply (in_map fst) in Hj; exact Hj). split; [right; exact Hj|exact Ey].
        -- intros [Hy|(j & [Hj|Hj] & Ey)].
           ++ left. destruct Hi as [(_ & s0 & _ & ->)|(_ & ->)]; [apply in_or_app; left; exact Hy|exact Hy].
           ++ inversion Hj; subst. destruct Hi as [(_ & s0 & Es0 & ->)|(Hx & _)]; [|congruence].
              left. apply in_or_app. right. left. congruence.
           ++ right. exists j. rewrite Lk by (apply (in_map fst) in Hj; exact Hj). auto.
      * intros z. rewrite A2. destruct (Z.eqb_spec c unassignedId) as [->|Nu].
        -- split; (intros [?|((j & Hj) & Hz)]; [auto|right; split; [exists j|exact Hz]]).
           ++ right; exact Hj.
           ++ destruct Hj as [Hj|Hj]; [inversion Hj; subst; tauto|exact Hj].
        -- rewrite uinsert_In. split.
           ++ intros [[->|?]|((j & Hj) & Hz)]; [right|auto|right; split; [exists j; right; exact Hj|exact Hz]].
              split; [exists k; left; reflexivity|auto].
           ++ intros [?|((j & [Hj|Hj]) & Hz)]; [auto|left; left; congruence|right; split; [exists j; exact Hj|exact Hz]].
Qed.

(** ** Merging: the last loop *)
Lemma absorb_inv fuel fav c g g' : fav <> c -> NoDup (ukeys (g_clusters g)) ->
  absorb fuel fav c g = Ret tt g' ->
  exists a b p, ulookup fav (g_clusters g) = Some a /\ ulookup c (g_clusters g) = Some b /\
    c_migrate fuel (g_heap g) (a, b) = Ret tt p /\
    (exists m, g' = g_with_clusters m g /\ NoDup (ukeys m) /\
       forall x, ulookup x m = if x =? c then None else if x =? fav then Some (fst p) else ulookup x (g_clusters g)).
Proof.
  intros Ne ND E. unfold absorb in E.
  apply bind_ret_inv in E. destruct E as (a & g1 & E1 & E). apply clusters_read in E1. destruct E1 as (-> & a' & Ea & E1). inversion E1; subst a'; clear E1.
  apply bind_ret_inv in E. destruct E as (b & g1 & E1 & E). apply clusters_read in E1. destruct E1 as (-> & b' & Eb & E1). inversion E1; subst b'; clear E1.
  apply bind_ret_inv in E. destruct E as (h & g1 & E1 & E). inversion E1; subst h g1; clear E1.
  apply bind_ret_inv in E. destruct E as ([u p] & g1 & E1 & E). apply local_ret in E1. destruct E1 as (-> & Em). cbn [fst snd] in *. destruct u.
  apply bind_ret_inv in E. destruct E as (u & g1 & E1 & E). apply in_clusters_ret in E1. destruct E1 as (m1 & E1 & ->). inversion E1; subst u m1; clear E1.
  apply bind_ret_inv in E. destruct E as (u & g1 & E1 & E). apply in_clusters_ret in E1. destruct E1 as (m1 & E1 & ->). inversion E1; subst u m1; clear E1.
  apply in_clusters_ret in E. destruct E as (m1 & E1 & ->). inversion E1; subst m1; clear E1.
  exists a, b, p. split; [exact Ea|]. split; [exact Eb|]. split; [exact Em|].
  eexists. split; [reflexivity|]. cbn [g_clusters g_with_clusters].
  assert (N2 : NoDup (ukeys (ureplace c (snd p) (ureplace fav (fst p) (g_clusters g))))) by (rewrite !ureplace_keys; exact ND).
  split; [apply uremove_NoDup, N2|]. intros x. rewrite uremove_lookup by exact N2.
  destruct (Z.eqb_spec x c) as [->|Nx]; [reflexivity|].
  rewrite ureplace_lookup. apply Z.eqb_neq in Nx. rewrite Nx. cbn [andb].
  rewrite (ureplace_lookup_some _ _ _ a) by exact Ea. reflexivity.
Qed.

Lemma absorb_shape fuel fav c todo g g' : fav < c -> ~ In c todo -> shape_while fav (c :: todo) g ->
  absorb fuel fav c g = Ret tt g' -> shape_while fav todo g' /\ grain g g' /\
  (forall x, In x (ukeys (g_clusters g')) -> In x (ukeys (g_clusters g))) /\
  (forall k x m, member g x k m -> exists m', member g' (if x =? c then fav else x) k m').
Proof.
  intros Lt Nt Sh E. assert (Ne : fav <> c) by lia. apply absorb_inv in E; [|exact Ne|apply Sh].
  destruct E as (a & b & p & Ea & Eb & Em & m & -> & NDm & L).
  destruct (h_cl _ _ _ Sh fav a Ea) as (Ia & Ra & NDa & ia & ja & Nij & Hia & Hja).
  destruct (h_cl _ _ _ Sh c b Eb) as (Ib & Rb & NDb & _).
  destruct (migrate_inv _ _ _ _ _ Em NDa) as (c0 & K & Ic & ND0 & A1 & A2 & A3).
  rewrite Ia in *.
  assert (Es0 := sc_sites _ _ K).
  assert (Mb : forall x k y, member (g_with_clusters m g) x k y <->
             (x = fav /\ ulookup k (c_sites c0) = Some y) \/ (x <> fav /\ x <> c /\ member g x k y)).
  { intros x k y. unfold member. cbn [g_clusters g_with_clusters]. rewrite L.
    destruct (Z.eqb_spec x c) as [->|Nx].
    - split; [intros (z & Ez & _); discriminate|]. intros [[X _]|(_ & X & _)]; congruence.
    - destruct (Z.eqb_spec x fav) as [->|Nf].
      + split; [intros (z & Ez & Ey); inversion Ez; subst z; rewrite Es0 in Ey; auto|].
        intros [[_ X]|(X & _)]; [|congruence]. exists (fst p). rewrite Es0. auto.
      + split; [auto|]. intros [[X _]|(_ & _ & X)]; [congruence|exact X]. }
  assert (Mback : forall x k y, member (g_with_clusters m g) x k y ->
            exists x0 y0, member g x0 k y0 /\ y = s_with_cluster (s_cluster y) y0 /\ (x0 = x \/ (x = fav /\ x0 = c))).
  { intros x k y Hy. apply Mb in Hy. destruct Hy as [[-> Hy]|(_ & _ & Hy)].
    - destruct (A3 k y Hy) as [H1|(y0 & H1 & ->)].
      + exists fav, y. split; [exists a; auto|]. split; [apply s_with_cluster_self|auto].
      + exists c, y0. split; [exists b; auto|]. auto.
    - exists x, y. split; [exact Hy|]. split; [apply s_with_cluster_self|auto]. }
  assert (Mfwd : forall x k y, member g x k y -> exists y', member (g_with_clusters m g) (if x =? c then fav else x) k y').
  { intros x k y (z & Ez & Ey). destruct (Z.eqb_spec x c) as [->|Nx].
    - assert (z = b) by congruence. subst z.
      destruct (ulookup k (c_sites a)) as [y1|] eqn:Ek.
      + exists y1. apply Mb. left. auto.
      + exists (s_with_cluster fav y). apply Mb. left. auto.
    - destruct (Z.eq_dec x fav) as [->|Nf].
      + assert (z = a) by congruence. subst z. exists y. apply Mb. left. auto.
      + exists y. apply Mb. right. split; [exact Nf|]. split; [exact Nx|]. exists z. auto. }
  split; [|split; [|split; [|intros k x y; apply Mfwd]]].
  - constructor; cbn [g_sites g_clusters g_feats g_count g_with_clusters]; try apply Sh; [exact NDm| | | |].
    + intros x z. rewrite L. destruct (Z.eqb_spec x c); [discriminate|].
      destruct (Z.eqb_spec x fav) as [->|]; [|apply Sh]. intros Ez. inversion Ez; subst z.
      rewrite (sc_id _ _ K), Ic. split; [reflexivity|]. split; [exact Ra|]. rewrite Es0. split; [exact ND0|].
      exists ia, ja. split; [exact Nij|]. apply ukeys_In in Hia, Hja. destruct Hia as [va Hia], Hja as [vb Hja].
      split; eapply ulookup_In_key; apply A1; eassumption.
    + intros x k y Hy. destruct (Mback _ _ _ Hy) as (x0 & y0 & Hy0 & Ew & _).
      destruct (h_mem _ _ _ Sh _ _ _ Hy0) as (s & Es & Hn & Eg). exists s. split; [exact Es|]. split; [exact Hn|].
      rewrite Ew. exact Eg.
    + intros x x' k y y' H1 H2. destruct (Mback _ _ _ H1) as (x0 & y0 & Hy0 & _ & D1), (Mback _ _ _ H2) as (x1 & y1 & Hy1 & _ & D2).
      assert (x0 = x1) by apply (h_disj _ _ _ Sh _ _ _ _ _ Hy0 Hy1). subst x1.
      apply Mb in H1, H2. destruct D1 as [D1|[D1 D1']], D2 as [D2|[D2 D2']]; try congruence.
      * destruct H1 as [[H1 _]|(_ & X & _)]; congruence.
      * destruct H2 as [[H2 _]|(_ & X & _)]; congruence.
    + intros k s z Es Ez. rewrite L in Ez. destruct (Z.eqb_spec (s_cluster s) c) as [|Nx]; [discriminate|].
      assert (exists z0, ulookup (s_cluster s) (g_clusters g) = Some z0) as [z0 Ez0]
        by (destruct (Z.eqb_spec (s_cluster s) fav) as [->|]; eauto).
      destruct (h_own _ _ _ Sh k s z0 Es Ez0) as (c' & y & Hy & D). destruct (Mfwd _ _ _ Hy) as [y' Hy'].
      exists (if c' =? c then fav else c'), y'. split; [exact Hy'|].
      destruct (Z.eqb_spec c' c) as [->|Nc].
      * destruct D as [D|[D _]]; [congruence|auto].
      * destruct D as [D|[D [D'|D']]]; [auto|congruence|auto].
  - constructor; cbn [g_perf g_res g_iter g_thr g_thrmin g_walkers g_heap g_sites g_count g_with_clusters]; auto; try lia.
    + intros k s E1. exists s. split; [exact E1|apply s_with_cluster_self].
    + intros k s s' E1 E2 E3. congruence.
    + intros x k y Hy. destruct (Mback _ _ _ Hy) as (x0 & y0 & Hy0 & Ew & _). exists y0. split; [exact Ew|]. left. eauto.
    + intros x. exists (if x =? c then fav else x). intros k y Hy. eauto.
    + intros x x' k y y' H1 H2. destruct (Mback _ _ _ H2) as (x0 & y0 & Hy0 & _ & D).
      assert (x0 = x) by apply (h_disj _ _ _ Sh _ _ _ _ _ Hy0 H1). subst x0. destruct D as [->|[-> ->]]; [auto|].
      right. split; [exact Lt|eapply ulookup_In_key; eauto].
    + intros x Hx. left. cbn [g_clusters g_with_clusters] in Hx. apply ukeys_In in Hx. destruct Hx as [z Hz]. rewrite L in Hz.
      destruct (x =? c); [discriminate|]. destruct (Z.eqb_spec x fav) as [->|]; eapply ulookup_In_key; eauto.
    + intros x k y Hx Hy. cbn [g_clusters g_with_clusters] in Hx. apply ukeys_In in Hx. destruct Hx as [z Hz]. rewrite L in Hz.
      destruct (Mfwd _ _ _ Hy) as [y' Hy']. destruct (x =? c); [discriminate|]. eauto.
  - intros x Hx. cbn [g_clusters g_with_clusters] in Hx. apply ukeys_In in Hx. destruct Hx as [z Hz]. rewrite L in Hz.
    destruct (x =? c); [discriminate|]. destruct (Z.eqb_spec x fav) as [->|]; eapply ulookup_In_key; eauto.
Qed.

Lemma absorb_all fuel fav todo : forall g g', (forall c, In c todo -> fav < c) -> NoDup todo -> shape_while fav todo g ->
  mfor todo (absorb fuel fav) g = Ret tt g' -> shape_while fav [] g' /\ grain g g'.
Proof.
  induction todo as [|c todo IH]; intros g g' Lt ND Sh E; cbn [mfor] in E.
  - inversion E; subst. split; [exact Sh|apply (grain_refl _ _ _ Sh)].
  - apply bind_ret_inv in E. destruct E as ([] & g1 & E1 & E). inversion ND; subst.
    destruct (absorb_shape fuel fav c todo g g1) as (S1 & G1 & _); auto; [apply Lt; left; reflexivity|].
    destruct (IH g1 g') as (S2 & G2); auto; [intros x Hx; apply Lt; right; exact Hx|].
    split; [exact S2|eapply grain_trans; eauto].
Qed.
Lemma absorb_needs fuel fav todo : forall g g', ~ In fav todo -> NoDup (ukeys (g_clusters g)) ->
  mfor todo (absorb fuel fav) g = Ret tt g' -> forall c, In c todo -> In c (ukeys (g_clusters g)).
Proof.
  induction todo as [|c todo IH]; intros g g' Nf ND E x Hx; [destruct Hx|]. cbn [mfor] in E.
  apply bind_ret_inv in E. destruct E as ([] & g1 & E1 & E).
  apply absorb_inv in E1; [|intros ->; apply Nf; left; reflexivity|exact ND].
  destruct E1 as (a & b & p & Ea & Eb & _ & m & -> & NDm & L).
  destruct Hx as [<-|Hx]; [eapply ulookup_In_key; eauto|].
  assert (Hx' : In x (ukeys m)). { apply (IH (g_with_clusters m g) g' (fun X => Nf (or_intror X)) NDm E x Hx). }
  apply ukeys_In in Hx'. destruct Hx' as [z Hz]. rewrite L in Hz. destruct (x =? c); [discriminate|].
  destruct (Z.eqb_spec x fav) as [->|]; eapply ulookup_In_key; eauto.
Qed.

(** ** Merging *)
Lemma shape_while_done fav g : shape_while fav [] g -> shape g.
Proof.
  intros []. constructor; auto. intros k s cl E1 E2. destruct (h_own k s cl E1 E2) as (c & m & Hm & [->|[_ []]]).
  exists (s_cluster s), m. auto.
Qed.
Lemma shape_any fav todo g : shape g -> shape_while fav todo g.
Proof.
  intros []. constructor; auto. intros k s cl E1 E2. destruct (h_own k s cl E1 E2) as (c & m & Hm & [->|[_ []]]).
  exists (s_cluster s), m. auto.
Qed.

(** the state before the last loop *)
Lemma merge_mid fuel sac fav g g' : shape g -> NoDup (ukeys sac) ->
  (forall k c, ulookup k sac = Some c -> exists s, ulookup k (g_sites g) = Some s /\ c = s_cluster s) ->
  merge_clusters fuel sac fav g = Ret tt g' ->
  exists iso cids g1 g3 a a1 a2,
    merge_scan fav sac [] [] g = Ret (iso, cids) g1 /\ relabelled (moved fav sac) fav g g1 /\
    ulookup fav (g_clusters g) = Some a /\ c_addSites iso a = Ret tt a1 /\ c_update fuel (g_heap g) a1 = Ret tt a2 /\
    g3 = g_with_clusters (ureplace fav a2 (g_clusters g)) g1 /\
    mfor (ukeys cids) (absorb fuel fav) g3 = Ret tt g' /\
    0 <= fav /\ NoDup (ukeys cids) /\
    (forall c, In c (ukeys cids) <-> (exists k, ulookup k sac = Some c) /\ c <> fav /\ c <> unassignedId) /\
    (forall s, In s iso <-> exists k, ulookup k sac = Some unassignedId /\ ulookup k (g_sites g) = Some s).
Proof.
  intros Sh NDs Hsac E. unfold merge_clusters in E.
  apply bind_ret_inv in E. destruct E as ([iso cids] & g1 & E1 & E). cbn [fst snd] in E.
  apply bind_ret_inv in E. destruct E as (h & g2 & E2 & E). inversion E2; subst h g2; clear E2.
  apply bind_ret_inv in E. destruct E as ([] & g2 & E2 & E). apply in_clusters_ret in E2. destruct E2 as (m2 & E2 & ->).
  apply at_key_ret in E2. destruct E2 as [[_ E2]|(a & a1 & Ea & Ea1 & ->)]; [discriminate|].
  apply bind_ret_inv in E. destruct E as ([] & g2 & E2 & E). apply in_clusters_ret in E2. destruct E2 as (m2 & E2 & ->).
  cbn [g_clusters g_with_clusters] in E2.
  apply at_key_ret in E2. rewrite (ureplace_lookup_some _ _ _ a) in E2 by exact Ea. rewrite Z.eqb_refl in E2.
  destruct E2 as [[X _]|(x & a2 & Ex & Ea2 & ->)]; [discriminate|]. inversion Ex; subst x; clear Ex.
  (* the scan does not touch clusters: first without knowing fav *)
  assert (Cl : g_clusters g1 = g_clusters g /\ g_heap g1 = g_heap g).
  { clear - E1. assert (X : forall sac iso cids g x g1, merge_scan fav sac iso cids g = Ret x g1 -> g_clusters g1 = g_clusters g /\ g_heap g1 = g_heap g).
    { clear. induction sac as [|[k c] sac IH]; intros iso cids g x g1 E; cbn [merge_scan] in E; [inversion E; auto|].
      destruct (c =? fav); [apply (IH _ _ _ _ _ E)|].
      apply bind_ret_inv in E. destruct E as (i' & g2 & E1 & E).
      assert (g2 = g). { destruct (c =? unassignedId); [|inversion E1; reflexivity].
        apply bind_ret_inv in E1. destruct E1 as (s & g3 & E1 & E2). apply sites_read in E1. destruct E1 as (-> & _). inversion E2; reflexivity. }
      subst g2. apply bind_ret_inv in E. destruct E as (fc & g2 & E2 & E). apply clusters_read in E2. destruct E2 as (-> & _).
      apply bind_ret_inv in E. destruct E as (u & g2 & E2 & E). inversion E2; subst u g2; clear E2.
      apply bind_ret_inv in E. destruct E as ([] & g2 & E2 & E). apply in_sites_ret in E2. destruct E2 as (m & _ & ->).
      apply IH in E. destruct E as [-> ->]. auto. }
    apply (X _ _ _ _ _ _ E1). }
  destruct Cl as [Cl Hp]. rewrite Cl in *. rewrite Hp in *.
  destruct (h_cl _ _ _ Sh fav a Ea) as (_ & Rf & _).
  assert (Fu : fav <> unassignedId) by (unfold unassignedId, INT_MIN; lia).
  destruct (scan_inv fav sac Fu [] [] g _ g1 NDs (NoDup_nil _) E1) as (R & A1 & A2 & A3). cbn [fst snd] in *.
  exists iso, cids, g1. eexists. exists a, a1, a2.
  split; [exact E1|]. split; [exact R|]. split; [exact Ea|]. split; [exact Ea1|]. split; [exact Ea2|].
  split; [reflexivity|]. split.
  { assert (Rr : forall l, ureplace fav a2 (ureplace fav a1 l) = ureplace fav a2 l).
    { clear. induction l as [|[k v] l IH]; [reflexivity|]. cbn [ureplace].
      destruct (Z.eqb_spec fav k) as [->|Ne]; cbn [ureplace]; [rewrite Z.eqb_refl; reflexivity|].
      apply Z.eqb_neq in Ne. rewrite Ne, IH. reflexivity. }
    rewrite <- (Rr (g_clusters g)). exact E. }
  split; [lia|]. split; [exact A3|]. split.
  - intros c. rewrite A2. simpl. split.
    + intros [[]|((k & Hk) & Hc)]. split; [exists k; apply In_ulookup; assumption|exact Hc].
    + intros ((k & Hk) & Hc). right. split; [exists k; apply ulookup_In; exact Hk|exact Hc].
  - intros s. rewrite A1. simpl. split.
    + intros [[]|(k & Hk & Es)]. exists k. split; [apply In_ulookup; assumption|exact Es].
    + intros (k & Hk & Es). right. exists k. split; [apply ulookup_In; exact Hk|exact Es].
Qed.

Lemma merge_shape fuel sac fav g g' : shape g -> NoDup (ukeys sac) ->
  (forall k c, ulookup k sac = Some c -> exists s, ulookup k (g_sites g) = Some s /\ c = s_cluster s) ->
  (forall k c, ulookup k sac = Some c -> c <> unassignedId -> fav <= c) ->
  merge_clusters fuel sac fav g = Ret tt g' -> shape g' /\ grain g g'.
Proof.
  intros Sh NDs Hsac Small E. apply merge_mid in E; auto.
  destruct E as (iso & cids & g1 & g3 & a & a1 & a2 & _ & R & Ea & Ea1 & Ea2 & Eg3 & Eabs & F0 & NDc & Hc & Hi).
  assert (Fu : fav <> unassignedId) by (unfold unassignedId, INT_MIN; lia).
  destruct (h_cl _ _ _ Sh fav a Ea) as (Ia & Ra & NDa & ia & ja & Nij & Hia & Hja).
  destruct (addSites_inv _ _ _ Ea1) as (m & Em & Hm). specialize (Hm NDa). destruct Hm as (NDm & Hin & Hout & Hold).
  pose proof (keeps_update _ _ _ _ _ Ea2) as K.
  assert (Es2 : c_sites a2 = m) by (rewrite (sc_sites _ _ K), Em; reflexivity).
  assert (Ei2 : c_id a2 = fav) by (rewrite (sc_id _ _ K), Em; exact Ia).
  rewrite Ia in *.
  assert (Iso : forall k x, ulookup k m = Some x -> ulookup k (c_sites a) = Some x \/
            exists s, ulookup k sac = Some unassignedId /\ ulookup k (g_sites g) = Some s /\ x = s_with_cluster fav s).
  { intros k x Ex. destruct (Hout k x Ex) as [|(s & Hs & Ei & ->)]; [auto|]. right. exists s.
    apply Hi in Hs. destruct Hs as (k' & Hk' & Es). destruct (h_site _ _ _ Sh k' s Es) as [Ei' _].
    assert (k' = k) by congruence. subst k'. auto. }
  assert (Iso2 : forall k, ulookup k sac = Some unassignedId -> exists s, ulookup k (g_sites g) = Some s /\ s_cluster s = unassignedId /\ ulookup k m = Some (s_with_cluster fav s)).
  { intros k Hk. destruct (Hsac k _ Hk) as (s & Es & Eu). exists s. split; [exact Es|]. split; [auto|].
    destruct (Hin s) as (k' & Ei & Ek'); [apply Hi; exists k; auto|].
    destruct (h_site _ _ _ Sh k s Es) as [Ei' _]. congruence. }
  assert (Lc : forall c, ulookup c (g_clusters g3) = if c =? fav then Some a2 else ulookup c (g_clusters g)).
  { intros c. subst g3. cbn [g_clusters g_with_clusters]. apply (ureplace_lookup_some _ _ _ a), Ea. }
  assert (Ls : forall k, ulookup k (g_sites g3) = if moved fav sac k then option_map (s_with_cluster fav) (ulookup k (g_sites g)) else ulookup k (g_sites g)).
  { intros k. subst g3. cbn [g_sites g_with_clusters]. apply (b_sites _ _ _ _ R). }
  assert (Mb : forall c k x, member g3 c k x <-> (c = fav /\ ulookup k m = Some x) \/ (c <> fav /\ member g c k x)).
  { intros c k x. unfold member. rewrite Lc. destruct (Z.eqb_spec c fav) as [->|Nf].
    - split; [intros (y & E1 & E2); inversion E1; subst y; rewrite Es2 in E2; auto|].
      intros [[_ E2]|[E2 _]]; [exists a2; rewrite Es2; auto|congruence].
    - split; [auto|]. intros [[E1 _]|[_ E1]]; [congruence|exact E1]. }
  assert (Mfwd : forall c k x, member g c k x -> member g3 c k x).
  { intros c k x Hx. apply Mb. destruct (Z.eq_dec c fav) as [->|]; [left|auto].
    destruct Hx as (y & Ey & Ex). assert (y = a) by congruence. subst y. auto. }
  assert (Mback : forall c k x, member g3 c k x -> member g c k x \/
            (c = fav /\ exists s, ulookup k sac = Some unassignedId /\ ulookup k (g_sites g) = Some s /\ s_cluster s = unassignedId /\ x = s_with_cluster fav s)).
  { intros c k x Hx. apply Mb in Hx. destruct Hx as [[-> Hx]|[_ Hx]]; [|auto].
    destruct (Iso k x Hx) as [H1|(s & H1 & H2 & H3)]; [left; exists a; auto|]. right. split; [reflexivity|].
    exists s. split; [exact H1|]. split; [exact H2|]. split; [|exact H3].
    destruct (Hsac k _ H1) as (s' & Es' & Eu). congruence. }
  assert (Mv : forall k, moved fav sac k = true -> exists c s, ulookup k sac = Some c /\ c <> fav /\ ulookup k (g_sites g) = Some s /\ c = s_cluster s).
  { intros k Hk. unfold moved in Hk. destruct (ulookup k sac) as [c|] eqn:Ek; [|discriminate].
    apply negb_true_iff, Z.eqb_neq in Hk. destruct (Hsac k c Ek) as (s & Es & Ec). exists c, s. auto. }
  assert (Nfc : ~ In fav (ukeys cids)) by (intros X; apply Hc in X; tauto).
  assert (NDc3 : NoDup (ukeys (g_clusters g3))) by (subst g3; cbn [g_clusters g_with_clusters]; rewrite ureplace_keys; apply Sh).
  pose proof (absorb_needs _ _ _ _ _ Nfc NDc3 Eabs) as Need.
  assert (Sh3 : shape_while fav (ukeys cids) g3).
  { constructor.
    - subst g3. cbn [g_sites g_with_clusters]. rewrite (b_keys _ _ _ _ R). apply Sh.
    - exact NDc3.
    - subst g3. cbn [g_feats g_with_clusters]. apply (b_ndf _ _ _ _ R), Sh.
    - subst g3. cbn [g_count g_with_clusters]. rewrite (b_count _ _ _ _ R). apply Sh.
    - intros k s'. rewrite Ls. assert (Cn : g_count g3 = g_count g) by (subst g3; apply (b_count _ _ _ _ R)). rewrite Cn.
      destruct (moved fav sac k).
      + destruct (ulookup k (g_sites g)) as [s|] eqn:Es; [|discriminate]. cbn [option_map]. intros E'; inversion E'.
        cbn [s_id s_cluster s_with_cluster]. split; [apply (h_site _ _ _ Sh k s Es)|right; exact Ra].
      + apply (h_site _ _ _ Sh k s').
    - intros k. assert (Fe : ulookup k (g_feats g3) = if moved fav sac k then Some (PCluster fav) else ulookup k (g_feats g))
        by (subst g3; apply (b_feats _ _ _ _ R), Sh). rewrite Fe, Ls, (h_feat _ _ _ Sh k).
      destruct (moved fav sac k) eqn:Ek; [|reflexivity]. destruct (Mv k Ek) as (c & s & _ & _ & Es & _).
      rewrite Es. cbn [option_map s_cluster s_with_cluster]. apply Z.eqb_neq in Fu. rewrite Fu. reflexivity.
    - intros c x. rewrite Lc. assert (Cn : g_count g3 = g_count g) by (subst g3; apply (b_count _ _ _ _ R)). rewrite Cn.
      destruct (Z.eqb_spec c fav) as [->|Nf]; intros Ex; [|apply (h_cl _ _ _ Sh c x Ex)].
      inversion Ex; subst x. split; [exact Ei2|]. split; [exact Ra|]. rewrite Es2. split; [exact NDm|].
      exists ia, ja. split; [exact Nij|]. apply ukeys_In in Hia, Hja. destruct Hia as [va Hia], Hja as [vb Hja].
      split; eapply ulookup_In_key; apply Hold; eassumption.
    - intros c k x Hx. rewrite Ls. destruct (Mback _ _ _ Hx) as [H1|(_ & s & H1 & H2 & H3 & ->)].
      + destruct (h_mem _ _ _ Sh _ _ _ H1) as (s & Es & Hn & Eg). rewrite Es. destruct (moved fav sac k); cbn [option_map]; [|exists s; auto].
        exists (s_with_cluster fav s). split; [reflexivity|]. split; [exact Fu|exact Eg].
      + assert (Hmv : moved fav sac k = true) by (unfold moved; rewrite H1; apply negb_true_iff, Z.eqb_neq; auto).
        rewrite Hmv, H2. exists (s_with_cluster fav s). split; [reflexivity|]. split; [exact Fu|reflexivity].
    - intros c c' k x x' H1 H2. destruct (Mback _ _ _ H1) as [A1|(-> & s & B1 & B2 & B3 & _)], (Mback _ _ _ H2) as [A2|(-> & s' & C1 & C2 & C3 & _)]; auto.
      + apply (h_disj _ _ _ Sh _ _ _ _ _ A1 A2).
      + exfalso. destruct (h_mem _ _ _ Sh _ _ _ A1) as (y & Ey & Hn & _). congruence.
      + exfalso. destruct (h_mem _ _ _ Sh _ _ _ A2) as (y & Ey & Hn & _). congruence.
    - intros k s' z. rewrite Ls. destruct (moved fav sac k) eqn:Ek.
      + destruct (Mv k Ek) as (c & s & Es1 & Nc & Es & Ecs). rewrite Es. cbn [option_map]. intros E'; inversion E'; subst s'.
        cbn [s_cluster s_with_cluster]. intros _.
        destruct (Z.eq_dec c unassignedId) as [->|Nu].
        * destruct (Iso2 k Es1) as (s0 & _ & _ & Hk). exists fav, (s_with_cluster fav s0). split; [apply Mb; auto|auto].
        * assert (Hcc : In c (ukeys cids)) by (apply Hc; eauto).
          assert (Hz : In c (ukeys (g_clusters g3))) by (apply Need; exact Hcc).
          apply ukeys_In in Hz. destruct Hz as [z0 Hz]. rewrite Lc in Hz. apply Z.eqb_neq in Nc. rewrite Nc in Hz.
          rewrite Ecs in Hz. destruct (h_own _ _ _ Sh k s z0 Es Hz) as (c' & y & Hy & [->|[_ []]]).
          exists (s_cluster s), y. split; [apply Mfwd; exact Hy|]. right. split; [reflexivity|congruence].
      + intros Es Ez. rewrite Lc in Ez.
        assert (exists z0, ulookup (s_cluster s') (g_clusters g) = Some z0) as [z0 Ez0]
          by (destruct (Z.eqb_spec (s_cluster s') fav) as [->|]; eauto).
        destruct (h_own _ _ _ Sh k s' z0 Es Ez0) as (c' & y & Hy & [->|[_ []]]).
        exists (s_cluster s'), y. split; [apply Mfwd; exact Hy|auto]. }
  assert (Lts : forall c, In c (ukeys cids) -> fav < c).
  { intros c X. apply Hc in X. destruct X as ((k & Ek) & Nf & Nu). pose proof (Small k c Ek Nu). lia. }
  destruct (absorb_all _ _ _ _ _ Lts NDc Sh3 Eabs) as [Sh' Gr]. split; [apply (shape_while_done _ _ Sh')|].
  apply (grain_trans 0 [] g g3 g' Sh); [|exact Gr].
  constructor; try (subst g3; cbn [g_perf g_res g_iter g_thr g_thrmin g_walkers g_heap g_sites g_with_clusters]; apply R).
  - intros k s'. rewrite Ls. destruct (moved fav sac k).
    + destruct (ulookup k (g_sites g)) as [s|]; [|discriminate]. intros E'; inversion E'. exists s. auto.
    + intros Es. exists s'. split; [exact Es|apply s_with_cluster_self].
  - intros k s s' Es Hn. rewrite Ls. destruct (moved fav sac k); rewrite Es; intros E'; inversion E'; [exact Fu|congruence].
  - subst g3. cbn [g_count g_with_clusters]. rewrite (b_count _ _ _ _ R). lia.
  - intros c k x Hx. destruct (Mback _ _ _ Hx) as [H1|(_ & s & H1 & H2 & H3 & ->)].
    + exists x. split; [apply s_with_cluster_self|]. left. eauto.
    + exists s. split; [reflexivity|]. right. auto.
  - intros c. exists c. intros k x Hx. exists x. auto.
  - intros c c' k x x' H1 H2. destruct (Mback _ _ _ H2) as [A2|(_ & s & _ & B2 & B3 & _)].
    + left. apply (h_disj _ _ _ Sh _ _ _ _ _ A2 H1).
    + exfalso. destruct (h_mem _ _ _ Sh _ _ _ H1) as (y & Ey & Hn & _). congruence.
  - intros c Hx. left. apply ukeys_In in Hx. destruct Hx as [z Hz]. rewrite Lc in Hz.
    destruct (Z.eqb_spec c fav) as [->|]; eapply ulookup_In_key; eauto.
  - intros c k x _ Hx. exists x. auto.
Qed.

(** ** coarseGrain_ *)
Lemma equilibrium_ret ids limit g b g' : equilibrium ids limit g = Ret b g' -> g' = g.
Proof.
  unfold equilibrium. intros E. apply bind_ret_inv in E. destruct E as (x & g1 & E1 & E). inversion E1; subst x g1; clear E1.
  apply bind_ret_inv in E. destruct E as (tc & g1 & E1 & E). apply lift_ret in E1. destruct E1 as [_ ->]. cbv zeta in E.
  destruct (nltb _ _); [|inversion E; reflexivity]. destruct (g_res g); inversion E; reflexivity.
Qed.

(** what an attempt does, case by case *)
Lemma coarse_inv fuel k g b g' : shape g -> coarse_grain clk fuel k g = Ret b g' ->
  let g1 := g_with_tick (g_tick g + 1) g in
  exists ids, find_basin fuel (g_tick g) (g_heap g) explorer_new (g_sites g) (g_clusters g) k = Ok ids /\
  let limit := internal_limit (g_tick g) (g_heap g) (g_sites g) ids in
  exists ok, equilibrium ids limit g1 = Ret ok g1 /\
  ((b = false /\ g' = g1) \/
   (b = true /\ ok = true /\
    exists sac, NoDup (ukeys sac) /\
      (forall j, In j ids -> exists s, ulookup j (g_sites g) = Some s /\ ulookup j sac = Some (s_cluster s)) /\
      (forall j, ~ In j ids -> ulookup j sac = None) /\
      ((count_clusters sac = 1%nat /\ (forall j, In j ids -> ulookup j sac = Some unassignedId) /\ ids <> [] /\
        create_cluster clk fuel ids limit g1 = Ret tt g') \/
       (count_clusters sac <> 1%nat /\ merge_clusters fuel sac (favored sac) g1 = Ret tt g')))).
Proof.
  intros Sh E g1. unfold coarse_grain in E.
  apply bind_ret_inv in E. destruct E as (nonce & g2 & E1 & E). inversion E1; subst nonce g2; clear E1. fold g1 in E.
  apply bind_ret_inv in E. destruct E as (x & g2 & E1 & E). inversion E1; subst x g2; clear E1.
  apply bind_ret_inv in E. destruct E as (ids & g2 & E1 & E). apply lift_ret in E1. destruct E1 as [E1 ->].
  exists ids. split; [exact E1|]. cbv zeta in *.
  apply bind_ret_inv in E. destruct E as (ok & g2 & E2 & E). pose proof (equilibrium_ret _ _ _ _ _ E2); subst g2.
  exists ok. split; [exact E2|]. destruct ok; [|inversion E; subst; auto].
  apply bind_ret_inv in E. destruct E as (sac & g2 & E3 & E).
  assert (Sh1 : shape g1) by (apply (calm_shape clk g); [apply calm_tick|exact Sh]).
  destruct (clusters_of_inv ids [] g1 sac g2 Sh1 (NoDup_nil _) E3) as (-> & ND & A1 & A2).
  destruct (Nat.eqb (count_clusters sac) 1) eqn:En; cbn [andb negb] in E.
  - destruct sac as [|[k0 c0] sac0] eqn:Es; [discriminate|].
    destruct (Z.eqb_spec c0 unassignedId) as [->|]; [|inversion E; subst; auto].
    apply bind_ret_inv in E. destruct E as ([] & g2 & E4 & E). inversion E; subst b g2.
    right. split; [reflexivity|]. split; [reflexivity|]. exists sac. rewrite Es. split; [exact ND|]. split; [exact A1|]. split; [exact A2|].
    left. apply Nat.eqb_eq in En. split; [exact En|]. split; [|split; [|exact E4]].
    + intros j Hj. destruct (A1 j Hj) as (s & E5 & E6). rewrite E6. f_equal.
      apply (fun x => count_one clk _ k0 unassignedId En (or_introl eq_refl) j _ x). apply ulookup_In; exact E6.
    + intros ->. assert (X := A2 k0 (fun x => x)). cbn [ulookup] in X. rewrite Z.eqb_refl in X. discriminate.
  - apply bind_ret_inv in E. destruct E as ([] & g2 & E4 & E). inversion E; subst b g2.
    right. split; [reflexivity|]. split; [reflexivity|]. exists sac. split; [exact ND|]. split; [exact A1|]. split; [exact A2|].
    right. apply Nat.eqb_neq in En. auto.
Qed.

Lemma favored_smallest (sac : umap Z) : smallest (map snd sac) (favored sac).
Proof.
  unfold favored. rewrite <- (rev_involutive sac). induction (rev sac) as [|[k c] l IH]; cbn [rev].
  - left. split; [reflexivity|intros x []].
  - rewrite map_app, fold_left_app. cbn [map fold_left snd]. set (f := fold_left _ (rev l) unassignedId) in *.
    destruct (Z.eqb_spec c unassignedId) as [->|Nc]; cbn [negb andb].
    + destruct IH as [[E A]|(A & B & D)].
      * left. split; [exact E|]. intros x Hx. apply in_app_or in Hx. destruct Hx as [Hx|[<-|[]]]; auto.
      * right. split; [apply in_or_app; auto|]. split; [exact B|]. intros x Hx Nx. apply in_app_or in Hx. destruct Hx as [Hx|[<-|[]]]; [auto|congruence].
    + destruct IH as [[-> A]|(A & B & D)].
      * rewrite Z.eqb_refl. cbn [orb]. right. split; [apply in_or_app; right; left; reflexivity|]. split; [exact Nc|].
        intros x Hx Nx. apply in_app_or in Hx. destruct Hx as [Hx|[<-|[]]]; [|lia]. apply A in Hx. congruence.
      * destruct (Z.eqb_spec f unassignedId) as [|_]; [congruence|]. cbn [orb]. right. destruct (Z.ltb_spec c f).
        -- split; [apply in_or_app; right; left; reflexivity|]. split; [exact Nc|].
           intros x Hx Nx. apply in_app_or in Hx. destruct Hx as [Hx|[<-|[]]]; [|lia]. specialize (D x Hx Nx). lia.
        -- split; [apply in_or_app; auto|]. split; [exact B|].
           intros x Hx Nx. apply in_app_or in Hx. destruct Hx as [Hx|[<-|[]]]; [auto|lia].
Qed.

Lemma favored_le (sac : umap Z) k c : ulookup k sac = Some c -> c <> unassignedId -> favored sac <= c.
Proof.
  intros Ek Nc. assert (Hin : In c (map snd sac)) by (apply ulookup_In in Ek; apply (in_map snd) in Ek; exact Ek).
  destruct (favored_smallest sac) as [[_ A]|(_ & _ & D)]; [apply A in Hin; congruence|auto].
Qed.

Theorem coarse_shape fuel k g b g' : shape g -> coarse_grain clk fuel k g = Ret b g' -> shape g' /\ grain g g'.
Proof.
  intros Sh E. destruct (coarse_inv _ _ _ _ _ Sh E) as (ids & _ & ok & _ & H1). cbv zeta in H1.
  set (g1 := g_with_tick (g_tick g + 1) g) in *.
  assert (Sh1 : shape g1) by (apply (calm_shape clk g); [apply calm_tick|exact Sh]).
  assert (G1 : grain g g1) by apply (grain_tick _ _ Sh).
  destruct H1 as [[_ ->]|(_ & _ & sac & ND & A1 & A2 & [(_ & A3 & _ & E1)|(_ & E1)])].
  - auto.
  - destruct (fun X => create_shape _ _ _ _ _ Sh1 X E1) as [S2 G2].
    + intros j Hj. destruct (A1 j Hj) as (s & Es & E2). rewrite (A3 j Hj) in E2. inversion E2. exists s. auto.
    + split; [exact S2|eapply grain_trans; eauto].
  - destruct (fun X => merge_shape _ _ _ _ _ Sh1 ND X (fun k c Ek Nc => favored_le _ _ _ Ek Nc) E1) as [S2 G2].
    + intros j c Ej. destruct (in_dec Z.eq_dec j ids) as [Hj|Hj].
      * destruct (A1 j Hj) as (s & Es & E2). exists s. split; [exact Es|congruence].
      * rewrite (A2 j Hj) in Ej. discriminate.
    + split; [exact S2|eapply grain_trans; eauto].
Qed.
End Merge.
