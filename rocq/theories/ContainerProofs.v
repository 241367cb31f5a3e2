(** * The containers refine finite maps *)
From Coq Require Import ZArith List Bool Lia Permutation.
From Verif Require Import Base Num BaseProofs SiteModel ClusterModel ContainerModel ContainerSpec.
Import ListNotations.
Open Scope Z_scope.

(** ** Running calls *)
Definition as_res {S A} (o : outcome S A) : res A :=
  match o with Ret a _ => Ok a | Thr e _ => Err e | Halt h => Bad h end.
Fixpoint exec {S O A} (step : O -> M S A) (ops : list O) (s : S) : list (res A) * S :=
  match ops with
  | [] => ([], s)
  | o :: os =>
      match step o s with
      | Ret a s' => let (rs, t) := exec step os s' in (Ok a :: rs, t)
      | Thr e s' => let (rs, t) := exec step os s' in (Err e :: rs, t)
      | Halt h => ([Bad h], s)
      end
  end.
Definition fmap {S A B} (g : A -> B) (m : M S A) : M S B := x <- m ;; ret (g x).

Section P.
Context {I : Impl} {N : Num} {G : Rng}.

Definition sc_do (o : sop) : M sites_t sans :=
  match o with
  | SAdd s => fmap (fun _ => Done) (sc_addSite s)
  | SAdds l => fmap (fun _ => Done) (sc_addSites l)
  | SGet k => fmap ASite (sc_getSite k)
  | SGetOf ids => fmap ASites (sc_getSitesOf ids [])
  | SGetAll => fmap ASites sc_getSites
  | SSize => fmap AInt sc_size
  | SExist k => fmap ABool (sc_exist k)
  | SIds => fmap AIds sc_getSiteIds
  | SSetCluster k c => fmap (fun _ => Done) (sc_setClusterId k c)
  | SCluster k => fmap AInt (sc_getClusterId k)
  | SPart k => fmap ABool (sc_partOfCluster k)
  | SSmallest clock ids => fmap AInt (sc_getSmallestClusterId clock ids)
  | SIsOccupied k => fmap ABool (sc_isOccupied k)
  | SVacate k => fmap (fun _ => Done) (sc_vacate k)
  | SOccupy k => fmap (fun _ => Done) (sc_occupy k)
  | SDwell k => fmap ANum (sc_getDwellTime k)
  | STau k => fmap ANum (sc_getTimeConstant k)
  | SRates => fmap ARates sc_getRates
  | SFastest h k => fmap ANum (sc_getFastest h k)
  | SRateTo h k n => fmap ANum (sc_getRateTo h k n)
  | SNeigh k => fmap AIds (sc_getNeighIds k)
  end.
Definition cc_do (o : cop) : M clusters_t cans :=
  match o with
  | CAdd c => fmap (fun _ => CDone) (cc_addCluster c)
  | CAdds l => fmap (fun _ => CDone) (cc_addClusters l)
  | CGet k => fmap CCluster (cc_getCluster k)
  | CErase k => fmap (fun _ => CDone) (cc_erase k)
  | CSize => fmap CInt cc_size
  | CExist k => fmap CBool (cc_exist k)
  | CIds => fmap CIdList cc_getClusterIds
  | CIsOccupied k => fmap CBool (cc_isOccupied k)
  | CVacate k => fmap (fun _ => CDone) (cc_vacate k)
  | COccupy k => fmap (fun _ => CDone) (cc_occupy k)
  | CTau k => fmap CNum (cc_getTimeConstant k)
  | CFastest h k => fmap CNum (cc_getFastest h k)
  | CNeigh k => fmap CIdList (cc_getNeighIds k)
  | CMembers => fmap CLists cc_getSiteIds
  | CResolutions => fmap CNums cc_getResolutions
  | CIncrements => fmap CNums cc_getIncrements
  end.

(** the container [m] holds the map [f] *)
Definition content {V} (m : umap V) (f : amap V) : Prop :=
  NoDup (ukeys m) /\ forall k, ulookup k m = f k.

Lemma content_new {V} (m : umap V) f k v : content m f -> content (uset m k v) (put f k v).
Proof.
  intros [Hn Hl]; split; [apply uset_NoDup, Hn|intros j].
  rewrite uset_lookup by exact Hn; unfold put.
  destruct (j =? k); [reflexivity|apply Hl].
Qed.
Lemma content_old {V} (m : umap V) f k v v0 : content m f -> ulookup k m = Some v0 -> content (ureplace k v m) (put f k v).
Proof.
  intros [Hn Hl] H0; split; [rewrite ureplace_keys; exact Hn|intros j].
  rewrite ureplace_lookup; unfold put.
  assert (Hm : umem k m = true) by (unfold umem; rewrite H0; reflexivity).
  destruct (j =? k); cbn [andb]; [rewrite Hm; reflexivity|apply Hl].
Qed.
Lemma content_drop {V} (m : umap V) f k : content m f -> content (uremove k m) (drop f k).
Proof.
  intros [Hn Hl]; split; [apply uremove_NoDup, Hn|intros j].
  rewrite uremove_lookup by exact Hn; unfold drop.
  destruct (j =? k); [reflexivity|apply Hl].
Qed.
Lemma content_lists {V} (m : umap V) f : content m f -> lists f (ukeys m).
Proof.
  intros [Hn Hl]; split; [exact Hn|intros k; rewrite ukeys_In, <- Hl].
  split; [intros [v ->]; discriminate|destruct (ulookup k m); [eauto|congruence]].
Qed.

Lemma fold_uset_holds {V W} (g : V -> W) (l : umap V) : forall acc,
  NoDup (ukeys l) -> NoDup (ukeys acc) ->
  NoDup (ukeys (fold_left (fun acc e => uset acc (fst e) (g (snd e))) l acc))
  /\ forall k, ulookup k (fold_left (fun acc e => uset acc (fst e) (g (snd e))) l acc)
               = match ulookup k l with Some v => Some (g v) | None => ulookup k acc end.
Proof.
  induction l as [|[i v] l IH]; intros acc Hl Ha; [split; [exact Ha|reflexivity]|].
  cbn [fold_left fst snd ulookup].
  inversion Hl as [|? ? Hni Hnd]; subst.
  destruct (IH (uset acc i (g v)) Hnd (uset_NoDup _ _ _ Ha)) as [H1 H2].
  split; [exact H1|intros k; rewrite H2].
  destruct (k =? i) eqn:E.
  - apply Z.eqb_eq in E; subst k.
    assert (ulookup i l = None) as -> by (apply ulookup_None, Hni).
    rewrite uset_lookup_same by exact Ha; reflexivity.
  - destruct (ulookup k l); [reflexivity|].
    apply Z.eqb_neq in E; rewrite uset_lookup_other by first [exact Ha | congruence]; reflexivity.
Qed.
Lemma content_holds {V W} (g : V -> W) (m : umap V) f : content m f ->
  holds f g (fold_left (fun acc e => uset acc (fst e) (g (snd e))) m []).
Proof.
  intros [Hn Hl].
  destruct (fold_uset_holds g m [] Hn (NoDup_nil _)) as [H1 H2].
  split; [exact H1|intros k; rewrite H2, <- Hl; destruct (ulookup k m); reflexivity].
Qed.

(** the step produced what the specification asks for, on the same map *)
Definition refines {V A} (P : res A -> amap V -> Prop) (m : umap V) (o : outcome (umap V) A) : Prop :=
  exists f', P (as_res o) f' /\ content (match o with Ret _ m' => m' | Thr _ m' => m' | Halt _ => m end) f'.

Lemma refine_asks {V A B} (m : umap V) f k (g : V -> res A) (b : A -> B) :
  content m f ->
  refines (asks f k (fun v => x <-! g v; Ok (b x))) m (fmap b (read_key k g) m).
Proof.
  intros [Hn Hl]; exists f; unfold asks, fmap, bind, read_key, lift; rewrite <- Hl.
  destruct (ulookup k m) as [v|]; [|split; [split; reflexivity|split; assumption]].
  destruct (g v); (split; [split; reflexivity|split; assumption]).
Qed.
Lemma refine_asks_ok {V A B} (m : umap V) f k (g : V -> A) (b : A -> B) :
  content m f ->
  refines (asks f k (fun v => Ok (b (g v)))) m (fmap b (read_key k (fun v => Ok (g v))) m).
Proof. intros H. exact (refine_asks m f k (fun v => Ok (g v)) b H). Qed.
Lemma refine_tells {V B} (m : umap V) f k (g : V -> V) (b : B) :
  content m f ->
  refines (tells f k b g) m (fmap (fun _ => b) (at_key k (throw InvalidArgument) (modify g)) m).
Proof.
  intros [Hn Hl]; unfold refines, tells, fmap, bind, at_key, modify, throw; rewrite <- Hl.
  destruct (ulookup k m) as [v|] eqn:E; cbn; eexists; (split; [split; reflexivity|]).
  - eapply content_old; [split; eassumption|exact E].
  - split; assumption.
Qed.

Lemma refine_adds (s : site) m f :
  content m f ->
  refines (fun r f' => match s_id s with Some i => adds f Done i s r f' | None => r = Err RuntimeError /\ f' = f end)
          m (fmap (fun _ => Done) (sc_addSite s) m).
Proof.
  intros Hc; destruct Hc as [Hn Hl]; unfold refines, fmap, sc_addSite, bind, lift, s_getId, gets, throw, modify.
  destruct (s_id s) as [i|]; [|exists f; repeat split; assumption].
  destruct (umem i m) eqn:E; cbn.
  - apply umem_lookup in E as [v E]; exists f; unfold adds; rewrite <- Hl, E; repeat split; assumption.
  - apply umem_false_lookup in E; exists (put f i s); unfold adds; rewrite <- Hl, E.
    split; [split; reflexivity|apply content_new; split; assumption].
Qed.
Lemma refine_cadds (c : cluster) m f :
  content m f -> refines (adds f CDone (c_id c) c) m (fmap (fun _ => CDone) (cc_addCluster c) m).
Proof.
  intros Hc; destruct Hc as [Hn Hl]; unfold refines, fmap, cc_addCluster, bind, lift, gets, throw, modify.
  destruct (umem (c_id c) m) eqn:E; cbn.
  - apply umem_lookup in E as [v E]; exists f; unfold adds; rewrite <- Hl, E; repeat split; assumption.
  - apply umem_false_lookup in E; exists (put f (c_id c) c); unfold adds; rewrite <- Hl, E.
    split; [split; reflexivity|apply content_new; split; assumption].
Qed.

Lemma adds_all_no_halt {V A} (a : A) (id : V -> option Z) f l h f' : ~ adds_all a id f l (Bad h) f'.
Proof.
  intros H; remember (Bad h) as r eqn:E; induction H; try discriminate; auto.
Qed.
Lemma refine_addsAll (l : list site) : forall m f,
  content m f -> refines (adds_all Done s_id f l) m (fmap (fun _ => Done) (sc_addSites l) m).
Proof.
  induction l as [|s l IH]; intros m f Hc.
  - exists f; split; [constructor|exact Hc].
  - destruct (refine_adds s m f Hc) as (f' & Hs & Hc').
    unfold fmap, sc_addSites, bind in *; cbn [mfor]; unfold bind in *.
    destruct (s_id s) as [i|] eqn:Ei.
    + destruct (sc_addSite s m) as [[] m'|e m'|h] eqn:E; cbn in Hs, Hc'.
      * destruct (IH m' f' Hc') as (f'' & Hs' & Hc'').
        exists f''; split; [|destruct (mfor l sc_addSite m'); [exact Hc''|exact Hc''|elim (adds_all_no_halt _ _ _ _ _ _ Hs')]].
        destruct (mfor l sc_addSite m') as [[] ?|? ?|?]; (eapply aa_next; [exact Ei|exact Hs|exact Hs']).
      * exists f'; split; [|exact Hc']; eapply aa_taken; eassumption.
      * unfold adds in Hs; destruct (f i); destruct Hs; discriminate.
    + destruct Hs as [Hs ->].
      unfold sc_addSite, bind, lift, s_getId; rewrite Ei; cbn.
      exists f; split; [apply aa_noid; exact Ei|exact Hc].
Qed.
Lemma refine_caddsAll (l : list cluster) : forall m f,
  content m f -> refines (adds_all CDone (fun c => Some (c_id c)) f l) m (fmap (fun _ => CDone) (cc_addClusters l) m).
Proof.
  induction l as [|s l IH]; intros m f Hc.
  - exists f; split; [constructor|exact Hc].
  - destruct (refine_cadds s m f Hc) as (f' & Hs & Hc').
    unfold fmap, cc_addClusters, bind in *; cbn [mfor]; unfold bind in *.
    destruct (cc_addCluster s m) as [[] m'|e m'|h] eqn:E; cbn in Hs, Hc'.
    + destruct (IH m' f' Hc') as (f'' & Hs' & Hc'').
      exists f''; split; [|destruct (mfor l cc_addCluster m'); [exact Hc''|exact Hc''|elim (adds_all_no_halt _ _ _ _ _ _ Hs')]].
      destruct (mfor l cc_addCluster m') as [[] ?|? ?|?]; (eapply aa_next; [reflexivity|exact Hs|exact Hs']).
    + exists f'; split; [|exact Hc']; eapply aa_taken; [reflexivity|eassumption].
    + unfold adds in Hs; destruct (f (c_id s)); destruct Hs; discriminate.
Qed.

Lemma getSitesOf_spec ids : forall m f acc, content m f ->
  if forallb (fun k => match f k with Some _ => true | None => false end) ids
  then NoDup (ukeys acc) -> exists r, sc_getSitesOf ids acc m = Ret r m /\ NoDup (ukeys r)
         /\ forall k, ulookup k r = if existsb (Z.eqb k) ids then f k else ulookup k acc
  else sc_getSitesOf ids acc m = Thr InvalidArgument m.
Proof.
  induction ids as [|i ids IH]; intros m f acc Hc; cbn [forallb sc_getSitesOf existsb].
  - intros Ha; exists acc; split; [reflexivity|split; [exact Ha|reflexivity]].
  - pose proof Hc as [Hn Hl].
    unfold bind, sc_getSite, read_key; rewrite Hl.
    destruct (f i) as [s|] eqn:Ef; cbn [andb lift]; [|reflexivity].
    specialize (IH m f (uset acc i s) Hc).
    destruct (forallb _ ids); [|exact IH].
    intros Ha; destruct (IH (uset_NoDup _ _ _ Ha)) as (r & H1 & H2 & H3).
    exists r; split; [exact H1|split; [exact H2|intros k; rewrite H3]].
    destruct (k =? i) eqn:E; cbn [orb].
    + apply Z.eqb_eq in E; subst k.
      destruct (existsb (Z.eqb i) ids); [reflexivity|].
      rewrite uset_lookup_same by exact Ha; symmetry; exact Ef.
    + destruct (existsb (Z.eqb k) ids); [reflexivity|].
      apply Z.eqb_neq in E; rewrite uset_lookup_other by first [exact Ha | congruence]; reflexivity.
Qed.

(** the running minimum over the ids seen so far *)
Lemma smallest_nil : smallest [] unassignedId.
Proof. left; split; [reflexivity|intros x []]. Qed.
Lemma smallest_snoc cs c x : smallest cs c ->
  smallest (cs ++ [x]) (if c =? unassignedId then x
                        else if negb (x =? unassignedId) && (x <? c) then x else c).
Proof.
  intros [[-> Hall]|(Hin & Hne & Hmin)].
  - rewrite Z.eqb_refl.
    destruct (Z.eq_dec x unassignedId) as [->|Hx].
    + left; split; [reflexivity|intros y Hy; apply in_app_or in Hy as [Hy|[<-|[]]]; [apply Hall, Hy|reflexivity]].
    + right; split; [apply in_or_app; right; left; reflexivity|split; [exact Hx|]].
      intros y Hy Hyn; apply in_app_or in Hy as [Hy|[<-|[]]]; [elim Hyn; apply Hall, Hy|lia].
  - destruct (c =? unassignedId) eqn:E; [apply Z.eqb_eq in E; contradiction|].
    destruct (x =? unassignedId) eqn:Ex; cbn [negb andb].
    + apply Z.eqb_eq in Ex.
      right; split; [apply in_or_app; left; exact Hin|split; [exact Hne|]].
      intros y Hy Hyn; apply in_app_or in Hy as [Hy|[<-|[]]]; [apply Hmin; assumption|contradiction].
    + apply Z.eqb_neq in Ex; destruct (x <? c) eqn:El; right.
      * apply Z.ltb_lt in El; split; [apply in_or_app; right; left; reflexivity|split; [exact Ex|]].
        intros y Hy Hyn; apply in_app_or in Hy as [Hy|[<-|[]]]; [pose proof (Hmin y Hy Hyn); lia|lia].
      * apply Z.ltb_ge in El; split; [apply in_or_app; left; exact Hin|split; [exact Hne|]].
        intros y Hy Hyn; apply in_app_or in Hy as [Hy|[<-|[]]]; [apply Hmin; assumption|exact El].
Qed.
Lemma smallest_unique cs cs' c c' :
  (forall x, In x cs <-> In x cs') -> smallest cs c -> smallest cs' c' -> c = c'.
Proof.
  intros He [[-> H1]|(H1 & H2 & H3)] [[-> H1']|(H1' & H2' & H3')].
  - reflexivity.
  - elim H2'; apply H1, He, H1'.
  - elim H2; apply H1', He, H1.
  - pose proof (H3 c' (proj2 (He c') H1') H2'); pose proof (H3' c (proj1 (He c) H1) H2); lia.
Qed.

Lemma sc_smallest_spec clock ids : forall m f seen best, content m f ->
  forallb (fun k => match f k with Some _ => true | None => false end) ids = true ->
  smallest seen best ->
  exists c, sc_smallest clock ids best m = Ret c m
    /\ smallest (seen ++ map (fun k => match f k with Some s => s_cluster s | None => unassignedId end) ids) c.
Proof.
  induction ids as [|i ids IH]; intros m f seen best Hc Hk Hs; cbn [sc_smallest map].
  - exists best; split; [reflexivity|rewrite app_nil_r; exact Hs].
  - cbn [forallb] in Hk; apply andb_true_iff in Hk as [Hi Hk].
    pose proof Hc as [Hn Hl].
    destruct (f i) as [s|] eqn:Ef; [|discriminate].
    assert (Hm : umem i m = true) by (unfold umem; rewrite Hl, Ef; reflexivity).
    unfold bind, modify; rewrite Hm.
    unfold sc_getClusterId, read_key; rewrite Hl, Ef; cbn [lift].
    destruct (IH m f (seen ++ [s_cluster s]) (if best =? unassignedId then s_cluster s
         else if negb (s_cluster s =? unassignedId) && (s_cluster s <? best) then s_cluster s else best)
         Hc Hk (smallest_snoc seen best (s_cluster s) Hs)) as (c & H1 & H2).
    exists c; split; [exact H1|].
    rewrite <- app_assoc in H2; exact H2.
Qed.

(** ids named by a query of the smallest id that are not stored *)
Definition knows (f : amap site) (o : sop) : Prop :=
  match o with SSmallest _ ids => forall k, In k ids -> f k <> None | _ => True end.

Lemma sites_refine m f o : content m f -> knows f o -> refines (sspec f o) m (sc_do o m).
Proof.
  intros Hc Hk; pose proof Hc as [Hn Hl].
  destruct o; cbn [sc_do sspec].
  - apply refine_adds, Hc.
  - apply refine_addsAll, Hc.
  - apply (refine_asks_ok m f k (fun s => s) ASite Hc).
  - pose proof (getSitesOf_spec ids m f [] Hc) as H.
    exists f; cbn [sspec]; unfold fmap, bind.
    destruct (forallb (fun k => match f k with Some _ => true | None => false end) ids).
    + destruct (H (NoDup_nil _)) as (r & -> & H2 & H3); cbn.
      split; [split; [reflexivity|exists r; split; [reflexivity|split; [exact H2|exact H3]]]|exact Hc].
    + rewrite H; split; [split; reflexivity|exact Hc].
  - exists f; split; [split; [reflexivity|]|exact Hc].
    exists m; split; [reflexivity|split; [exact Hn|intros k; rewrite Hl; destruct (f k); reflexivity]].
  - exists f; split; [split; [reflexivity|]|exact Hc].
    exists (ukeys m); split; [apply content_lists, Hc|].
    unfold fmap, bind, sc_size, gets; cbn; unfold ukeys; rewrite map_length; reflexivity.
  - exists f; split; [split; [reflexivity|]|exact Hc].
    unfold fmap, bind, sc_exist, gets; cbn; unfold umem; rewrite Hl; reflexivity.
  - exists f; split; [split; [reflexivity|]|exact Hc].
    exists (ukeys m); split; [apply content_lists, Hc|reflexivity].
  - apply (refine_tells m f k (s_with_cluster c) Done Hc).
  - apply (refine_asks_ok m f k s_getClusterId AInt Hc).
  - destruct (refine_asks_ok m f k s_partOfCluster ABool Hc) as (f' & H1 & H2).
    exists f'; split; [|exact H2].
    destruct H1 as [-> Hr]; split; [reflexivity|refine (eq_trans Hr _)].
    destruct (f k); [unfold s_partOfCluster; rewrite Z.gtb_ltb|]; reflexivity.
  - assert (Hb : forallb (fun k => match f k with Some _ => true | None => false end) ids = true).
    { apply forallb_forall; intros k Hi; specialize (Hk k Hi); destruct (f k); congruence. }
    destruct (sc_smallest_spec clock ids m f [] unassignedId Hc Hb smallest_nil) as (c & H1 & H2).
    exists f; cbn [sspec]; unfold fmap, bind, sc_getSmallestClusterId; rewrite H1, Hb; cbn [as_res ret].
    split; [split; [reflexivity|exists c; split; [reflexivity|exact H2]]|exact Hc].
  - destruct (refine_asks_ok m f k s_isOccupied ABool Hc) as (f' & H1 & H2).
    exists f'; split; [|exact H2].
    destruct H1 as [-> Hr]; split; [reflexivity|refine (eq_trans Hr _)].
    destruct (f k); [unfold s_isOccupied; rewrite Z.gtb_ltb|]; reflexivity.
  - apply (refine_tells m f k (fun s => s_with_occ (s_occ s - 1) s) Done Hc).
  - apply (refine_tells m f k (fun s => s_with_visits (s_visits s + 1) (s_with_occ (s_occ s + 1) s)) Done Hc).
  - unfold refines, fmap, bind, sc_getDwellTime, at_key, throw, s_getDwellTime, s_draw, gets, ret; rewrite Hl.
    destruct (f k) as [s|] eqn:Ef; [|exists f; cbn [sspec]; rewrite Ef; split; [split; reflexivity|exact Hc]].
    exists (put f k (s_with_rng (snd (edraw (s_rng s))) s)); cbn [sspec]; rewrite Ef; unfold bind; destruct (edraw (s_rng s)) as [u e]; cbn.
    split; [split; reflexivity|].
    eapply content_old; [exact Hc|rewrite Hl; exact Ef].
  - apply (refine_asks_ok m f k s_tau ANum Hc).
  - exists f; split; [split; [reflexivity|]|exact Hc].
    exists (rates_of m); split; [reflexivity|apply content_holds, Hc].
  - apply (refine_asks_ok m f k (s_getFastestRate h) ANum Hc).
  - destruct (refine_asks m f k (fun s => s_getRateTo h s n) ANum Hc) as (f' & H1 & H2).
    exists f'; split; [|exact H2].
    destruct H1 as [-> Hr]; split; [reflexivity|refine (eq_trans Hr _)].
    destruct (f k) as [s|]; [|reflexivity].
    unfold s_getRateTo; destruct (ulookup n (s_neigh s)); reflexivity.
  - apply (refine_asks_ok m f k s_neighIds AIds Hc).
Qed.

Lemma clusters_refine m f o : content m f -> refines (cspec f o) m (cc_do o m).
Proof.
  intros Hc; pose proof Hc as [Hn Hl].
  destruct o; cbn [cc_do cspec].
  - apply refine_cadds, Hc.
  - apply refine_caddsAll, Hc.
  - apply (refine_asks_ok m f k (fun s => s) CCluster Hc).
  - exists (drop f k); split; [split; reflexivity|apply content_drop, Hc].
  - exists f; split; [split; [reflexivity|]|exact Hc].
    exists (ukeys m); split; [apply content_lists, Hc|].
    unfold fmap, bind, cc_size, gets; cbn; unfold ukeys; rewrite map_length; reflexivity.
  - exists f; split; [split; [reflexivity|]|exact Hc].
    unfold fmap, bind, cc_exist, gets; cbn; unfold umem; rewrite Hl; reflexivity.
  - exists f; split; [split; [reflexivity|]|exact Hc].
    exists (ukeys m); split; [apply content_lists, Hc|reflexivity].
  - destruct (refine_asks_ok m f k c_isOccupied0 CBool Hc) as (f' & H1 & H2).
    exists f'; split; [|exact H2].
    destruct H1 as [-> Hr]; split; [reflexivity|refine (eq_trans Hr _)].
    destruct (f k); [unfold c_isOccupied0; rewrite Z.gtb_ltb|]; reflexivity.
  - apply (refine_tells m f k (fun c => c_with_occ (c_occ c - 1) c) CDone Hc).
  - apply (refine_tells m f k (fun c => c_with_visits (c_visits c + 1) (c_with_occ (c_occ c + 1) c)) CDone Hc).
  - apply (refine_asks_ok m f k c_tau CNum Hc).
  - apply (refine_asks_ok m f k (c_fastestOff h) CNum Hc).
  - apply (refine_asks_ok m f k c_neighborIds CIdList Hc).
  - exists f; split; [split; [reflexivity|]|exact Hc].
    exists (per_cluster c_siteIds m); split; [reflexivity|apply content_holds, Hc].
  - exists f; split; [split; [reflexivity|]|exact Hc].
    exists (per_cluster c_getResolution m); split; [reflexivity|apply (content_holds c_res), Hc].
  - exists f; split; [split; [reflexivity|]|exact Hc].
    exists (per_cluster c_getTimeIncrement m); split; [reflexivity|apply (content_holds c_inc), Hc].
Qed.

(** Histories.  A query of the smallest cluster id only names stored sites. *)
Fixpoint asks_known (m : sites_t) (ops : list sop) : Prop :=
  match ops with
  | [] => True
  | o :: os =>
      (match o with SSmallest _ ids => forall k, In k ids -> In k (ukeys m) | _ => True end)
      /\ asks_known (match sc_do o m with Ret _ m' => m' | Thr _ m' => m' | Halt _ => m end) os
  end.

Lemma sites_history ops : forall m f, content m f -> asks_known m ops ->
  exists f', runs sspec f ops (fst (exec sc_do ops m)) f' /\ content (snd (exec sc_do ops m)) f'.
Proof.
  induction ops as [|o ops IH]; intros m f Hc Hk; cbn [exec].
  - exists f; split; [constructor|exact Hc].
  - destruct Hk as [Hk1 Hk2].
    assert (Hkn : knows f o).
    { destruct o; try exact Logic.I. intros k Hi; rewrite <- (proj2 Hc).
      specialize (Hk1 k Hi); apply ukeys_In in Hk1 as [v ->]; discriminate. }
    destruct (sites_refine m f o Hc Hkn) as (f1 & H1 & H2).
    destruct (sc_do o m) as [a m'|e m'|h]; cbn in H1, H2.
    + destruct (IH m' f1 H2 Hk2) as (f' & H3 & H4).
      destruct (exec sc_do ops m') as [rs t]; exists f'; split; [|exact H4].
      eapply runs_call; [discriminate|exact H1|exact H3].
    + destruct (IH m' f1 H2 Hk2) as (f' & H3 & H4).
      destruct (exec sc_do ops m') as [rs t]; exists f'; split; [|exact H4].
      eapply runs_call; [discriminate|exact H1|exact H3].
    + exists f1; split; [eapply runs_stop; exact H1|exact H2].
Qed.
Lemma clusters_history ops : forall m f, content m f ->
  exists f', runs cspec f ops (fst (exec cc_do ops m)) f' /\ content (snd (exec cc_do ops m)) f'.
Proof.
  induction ops as [|o ops IH]; intros m f Hc; cbn [exec].
  - exists f; split; [constructor|exact Hc].
  - destruct (clusters_refine m f o Hc) as (f1 & H1 & H2).
    destruct (cc_do o m) as [a m'|e m'|h]; cbn in H1, H2.
    + destruct (IH m' f1 H2) as (f' & H3 & H4).
      destruct (exec cc_do ops m') as [rs t]; exists f'; split; [|exact H4].
      eapply runs_call; [discriminate|exact H1|exact H3].
    + destruct (IH m' f1 H2) as (f' & H3 & H4).
      destruct (exec cc_do ops m') as [rs t]; exists f'; split; [|exact H4].
      eapply runs_call; [discriminate|exact H1|exact H3].
    + exists f1; split; [eapply runs_stop; exact H1|exact H2].
Qed.
(** the first insertion, whatever the hash order *)
Lemma uset_first {V} k (v : V) : uset [] k v = [(k, v)].
Proof.
  pose proof (hplace_perm V [] k v) as P.
  apply Permutation_sym, Permutation_length_1_inv in P; exact P.
Qed.
Lemma add_first s i : s_id s = Some i -> sc_addSite s [] = Ret tt [(i, s)].
Proof.
  intros E; unfold sc_addSite, bind, lift, s_getId, gets, modify; rewrite E; cbn [umem ulookup].
  rewrite uset_first; reflexivity.
Qed.
Lemma cadd_first c : cc_addCluster c [] = Ret tt [(c_id c, c)].
Proof.
  unfold cc_addCluster, bind, gets, modify; cbn [umem ulookup].
  rewrite uset_first; reflexivity.
Qed.
Lemma exec_ok {S O A} (step : O -> M S A) o os s a s' :
  step o s = Ret a s' -> exec step (o :: os) s = let (rs, t) := exec step os s' in (Ok a :: rs, t).
Proof. intros E; cbn [exec]; rewrite E; reflexivity. Qed.
Lemma content_empty {V} : content ([] : umap V) none.
Proof. split; [constructor|reflexivity]. Qed.
End P.
