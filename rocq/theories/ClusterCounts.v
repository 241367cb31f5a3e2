(** * The visit counts of the members of a cluster, for every arithmetic *)
From Coq Require Import ZArith List Bool Lia Permutation.
From Verif Require Import Base BaseProofs Num SiteModel ClusterModel ClusterFrame.
Import ListNotations.
Open Scope Z_scope.

(** the values of an int survive the cast to double, rounding and the cast back,
    and casts to int give values of an int *)
Definition whole_numbers {N : Num} : Prop :=
  (forall z, in_int z = true -> ntrunc (nround (nofZ z)) = Some z) /\ (forall x z, ntrunc x = Some z -> in_int z = true).

Section Counts.
Context {I : Impl} {N : Num} {G : Rng}.

(** the counters after a read: pending visits of the cluster are spread *)
Definition settled (c : cluster) : res (umap num) :=
  if c_visits c =? c_prev c then Ok (c_svisits c)
  else spread_visits c (nofZ (c_visits c - c_prev c)) (c_svisits c) (c_svisits c).
(** the recorded count of a member *)
Definition records (c : cluster) (k v : Z) : Prop :=
  In k (ukeys (c_svisits c)) /\ exists sv, settled c = Ok sv /\ ntrunc (nround (uget n0 k sv)) = Some v.
(** the counters have exactly the members as keys *)
Definition counted (c : cluster) : Prop :=
  NoDup (ukeys (c_svisits c)) /\ forall k, In k (ukeys (c_svisits c)) <-> In k (c_siteIds c).

Lemma gets_ret' {S A} (f : S -> A) s a s' : gets f s = Ret a s' -> a = f s /\ s' = s.
Proof. intros E; inversion E; auto. Qed.
Lemma assert_ret' {S} b (s : S) a s' : cassert b s = Ret a s' -> b = true /\ s' = s.
Proof. unfold cassert. destruct b; intros E; inversion E; auto. Qed.
Lemma lift_ret' {S A} (r : res A) (s : S) a s' : lift r s = Ret a s' -> r = Ok a /\ s' = s.
Proof. unfold lift. destruct r; intros E; inversion E; auto. Qed.

Lemma uset_old_keys {V} (m : umap V) k v : In k (ukeys m) -> ukeys (uset m k v) = ukeys m.
Proof. intros H. apply ukeys_In in H. destruct H as [x E]. unfold uset, umem. rewrite E. apply ureplace_keys. Qed.
Lemma spread_keys c d l : forall sv sv', (forall e, In e l -> In (fst e) (ukeys sv)) -> spread_visits c d l sv = Ok sv' -> ukeys sv' = ukeys sv.
Proof.
  induction l as [|e l IH]; intros sv sv' Hl E; cbn [spread_visits] in E; [inversion E; reflexivity|].
  destruct (ulookup (fst e) (c_sites c)), (ulookup (fst e) (c_idwell c)); try discriminate.
  assert (H0 : In (fst e) (ukeys sv)) by (apply Hl; left; reflexivity).
  apply IH in E; [rewrite E; apply uset_old_keys, H0|].
  intros x Hx. rewrite uset_old_keys by exact H0. apply Hl; right; exact Hx.
Qed.
Lemma settled_keys c sv : settled c = Ok sv -> ukeys sv = ukeys (c_svisits c).
Proof.
  unfold settled. destruct (_ =? _); intros E; [inversion E; reflexivity|].
  eapply spread_keys; [|exact E]. intros e He. apply in_map, He.
Qed.

Lemma getVisits_inv k c v c' : c_getVisits k c = Ret v c' ->
  exists sv, settled c = Ok sv /\ c' = c_with_prev (c_visits c) (c_with_svisits sv c) /\
    In k (ukeys (c_svisits c)) /\ neqb (c_tau c) unassigned_value = false /\ ntrunc (nround (uget n0 k sv)) = Some v.
Proof.
  unfold c_getVisits. intros E.
  apply bind_ret_inv in E. destruct E as (x & s & E1 & E). apply gets_ret' in E1. destruct E1; subst x s.
  apply bind_ret_inv in E. destruct E as (x & s & E1 & E). apply assert_ret' in E1. destruct E1 as [Em ->].
  apply bind_ret_inv in E. destruct E as (y & s & E1 & E). apply assert_ret' in E1. destruct E1 as [Et ->].
  apply bind_ret_inv in E. destruct E as ([] & s & E1 & E).
  assert (X : exists sv, settled c = Ok sv /\ s = c_with_prev (c_visits c) (c_with_svisits sv c)).
  { unfold settled. destruct (Z.eqb_spec (c_visits c) (c_prev c)) as [Ev|Nv].
    - inversion E1; subst s. exists (c_svisits c). split; [reflexivity|]. rewrite Ev. destruct c; reflexivity.
    - apply bind_ret_inv in E1. destruct E1 as (sv & s1 & E1 & E2). apply lift_ret' in E1. destruct E1 as [E1 ->].
      inversion E2; subst. exists sv. split; [exact E1|reflexivity]. }
  destruct X as (sv & Es & ->). exists sv. apply bind_ret_inv in E. destruct E as (sv' & s & E2 & E).
  apply gets_ret' in E2. destruct E2; subst sv' s. cbn [c_svisits c_with_prev c_with_svisits] in E.
  destruct (ntrunc _) eqn:En; inversion E; subst. apply negb_true_iff in Et. apply umem_In in Em. auto.
Qed.
Lemma getVisits_records k c v c' : c_getVisits k c = Ret v c' -> records c k v.
Proof. intros E. apply getVisits_inv in E. destruct E as (sv & E1 & _ & Hk & _ & En). split; [exact Hk|eauto]. Qed.
Lemma records_fun c k v v' : records c k v -> records c k v' -> v = v'.
Proof. intros (_ & sv & E & En) (_ & sv' & E' & En'). congruence. Qed.

(** a read settles the counters *)
Lemma settled_again c sv : settled c = Ok sv -> settled (c_with_prev (c_visits c) (c_with_svisits sv c)) = Ok sv.
Proof. intros _. unfold settled. cbn [c_visits c_prev c_svisits c_with_prev c_with_svisits]. rewrite Z.eqb_refl. reflexivity. Qed.
Lemma settle_records c sv k v : settled c = Ok sv -> records c k v <-> records (c_with_prev (c_visits c) (c_with_svisits sv c)) k v.
Proof.
  intros E. unfold records. rewrite (settled_again _ _ E), E. cbn [c_svisits c_with_prev c_with_svisits].
  rewrite (settled_keys _ _ E). reflexivity.
Qed.
Lemma settle_counted c sv : settled c = Ok sv -> counted c -> counted (c_with_prev (c_visits c) (c_with_svisits sv c)).
Proof. intros E [ND K]. unfold counted. cbn [c_svisits c_with_prev c_with_svisits]. rewrite (settled_keys _ _ E). split; assumption. Qed.
Definition calm_visits (c c' : cluster) : Prop := c' = c \/ exists sv, settled c = Ok sv /\ c' = c_with_prev (c_visits c) (c_with_svisits sv c).
Lemma calm_visits_trans a b c : calm_visits a b -> calm_visits b c -> calm_visits a c.
Proof.
  intros [->|(sv & E & ->)] H; [exact H|]. right. exists sv. split; [exact E|].
  destruct H as [->|(sv' & E' & ->)]; [reflexivity|]. rewrite (settled_again _ _ E) in E'. inversion E'; subst. reflexivity.
Qed.

Lemma visitList_inv l : forall c m c', c_visitList l c = Ret m c' ->
  calm_visits c c' /\ ukeys m = l /\ (l <> [] -> c_visits c' = c_prev c') /\
  (forall k v, In (k, v) m -> records c k v) /\ (l <> [] -> neqb (c_tau c) unassigned_value = false).
Proof.
  induction l as [|k l IH]; intros c m c' E; cbn [c_visitList] in E.
  - inversion E; subst. split; [left; reflexivity|]. split; [reflexivity|]. split; [congruence|]. split; [intros ? ? []|congruence].
  - apply bind_ret_inv in E. destruct E as (v & c1 & E1 & E). apply bind_ret_inv in E. destruct E as (m1 & c2 & E2 & E). inversion E; subst m c2; clear E.
    pose proof (getVisits_records _ _ _ _ E1) as R1. apply getVisits_inv in E1. destruct E1 as (sv & Es & -> & Hk & Et & En).
    apply IH in E2. destruct E2 as (C & K & P & R & T).
    assert (C' : calm_visits c c') by (eapply calm_visits_trans; [|exact C]; right; eauto).
    split; [exact C'|]. split; [cbn; f_equal; exact K|]. split; [|split].
    + intros _. destruct C as [->|(sv' & E' & ->)]; reflexivity.
    + intros j w [Hj|Hj]; [inversion Hj; subst; exact R1|]. apply (settle_records _ _ _ _ Es). apply R, Hj.
    + intros _. exact Et.
Qed.

(** ** The update keeps the counts *)
Definition face (c : cluster) := (c_visits c, c_prev c, c_svisits c).
Definition faces {A} (m : M cluster A) : Prop := forall c a c', m c = Ret a c' -> face c' = face c.
Lemma faces_bind {A B} (m : M cluster A) (k : A -> M cluster B) : faces m -> (forall a, faces (k a)) -> faces (bind m k).
Proof. intros H1 H2 c a c' E. apply bind_ret_inv in E. destruct E as (x & c1 & E1 & E2). rewrite (H2 _ _ _ _ E2). eapply H1; eauto. Qed.
Lemma faces_modify f : (forall c, face (f c) = face c) -> faces (modify f).
Proof. intros H c a c' E. inversion E; subst. apply H. Qed.
Lemma faces_gets {A} (f : cluster -> A) : faces (gets f).
Proof. intros c a c' E; inversion E; subst; reflexivity. Qed.
Lemma faces_assert b : faces (cassert b).
Proof. intros c a c' E. apply assert_ret' in E. destruct E as [_ ->]. reflexivity. Qed.
Lemma faces_lift {A} (r : res A) : faces (lift r).
Proof. intros c a c' E. apply lift_ret' in E. destruct E as [_ ->]. reflexivity. Qed.
Ltac face_tac := repeat match goal with
  | |- faces (bind _ _) => apply faces_bind; [|intros]
  | |- faces (modify _) => apply faces_modify; intros; reflexivity
  | |- faces (gets _) => apply faces_gets
  | |- faces (cassert _) => apply faces_assert
  | |- faces (lift _) => apply faces_lift end.
Lemma faces_tables fuel h :
  faces (c_solve fuel h ;; c_calcSumOff h ;; c_calcSumInt h ;; c_calcHopOff h ;; c_calcHopBetween h ;; c_calcTau h ;; c_calcITau h).
Proof.
  unfold c_solve, c_calcHopToInternal, c_calcHopToNeighbors, c_calcInternalDwell, c_calcSumOff, c_calcSumInt, c_calcHopOff, c_calcHopBetween, c_calcTau, c_calcITau.
  face_tac.
Qed.

Lemma seq7 {S A B} (a b c d e f g : M S A) (r : M S B) s :
  (a ;; b ;; c ;; d ;; e ;; f ;; g ;; r) s = ((a ;; b ;; c ;; d ;; e ;; f ;; g) ;; r) s.
Proof.
  unfold bind. destruct (a s) as [? s1|? ?|?]; [|reflexivity|reflexivity]. destruct (b s1) as [? s2|? ?|?]; [|reflexivity|reflexivity].
  destruct (c s2) as [? s3|? ?|?]; [|reflexivity|reflexivity]. destruct (d s3) as [? s4|? ?|?]; [|reflexivity|reflexivity].
  destruct (e s4) as [? s5|? ?|?]; [|reflexivity|reflexivity]. destruct (f s5) as [? s6|? ?|?]; reflexivity.
Qed.

Lemma refill_value saved l : NoDup l -> forall c c', mfor l (refill saved) c = Ret tt c' -> NoDup (ukeys (c_svisits c)) ->
  c_visits c' = c_visits c /\ c_prev c' = c_prev c /\ c_tau c' = c_tau c /\ NoDup (ukeys (c_svisits c')) /\
  (forall k, ~ In k l -> ulookup k (c_svisits c') = ulookup k (c_svisits c)) /\
  (forall k, In k l -> ulookup k (c_svisits c') = Some (match ulookup k saved with Some v => nofZ v | None => n0 end)).
Proof.
  induction l as [|k l IH]; intros NDl c c' E ND; cbn [mfor] in E.
  - inversion E; subst. repeat split; auto. intros k [].
  - inversion NDl as [|? ? Nk NDl']; subst. apply bind_ret_inv in E. destruct E as ([] & c1 & E1 & E).
    assert (X : exists sv, c1 = c_with_svisits sv c /\ NoDup (ukeys sv) /\
              ulookup k sv = Some (match ulookup k saved with Some v => nofZ v | None => n0 end) /\
              forall j, j <> k -> ulookup j sv = ulookup j (c_svisits c)).
    { unfold refill in E1. apply bind_ret_inv in E1. destruct E1 as ([] & s1 & E2 & E1). rewrite modify_eq in E2. inversion E2; subst s1; clear E2.
      assert (ND1 : NoDup (ukeys (uset (c_svisits c) k n0))) by (apply uset_NoDup, ND).
      destruct (ulookup k saved) as [v|].
      - apply setVisits_inv in E1. destruct E1 as (-> & _). cbn [c_svisits c_with_svisits]. eexists. split; [reflexivity|].
        split; [apply uset_NoDup, ND1|]. split; [apply uset_lookup_same, ND1|]. intros j Hj.
        rewrite uset_lookup_other by auto. apply uset_lookup_other; auto.
      - inversion E1; subst. eexists. split; [reflexivity|]. split; [exact ND1|]. split; [apply uset_lookup_same, ND|].
        intros j Hj. apply uset_lookup_other; auto. }
    destruct X as (sv & -> & NDs & L1 & L2). apply IH in E; [|exact NDl'|exact NDs].
    cbn [c_visits c_prev c_tau c_svisits c_with_svisits] in E. destruct E as (A1 & A2 & A3 & A4 & A5 & A6).
    split; [exact A1|]. split; [exact A2|]. split; [exact A3|]. split; [exact A4|]. split.
    + intros j Hj. rewrite A5 by (intros X; apply Hj; right; exact X). apply L2. intros ->. apply Hj. left; reflexivity.
    + intros j [<-|Hj]; [|auto]. rewrite A5 by exact Nk. exact L1.
Qed.

Lemma update_counts fuel h c c' : whole_numbers -> counted c \/ c_svisits c = [] \/ (NoDup (ukeys (c_svisits c)) /\ forall k, In k (ukeys (c_svisits c)) -> In k (c_siteIds c)) ->
  NoDup (c_siteIds c) -> (c_svisits c = [] -> c_visits c = c_prev c) -> c_update fuel h c = Ret tt c' ->
  c_visits c' = c_prev c' /\ counted c' /\
  (forall k v, records c k v -> records c' k v) /\
  (forall k, In k (c_siteIds c) -> ~ In k (ukeys (c_svisits c)) -> records c' k 0).
Proof.
  intros W Hk0 NDs Hp E.
  assert (Hk : NoDup (ukeys (c_svisits c)) /\ forall k, In k (ukeys (c_svisits c)) -> In k (c_siteIds c)).
  { destruct Hk0 as [[A B]|[E0|H]]; [split; [exact A|intros k; apply B]| |exact H]. rewrite E0. split; [constructor|intros k []]. }
  clear Hk0. destruct Hk as [NDv Kv].
  pose proof (keeps_update _ _ _ _ _ E) as Co. pose proof (update_svisits _ _ _ _ E) as [ND' K'].
  unfold c_update in E.
  apply bind_ret_inv in E. destruct E as (keys & s & E1 & E). apply gets_ret' in E1. destruct E1; subst keys s.
  apply bind_ret_inv in E. destruct E as (saved & c1 & E1 & E). pose proof (keeps_visitList _ _ _ _ E1) as Co1.
  apply visitList_inv in E1. destruct E1 as (C1 & Ks & P1 & Rs & Ts).
  assert (Pv : c_visits c1 = c_prev c1).
  { destruct (c_svisits c) as [|e sv] eqn:Esv; [|apply P1; discriminate].
    destruct C1 as [->|(sv & _ & ->)]; [apply Hp; reflexivity|reflexivity]. }
  rewrite seq7 in E.
  apply bind_ret_inv in E. destruct E as (u & c2 & E2 & E). pose proof (faces_tables _ _ _ _ _ E2) as F2.
  unfold face in F2. injection F2 as F2v F2p F2s.
  apply bind_ret_inv in E. destruct E as (u3 & c3 & E3 & E). rewrite modify_eq in E3. inversion E3; subst u3 c3; clear E3.
  apply bind_ret_inv in E. destruct E as (ids & c3 & E3 & E). apply gets_ret' in E3. destruct E3; subst ids c3.
  apply bind_ret_inv in E. destruct E as ([] & c3 & E3 & E).
  assert (Ids : c_siteIds (c_with_svisits [] c2) = c_siteIds c).
  { unfold c_siteIds. cbn [c_sites c_with_svisits]. f_equal. rewrite <- (sc_sites _ _ Co1).
    assert (X : forall c2, same_core c1 c2 -> c_sites c2 = c_sites c1) by (intros ? []; assumption). apply X.
    eapply (keeps_bind _ _ (keeps_solve fuel h)); [|exact E2]. intros ?.
    unfold c_calcSumOff, c_calcSumInt, c_calcHopOff, c_calcHopBetween, c_calcTau, c_calcITau.
    repeat first [ apply keeps_bind; [|intros ?] | apply keeps_lift | apply keeps_gets | apply keeps_assert | (apply keeps_modify; intros; constructor; reflexivity) ]. }
  rewrite Ids in E3.
  change (mfor (c_siteIds c) (refill saved) (c_with_svisits [] c2) = Ret tt c3) in E3.
  apply refill_value in E3; [|exact NDs|constructor].
  cbn [c_visits c_prev c_svisits c_with_svisits] in E3. destruct E3 as (A1 & A2 & A3 & A4 & A5 & A6).
  unfold c_calcInternalDwell in E. rewrite modify_eq in E. inversion E as [Ec]. clear E.
  assert (Ev : c_visits c' = c_prev c') by (rewrite <- Ec; cbn [c_visits c_prev c_with_idwell]; congruence).
  assert (Es : settled c' = Ok (c_svisits c')) by (unfold settled; rewrite Ev, Z.eqb_refl; reflexivity).
  assert (Esv : c_svisits c' = c_svisits c3) by (rewrite <- Ec; reflexivity).
  rewrite Ec. split; [exact Ev|]. split; [|split].
  - split; [exact ND'|]. intros k. rewrite K'. unfold c_siteIds. rewrite (sc_sites _ _ Co). tauto.
  - intros k v R. pose proof R as (Hk & sv & Er & En).
    split; [apply K', Kv, Hk|]. exists (c_svisits c'). split; [exact Es|].
    unfold uget. rewrite Esv, (A6 k (Kv k Hk)).
    assert (Hin : In k (ukeys saved)) by (rewrite Ks; exact Hk).
    assert (NDsv : NoDup (ukeys saved)) by (rewrite Ks; exact NDv).
    apply ukeys_In in Hin. destruct Hin as [w Ew]. rewrite Ew.
    assert (w = v) by (eapply records_fun; [apply Rs, ulookup_In, Ew|exact R]). subst w. apply W, (proj2 W _ _ En).
  - intros k Hk Nk.
    split; [apply K', Hk|]. exists (c_svisits c'). split; [exact Es|]. unfold uget. rewrite Esv, (A6 k Hk).
    assert (X : ulookup k saved = None) by (apply ulookup_None; rewrite Ks; exact Nk). rewrite X. apply W. reflexivity.
Qed.

(** ** Migrating keeps the counts of both clusters *)
Lemma spread_ext c c' d l : c_idwell c' = c_idwell c -> c_pon c' = c_pon c -> c_tau c' = c_tau c -> c_res c' = c_res c ->
  (forall e, In e l -> option_map s_tau (ulookup (fst e) (c_sites c')) = option_map s_tau (ulookup (fst e) (c_sites c))) ->
  forall sv, spread_visits c' d l sv = spread_visits c d l sv.
Proof.
  intros E1 E2 E3 E4. induction l as [|e l IH]; intros Hl sv; [reflexivity|]. cbn [spread_visits].
  pose proof (Hl e (or_introl eq_refl)) as He. rewrite E1, E2, E3, E4.
  destruct (ulookup (fst e) (c_sites c')) as [s'|], (ulookup (fst e) (c_sites c)) as [s|]; cbn in He; try discriminate; [|reflexivity].
  inversion He as [Et]. destruct (ulookup (fst e) (c_idwell c)); [|reflexivity]. rewrite Et. apply IH. intros x Hx. apply Hl. right; exact Hx.
Qed.
Lemma records_ext c c' : c_idwell c' = c_idwell c -> c_pon c' = c_pon c -> c_tau c' = c_tau c -> c_res c' = c_res c ->
  face c' = face c ->
  (forall k, In k (ukeys (c_svisits c)) -> option_map s_tau (ulookup k (c_sites c')) = option_map s_tau (ulookup k (c_sites c))) ->
  forall k v, records c' k v <-> records c k v.
Proof.
  intros E1 E2 E3 E4 F Hs k v. unfold face in F. injection F as Fv Fp Fs.
  assert (X : settled c' = settled c).
  { unfold settled. rewrite Fv, Fp, Fs. destruct (_ =? _); [reflexivity|]. apply spread_ext; auto. intros e He. apply Hs, in_map, He. }
  unfold records. rewrite X, Fs. reflexivity.
Qed.

Lemma sets_value l : forall (a a' b b' : cluster), NoDup (ukeys l) -> NoDup (ukeys (c_svisits a)) ->
  mfor l (fun e => onFst (c_setVisits (snd e) (fst e))) (a, b) = Ret tt (a', b') ->
  b' = b /\ c_visits a' = c_visits a /\ c_prev a' = c_prev a /\ c_sites a' = c_sites a /\ ukeys (c_svisits a') = ukeys (c_svisits a) /\
  (forall k, ulookup k (c_svisits a') = match ulookup k l with Some v => Some (nofZ v) | None => ulookup k (c_svisits a) end) /\
  (forall k, In k (ukeys l) -> In k (ukeys (c_svisits a))).
Proof.
  induction l as [|[k v] l IH]; intros a a' b b' NDl ND E; cbn [mfor] in E.
  - inversion E; subst. repeat split; auto. intros k [].
  - apply bind_ret_inv in E. destruct E as ([] & [a1 b1] & E1 & E). unfold onFst, zoom in E1. cbn [fst snd] in E1.
    destruct (c_setVisits v k a) as [[] x|? ?|?] eqn:Es; inversion E1; subst x b1. clear E1.
    apply setVisits_inv in Es. destruct Es as (-> & Hm & _). apply umem_In in Hm.
    cbn [ukeys map fst] in NDl. inversion NDl as [|? ? Nk NDl']; subst.
    apply IH in E; [|exact NDl'|apply uset_NoDup, ND]. cbn [c_visits c_prev c_sites c_svisits c_with_svisits] in E.
    destruct E as (Eb & A1 & A2 & A3 & A4 & A5 & A6). rewrite uset_old_keys in A4, A6 by exact Hm.
    split; [exact Eb|]. split; [exact A1|]. split; [exact A2|]. split; [exact A3|]. split; [exact A4|]. split.
    + intros j. rewrite A5. cbn [ulookup]. rewrite uset_lookup by exact ND. destruct (Z.eqb_spec j k) as [->|]; [|reflexivity].
      assert (X : ulookup k l = None) by (apply ulookup_None; exact Nk). rewrite X. reflexivity.
    + intros j [<-|Hj]; [exact Hm|auto].
Qed.

Lemma map_label_lookup i k (m : umap site) :
  ulookup k (map (fun e => (fst e, s_with_cluster i (snd e))) m) = option_map (s_with_cluster i) (ulookup k m).
Proof. induction m as [|[j x] m IH]; [reflexivity|]. cbn [map ulookup fst snd]. destruct (k =? j); [reflexivity|exact IH]. Qed.
Lemma migrate_counts fuel h a b p : whole_numbers -> c_migrate fuel h (a, b) = Ret tt p ->
  counted a -> counted b -> NoDup (c_siteIds a) -> NoDup (c_siteIds b) -> (forall k, In k (c_siteIds a) -> ~ In k (c_siteIds b)) ->
  c_siteIds a <> [] ->
  c_visits (fst p) = c_prev (fst p) /\ counted (fst p) /\
  (forall k v, records a k v -> records (fst p) k v) /\ (forall k v, records b k v -> records (fst p) k v).
Proof.
  intros W E Ca Cb NDa NDb Dj Na.
  unfold c_migrate in E.
  apply bind_ret_inv in E. destruct E as (i & p0 & E0 & E). apply gets_ret' in E0. destruct E0; subst i p0. cbn [fst] in E.
  apply bind_ret_inv in E. destruct E as (u1 & p1 & E1 & E). unfold onSnd, zoom, modify in E1. inversion E1; subst u1 p1. clear E1.
  cbn [fst snd] in E.
  set (b0 := c_with_sites (map (fun e => (fst e, s_with_cluster (c_id a) (snd e))) (c_sites b)) b) in *.
  assert (Kb : c_siteIds b0 = c_siteIds b) by (unfold c_siteIds, b0; cbn [c_sites c_with_sites]; unfold ukeys; rewrite map_map; reflexivity).
  assert (Lb : forall k, ulookup k (c_sites b0) = option_map (s_with_cluster (c_id a)) (ulookup k (c_sites b))).
  { intros k. unfold b0. cbn [c_sites c_with_sites]. apply map_label_lookup. }
  apply bind_ret_inv in E. destruct E as (ids & p2 & E2 & E). apply gets_ret' in E2. destruct E2; subst ids p2. cbn [snd] in E.
  apply bind_ret_inv in E. destruct E as (vs & p3 & E3 & E). unfold onSnd, zoom in E3. cbn [snd fst] in E3.
  destruct (c_visitList _ _) as [vs' b1|? ?|?] eqn:Ev; inversion E3; subst vs' p3. clear E3.
  pose proof (keeps_visitList _ _ _ _ Ev) as Cv. apply visitList_inv in Ev. destruct Ev as (_ & Kvs & _ & Rvs & _).
  apply bind_ret_inv in E. destruct E as (mv & p4 & E4 & E). apply gets_ret' in E4. destruct E4; subst mv p4. cbn [fst snd] in E.
  rewrite (sc_sites _ _ Cv) in E.
  apply bind_ret_inv in E. destruct E as (u5 & p5 & E5 & E). unfold onFst, zoom, modify in E5. inversion E5; subst u5 p5. clear E5.
  cbn [fst snd] in E.
  apply bind_ret_inv in E. destruct E as (u6 & p6 & E6 & E). unfold onSnd, zoom, modify in E6. inversion E6; subst u6 p6. clear E6.
  cbn [fst snd] in E.
  apply bind_ret_inv in E. destruct E as (u7 & p7 & E7 & E). unfold onFst, zoom in E7. cbn [fst snd] in E7.
  destruct (c_update _ _ _) as [u a1|? ?|?] eqn:Eu; inversion E7; subst u7 p7. clear E7. destruct u.
  set (a0 := c_with_sites _ a) in Eu.
  assert (X : forall l (m0 : umap site), NoDup (ukeys m0) ->
     let r := fold_left (fun m e => if umem (fst e) m then m else uset m (fst e) (snd e)) l m0 in
     NoDup (ukeys r) /\ (forall k m, ulookup k m0 = Some m -> ulookup k r = Some m) /\
     (forall k, In k (ukeys r) <-> In k (ukeys m0) \/ In k (ukeys l))).
  { clear. induction l as [|[k0 x0] l IH]; intros m0 ND; cbn [map fold_left fst snd].
    - split; [exact ND|]. split; [auto|]. intros k. cbn. tauto.
    - set (m1 := if umem k0 m0 then m0 else uset m0 k0 x0).
      assert (ND1 : NoDup (ukeys m1)) by (subst m1; destruct (umem k0 m0); [exact ND|apply uset_NoDup, ND]).
      destruct (IH m1 ND1) as (N1 & A1 & A2). cbv zeta in *. split; [exact N1|]. split.
      + intros k m E. apply A1. subst m1. destruct (umem k0 m0) eqn:Em; [exact E|]. rewrite uset_lookup by exact ND.
        destruct (Z.eqb_spec k k0) as [->|]; [|exact E]. unfold umem in Em. rewrite E in Em. discriminate.
      + intros k. rewrite A2. subst m1. cbn. destruct (umem k0 m0) eqn:Em.
        * apply umem_In in Em. intuition (subst; auto).
        * rewrite uset_keys_In. intuition. }
  destruct (X (c_sites b0) (c_sites a) NDa) as (ND0 & L0 & K0). clear X. cbv zeta in *.
  assert (Ka0 : forall k, In k (c_siteIds a0) <-> In k (c_siteIds a) \/ In k (c_siteIds b)) by (intros k; rewrite <- Kb; apply K0).
  assert (Ra0 : forall k v, records a0 k v <-> records a k v).
  { apply records_ext; try reflexivity. intros k Hk.
    apply (proj2 Ca) in Hk. apply ukeys_In in Hk. destruct Hk as [m Em].
    assert (Lk : ulookup k (c_sites a0) = Some m) by exact (L0 k m Em). rewrite Em, Lk. reflexivity. }
  assert (Rb0 : forall k v, records b0 k v <-> records b k v).
  { apply records_ext; try reflexivity. intros k Hk. rewrite Lb. destruct (ulookup k (c_sites b)); reflexivity. }
  assert (Eu2 := Eu). apply update_counts in Eu2; [|exact W| |exact ND0|].
  2:{ right. right. split; [apply Ca|]. intros k Hk. apply Ka0. left. apply Ca, Hk. }
  2:{ intros E0. exfalso. destruct (c_siteIds a) as [|x l] eqn:Ex; [congruence|].
      assert (Hx : In x (ukeys (c_svisits a))) by (apply (proj2 Ca); rewrite Ex; left; reflexivity).
      change (c_svisits a0) with (c_svisits a) in E0. rewrite E0 in Hx. destruct Hx. }
  destruct Eu2 as (P1 & C1 & R1 & _).
  destruct p as [a2 b2]. apply sets_value in E; [|rewrite Kvs, Kb; exact NDb|apply C1].
  destruct E as (_ & A1 & A2 & A3 & A4 & A5 & A6). cbn [fst].
  assert (P2 : c_visits a2 = c_prev a2) by congruence.
  assert (Es : settled a2 = Ok (c_svisits a2)) by (unfold settled; rewrite P2, Z.eqb_refl; reflexivity).
  split; [exact P2|]. split; [|split].
  - split; [rewrite A4; apply C1|]. intros k. rewrite A4. unfold c_siteIds. rewrite A3. apply (proj2 C1).
  - intros k v R. assert (Hka : In k (c_siteIds a)) by (apply Ca, R). apply Ra0, R1 in R. destruct R as (Hk & sv & Er & En).
    unfold settled in Er. rewrite P1, Z.eqb_refl in Er. inversion Er; subst sv.
    split; [rewrite A4; exact Hk|]. exists (c_svisits a2). split; [exact Es|].
    unfold uget. rewrite A5. unfold uget in En.
    destruct (ulookup k vs) as [w|] eqn:Ew; [|exact En]. exfalso.
    assert (Hb : In k (c_siteIds b)) by (rewrite <- Kb, <- Kvs; eapply ulookup_In_key; exact Ew).
    exact (Dj _ Hka Hb).
  - intros k v R. apply Rb0 in R. assert (Hkb : In k (c_siteIds b)) by (apply Cb, R).
    assert (Hv : In k (ukeys vs)) by (rewrite Kvs, Kb; exact Hkb).
    assert (H1 : In k (ukeys (c_svisits a1))) by (apply A6, Hv).
    apply ukeys_In in Hv. destruct Hv as [w Ew]. pose proof (Rvs _ _ (ulookup_In _ _ _ Ew)) as R'.
    assert (w = v) by (eapply records_fun; eauto). subst w. destruct R as (_ & sv & _ & En).
    split; [rewrite A4; exact H1|]. exists (c_svisits a2). split; [exact Es|].
    unfold uget. rewrite A5, Ew. apply (proj1 W), (proj2 W _ _ En).
Qed.
End Counts.
