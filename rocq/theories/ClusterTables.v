(** * The cluster's tables and time constants over exact arithmetic *)
From Coq Require Import ZArith List Bool Reals Lra Lia Permutation Relations.
From Verif Require Import Base BaseProofs Num OrdLaws RSum SiteModel SiteSpec SiteProofs
  ClusterModel ClusterSpec ClusterFrame MasterEq ClusterReal.
Import ListNotations.
Open Scope R_scope.

(** ** Tables given by a function *)
Definition tab (f : Z -> R) (K : list Z) : umap xn := map (fun k => (k, Fin (f k) : xn)) K.
Lemma tab_keys f K : ukeys (tab f K) = K.
Proof. unfold tab, ukeys. rewrite map_map. cbn [fst]. apply map_id. Qed.
Lemma tab_sum f K : @sum_snd XR (tab f K) = Fin (Rsum f K).
Proof.
  rewrite (sum_snd_vals _ f).
  - f_equal. unfold tab. rewrite Rsum_map. reflexivity.
  - intros e He. apply in_map_iff in He. destruct He as (k & <- & _). reflexivity.
Qed.
Lemma tab_eq (l : umap xn) f : vals l f -> l = tab f (ukeys l).
Proof.
  intros Hv. unfold tab, ukeys. rewrite map_map. rewrite <- (map_id l) at 1. apply map_ext_in.
  intros [k v] Hin. rewrite <- (Hv _ Hin). reflexivity.
Qed.
Lemma tab_vals f K : vals (tab f K) f.
Proof. intros e He. apply in_map_iff in He. destruct He as (k & <- & _). reflexivity. Qed.
Lemma tab_perm (l : umap xn) f K : Permutation l (tab f K) -> exists K2, l = tab f K2 /\ Permutation K2 K.
Proof.
  intros P. exists (ukeys l). split.
  - apply tab_eq. intros e He. apply (tab_vals f K). eapply Permutation_in; eauto.
  - unfold ukeys. rewrite P. fold (ukeys (tab f K)). rewrite tab_keys. reflexivity.
Qed.
Lemma tab_lookup f K k : In k K -> ulookup k (tab f K) = Some (Fin (f k) : xn).
Proof.
  induction K as [|j K IH]; [intros []|]. intros Hk. unfold tab. simpl. destruct (Z.eqb_spec k j) as [->|n]; [reflexivity|].
  apply IH. destruct Hk; [congruence | assumption].
Qed.
Lemma tab_ext f g K : (forall k, In k K -> f k = g k) -> tab f K = tab g K.
Proof. intros E. apply map_ext_in. intros k Hk. rewrite (E k Hk). reflexivity. Qed.
Lemma tab_get f K k : In k K -> uget (n0 : xn) k (tab f K) = Fin (f k).
Proof. intros Hk. unfold uget. rewrite (tab_lookup f K k Hk). reflexivity. Qed.
Lemma tab_get_out f K k : ~ In k K -> uget (n0 : xn) k (tab f K) = Fin 0.
Proof.
  intros Hk. unfold uget. rewrite <- (tab_keys f K) in Hk. apply ulookup_None in Hk. rewrite Hk. reflexivity.
Qed.

Section Sort.
Context {I : Impl}.
Lemma sort_desc_tab f K : exists K2, @sort_desc I XR (tab f K) = Ok (tab f K2) /\ Permutation K2 K.
Proof.
  unfold sort_desc. replace (existsb _ (tab f K)) with false.
  - cbn [andb]. destruct (tab_perm _ f K (psort_perm _ (fun x y : Z * xn => nltb (snd y) (snd x)) (tab f K))) as (K2 & E & P).
    exists K2. split; [|exact P]. f_equal. exact E.
  - symmetry. apply not_true_is_false. intros E. apply existsb_exists in E. destruct E as (e & Hin & Hn).
    rewrite (tab_vals f K e Hin) in Hn. unfold isNaN in Hn. cbn [neqb XR xeqb] in Hn.
    unfold Reqb in Hn. destruct (Req_EM_T _ _); [discriminate | congruence].
Qed.
Lemma umap_of_tab f K : NoDup K -> exists K2, umap_of (tab f K) = tab f K2 /\ Permutation K2 K.
Proof.
  intros ND. apply tab_perm. apply umap_of_perm. change (NoDup (ukeys (tab f K))). rewrite tab_keys. exact ND.
Qed.
End Sort.

Lemma NoDup_app_intro_k {A} (l l' : list A) :
  NoDup l -> NoDup l' -> (forall x, In x l -> In x l' -> False) -> NoDup (l ++ l').
Proof.
  induction l as [|a l IH]; intros N N' D; [exact N'|]. inversion N; subst. cbn [app]. constructor.
  - rewrite in_app_iff. intros [X|X]; [contradiction | apply (D a); simpl; auto].
  - apply IH; auto. intros x X Y. apply (D x); simpl; auto.
Qed.

Lemma NoDup_app_l_k {A} (l l' : list A) : NoDup (l ++ l') -> NoDup l.
Proof.
  induction l as [|a l IH]; intros N; [constructor|]. cbn [app] in N. inversion N; subst. constructor; auto.
  intros X. apply H1. apply in_app_iff; auto.
Qed.
Lemma NoDup_app_r_k {A} (l l' : list A) : NoDup (l ++ l') -> NoDup l'.
Proof. induction l as [|a l IH]; intros N; [exact N|]. inversion N; subst; auto. Qed.

(** ** Maps of rates *)
Section RatesWhere.
Context {I : Impl} {N : Num} {G : Rng}.
Variables (h : heap) (keep : Z -> bool).

Definition kept (s : site) : umap num := map (fun na => (fst na, h (snd na))) (filter (fun na => keep (fst na)) (s_neigh s)).

Lemma rw_inner k (neigh : umap Z) : forall m : umap (umap num), NoDup (ukeys m) -> NoDup (ukeys (uget ([] : umap num) k m) ++ ukeys neigh) ->
  let m' := fold_left (fun (m : umap (umap num)) na =>
      if keep (fst na) then uset m k (uset (uget ([] : umap num) k m) (fst na) (h (snd na))) else m) neigh m in
  NoDup (ukeys m') /\ (forall j, j <> k -> ulookup j m' = ulookup j m) /\
  Permutation (uget ([] : umap num) k m') (map (fun na => (fst na, h (snd na))) (filter (fun na => keep (fst na)) neigh) ++ uget ([] : umap num) k m) /\
  umem k m' = (umem k m || existsb (fun na => keep (fst na)) neigh)%bool.
Proof.
  induction neigh as [|[n a] neigh IH]; intros m NM ND; cbn [fold_left filter existsb fst snd].
  - split; [exact NM|]. split; [reflexivity|]. split; [reflexivity|]. rewrite orb_false_r. reflexivity.
  - cbn [ukeys map fst] in ND. pose proof (NoDup_remove_2 _ _ _ ND) as Hn. rewrite in_app_iff in Hn.
    pose proof (NoDup_remove_1 _ _ _ ND) as ND1. destruct (keep n) eqn:Ek.
    + set (r := uset (uget ([] : umap num) k m) n (h a)).
      assert (Pr : Permutation r ((n, h a) :: uget ([] : umap num) k m)).
      { apply uset_perm_new. apply umem_false. tauto. }
      assert (Gr : uget ([] : umap num) k (uset m k r) = r) by (unfold uget; rewrite uset_lookup_same by exact NM; reflexivity).
      destruct (IH (uset m k r)) as (A & B & C & D).
      * apply uset_NoDup; exact NM.
      * rewrite Gr. eapply Permutation_NoDup; [|exact ND].
        unfold ukeys. rewrite (Permutation_map fst Pr). cbn [map fst]. symmetry. apply Permutation_middle.
      * split; [exact A|]. split; [|split].
        { intros j Hj. rewrite B by exact Hj. apply uset_lookup_other; auto. }
        { rewrite C, Gr, Pr. cbn [map fst snd app]. symmetry. apply Permutation_middle. }
        { rewrite D. replace (umem k (uset m k r)) with true; [rewrite orb_true_l; cbn [orb]; destruct (umem k m); reflexivity|].
          symmetry. apply umem_In. apply uset_keys_In. auto. }
    + destruct (IH m NM ND1) as (A & B & C & D).
      split; [exact A|]. split; [exact B|]. split; [exact C|]. rewrite D. reflexivity.
Qed.

Lemma rw_outer (sites : umap site) : (forall k s, In (k, s) sites -> NoDup (ukeys (s_neigh s))) ->
  forall m : umap (umap num), NoDup (ukeys m ++ ukeys sites) ->
  let m' := fold_left (fun (m : umap (umap num)) e =>
    fold_left (fun (m : umap (umap num)) na =>
      if keep (fst na) then uset m (fst e) (uset (uget ([] : umap num) (fst e) m) (fst na) (h (snd na))) else m)
      (s_neigh (snd e)) m) sites m in
  NoDup (ukeys m') /\ (forall j, ~ In j (ukeys sites) -> ulookup j m' = ulookup j m) /\
  forall k s, In (k, s) sites ->
    Permutation (uget ([] : umap num) k m') (kept s) /\ umem k m' = existsb (fun na => keep (fst na)) (s_neigh s).
Proof.
  induction sites as [|[k s] sites IH]; intros Hnd m ND; cbn [fold_left fst snd].
  - rewrite app_nil_r in ND. split; [exact ND|]. split; [reflexivity|]. intros ? ? [].
  - cbn [ukeys map fst] in ND. fold (ukeys sites) in ND.
    pose proof (NoDup_remove_2 _ _ _ ND) as Hk. rewrite in_app_iff in Hk.
    pose proof (NoDup_remove_1 _ _ _ ND) as ND1.
    assert (Ek : ulookup k m = None) by (apply ulookup_None; tauto).
    assert (Gk : uget ([] : umap num) k m = []) by (unfold uget; rewrite Ek; reflexivity).
    destruct (rw_inner k (s_neigh s) m) as (A & B & C & D).
    { exact (NoDup_app_l_k _ _ ND1). }
    { rewrite Gk. apply (Hnd k s). simpl; auto. }
    set (m1 := fold_left _ (s_neigh s) m) in *.
    destruct (IH (fun k s Hin => Hnd k s (or_intror Hin)) m1) as (A1 & B1 & C1).
    { apply NoDup_app_intro_k; auto.
      - exact (NoDup_app_r_k _ _ ND1).
      - intros j Hj Hj'. destruct (Z.eq_dec j k) as [->|n]; [tauto|].
        apply ukeys_In in Hj. destruct Hj as [v Hv]. rewrite (B j n) in Hv. apply ulookup_In_key in Hv.
        clear -ND1 Hv Hj'. induction (ukeys m) as [|x l IH]; [destruct Hv|].
        cbn [app] in ND1. inversion ND1 as [|? ? Hni ND2]; subst. destruct Hv as [->|Hv]; [apply Hni, in_app_iff; auto | auto]. }
    split; [exact A1|]. split.
    + intros j Hj. cbn [ukeys map fst] in Hj. rewrite B1; [apply B; intros ->; apply Hj; simpl; auto|].
      intros X; apply Hj; simpl; auto.
    + intros k2 s2 [E|Hin].
      * inversion E; subst. unfold uget. unfold umem. rewrite B1 by tauto. split.
        { unfold kept. rewrite Gk, app_nil_r in C. exact C. }
        { unfold umem in D. rewrite D, Ek. reflexivity. }
      * apply C1. exact Hin.
Qed.
(** entries of a map of rates *)
Lemma rates_where_gen (sites : umap site) : NoDup (ukeys sites) ->
  (forall k s, In (k, s) sites -> NoDup (ukeys (s_neigh s))) -> let m := rates_where h keep sites in
  NoDup (ukeys m) /\
  (forall k, In k (ukeys m) <-> exists s n, In (k, s) sites /\ In n (s_neighIds s) /\ keep n = true) /\
  (forall k l, In (k, l) m -> exists s, In (k, s) sites /\ l <> [] /\ Permutation l (kept s)).
Proof.
  intros ND neigh_nd. destruct (rw_outer sites neigh_nd []) as (A & B & C); [exact ND|].
  fold (rates_where h keep sites) in *. cbn zeta. set (m := rates_where h keep sites) in *.
  assert (Kin : forall k, In k (ukeys m) -> In k (ukeys sites)).
  { intros k Hk. destruct (in_dec Z.eq_dec k (ukeys sites)) as [|n]; [assumption|].
    specialize (B k n). apply ukeys_In in Hk. destruct Hk as [v Hv]. pose proof (eq_trans (eq_sym B) Hv) as X. discriminate. }
  assert (Kiff : forall k, In k (ukeys m) <-> exists s n, In (k, s) sites /\ In n (s_neighIds s) /\ keep n = true).
  { intros k. split.
    - intros Hk. destruct (proj1 (ukeys_In k sites) (Kin k Hk)) as [s Hin0]; pose proof (ulookup_In k s sites Hin0) as Hin. destruct (C k s Hin) as [_ E].
      apply umem_In in Hk. pose proof (eq_trans (eq_sym E) Hk) as E'. clear E. rename E' into E. apply existsb_exists in E. destruct E as ([n a] & Hna & Hkeep).
      exists s, n. split; [exact Hin|]. split; [|exact Hkeep]. apply (in_map fst) in Hna. exact Hna.
    - intros (s & n & Hin & Hn & Hkeep). destruct (C k s Hin) as [_ E]. apply umem_In. refine (eq_trans E _).
      apply existsb_exists. unfold s_neighIds in Hn. apply in_map_iff in Hn. destruct Hn as (na & <- & Hna). eauto. }
  split; [exact A|]. split; [exact Kiff|].
  intros k l Hin. assert (Hk : In k (ukeys m)) by (apply (in_map fst) in Hin; exact Hin).
  destruct (proj1 (ukeys_In k sites) (Kin k Hk)) as [s Hs0]; pose proof (ulookup_In k s sites Hs0) as Hs. exists s. split; [exact Hs|].
  destruct (C k s Hs) as [Pl E]. assert (Gl : uget ([] : umap num) k m = l) by (unfold uget; rewrite (In_ulookup k l m A Hin); reflexivity). assert (Pl2 : Permutation l (kept s)) by (rewrite <- Gl; exact Pl). clear Pl; rename Pl2 into Pl. split; [|exact Pl].
  apply umem_In in Hk. pose proof (eq_trans (eq_sym E) Hk) as E'. clear E. rename E' into E. apply existsb_exists in E. destruct E as (na & Hna & Hkeep).
  intros ->. apply Permutation_nil in Pl. unfold kept in Pl.
  assert (X : In na (filter (fun na => keep (fst na)) (s_neigh s))) by (apply filter_In; auto).
  destruct (filter _ (s_neigh s)); [destruct X | discriminate].
Qed.

End RatesWhere.

(** ** Sums of rates *)
Section T.
Context {I : Impl} {G : @Rng XR}.
Variables (h : @heap XR) (sites : umap (@site XR G)) (P : Z -> R).
Hypothesis Hm : members_ok h sites.
Let K := ukeys sites.

Lemma kept_sum keep k s (l : umap xn) a : In (k, s) sites -> Permutation l (@kept XR G h keep s) ->
  fold_left (fun acc e => @nadd XR acc (snd e)) l (Fin a) =
  Fin (a + Rsum (fun na => if keep (fst na) then realv (h (snd na)) else 0) (s_neigh s)).
Proof.
  intros Hin Pl. pose proof (proj2 Hm k s Hin) as Hs.
  assert (V : forall e, In e l -> snd e = Fin (realv (snd e)) :> xn).
  { intros e He. apply (Permutation_in _ Pl) in He. apply in_map_iff in He. destruct He as ([n x] & <- & Hx).
    apply filter_In in Hx. destruct Hx as [Hx _]. cbn [snd fst]. destruct Hs as [Hg _].
    apply (good_value h _ _ Hg Hx). }
  rewrite (fold_nadd snd (fun e => realv (snd e)) l a V). f_equal. f_equal.
  rewrite (Rsum_perm _ l _ Pl). unfold kept. rewrite Rsum_map. cbn [snd].
  apply Rsum_filter.
Qed.

Lemma neigh_nd : forall k s, In (k, s) sites -> NoDup (ukeys (s_neigh s)).
Proof. intros k s Hin. apply (neigh_NoDup h). apply (proj2 Hm k s Hin). Qed.

Lemma rates_where_spec keep : let m := rates_where h keep sites in
  NoDup (ukeys m) /\
  (forall k, In k (ukeys m) <-> exists s n, In (k, s) sites /\ In n (s_neighIds s) /\ keep n = true) /\
  (forall k l, In (k, l) m -> exists s, In (k, s) sites /\ l <> [] /\ Permutation l (kept h keep s)).
Proof. exact (rates_where_gen h keep sites (proj1 Hm) neigh_nd). Qed.

Lemma moff_in k s : In (k, s) sites -> moff h sites k = off_rate h sites s.
Proof. intros Hin. unfold moff. rewrite (In_ulookup k s sites (proj1 Hm) Hin). reflexivity. Qed.
Lemma minner_in k s : In (k, s) sites -> minner h sites k = inner_rate h sites s.
Proof. intros Hin. unfold minner. rewrite (In_ulookup k s sites (proj1 Hm) Hin). reflexivity. Qed.
Lemma mtau_in k s : In (k, s) sites -> mtau h sites k = / total_rate h (s_neigh s).
Proof. intros Hin. unfold mtau. rewrite (In_ulookup k s sites (proj1 Hm) Hin). reflexivity. Qed.
Lemma moff_nonneg k : 0 <= moff h sites k.
Proof.
  unfold moff. destruct (ulookup k sites) as [s|] eqn:E; [|lra]. apply off_nonneg.
  apply (proj2 Hm k s). apply ulookup_In; exact E.
Qed.
Lemma minner_nonneg k : 0 <= minner h sites k.
Proof.
  unfold minner. destruct (ulookup k sites) as [s|] eqn:E; [|lra]. apply inner_nonneg.
  apply (proj2 Hm k s). apply ulookup_In; exact E.
Qed.
Lemma mtau_pos k : In k K -> 0 < mtau h sites k.
Proof.
  intros Hk. destruct (keys_In sites k Hk) as [s Hin]. rewrite (mtau_in k s Hin).
  apply Rinv_0_lt_compat, total_pos. apply (proj2 Hm k s Hin).
Qed.
Lemma tau_of_val k : In k K -> tau_of sites k = Ok (Fin (mtau h sites k)).
Proof.
  intros Hk. destruct (keys_In sites k Hk) as [s Hin]. unfold tau_of. rewrite (In_ulookup k s sites (proj1 Hm) Hin).
  rewrite (mtau_in k s Hin). f_equal. apply tau_val. apply (proj2 Hm k s Hin).
Qed.
Lemma stay_minner k : In k K -> stay K (mprob h sites) k = minner h sites k * mtau h sites k.
Proof.
  intros Hk. destruct (keys_In sites k Hk) as [s Hin]. rewrite (mtau_in k s Hin), (minner_in k s Hin).
  exact (stay_val h sites k s Hm Hin).
Qed.

Lemma ext_keys : let m := ext_rates h sites in
  NoDup (ukeys m) /\ (forall k, In k (ukeys m) -> In k K) /\ (forall k, In k K -> ~ In k (ukeys m) -> moff h sites k = 0) /\
  (forall k, In k (ukeys m) -> 0 < moff h sites k) /\
  (forall k l, In (k, l) m -> l <> [] /\ forall a, fold_left (fun acc e => @nadd XR acc (snd e)) l (Fin a) = Fin (a + moff h sites k)).
Proof.
  destruct (rates_where_spec (fun k => negb (umem k sites))) as (A & B & C).
  fold (ext_rates h sites) in *. cbn zeta. split; [exact A|]. split; [|split; [|split]].
  - intros k Hk. apply B in Hk. destruct Hk as (s & n & Hin & _). apply (in_map fst) in Hin. exact Hin.
  - intros k Hk Hn. destruct (keys_In sites k Hk) as [s Hin]. rewrite (moff_in k s Hin). unfold off_rate.
    transitivity (Rsum (fun _ => 0) (s_neigh s)); [|apply Rsum_zero]. apply Rsum_ext. intros [n a] Hna. cbn [fst snd].
    destruct (umem n sites) eqn:E; [reflexivity|]. exfalso. apply Hn. apply B. exists s, n.
    split; [exact Hin|]. split; [apply (in_map fst) in Hna; exact Hna|]. rewrite E. reflexivity.
  - intros k Hk. apply B in Hk. destruct Hk as (s & n & Hin & Hn & Hkeep). rewrite (moff_in k s Hin).
    eapply off_pos; eauto. apply negb_true_iff in Hkeep. apply umem_false in Hkeep. exact Hkeep.
  - intros k l Hin. destruct (C k l Hin) as (s & Hs & Hne & Pl). split; [exact Hne|]. intros a.
    rewrite (kept_sum _ k s l a Hs Pl). rewrite (moff_in k s Hs). unfold off_rate. do 2 f_equal.
    apply Rsum_ext. intros [n x] _. cbn [fst snd]. destruct (umem n sites); reflexivity.
Qed.

Lemma int_keys : let m := int_rates h sites in
  NoDup (ukeys m) /\ (forall k, In k (ukeys m) -> In k K) /\ (linked sites -> forall k, In k K -> In k (ukeys m)) /\
  (forall k, In k (ukeys m) -> 0 < minner h sites k) /\
  (forall k l, In (k, l) m -> l <> [] /\ forall a, fold_left (fun acc e => @nadd XR acc (snd e)) l (Fin a) = Fin (a + minner h sites k)).
Proof.
  destruct (rates_where_spec (fun k => umem k sites)) as (A & B & C).
  fold (int_rates h sites) in *. cbn zeta. split; [exact A|]. split; [|split; [|split]].
  - intros k Hk. apply B in Hk. destruct Hk as (s & n & Hin & _). apply (in_map fst) in Hin. exact Hin.
  - intros Hl k Hk. destruct (Hl k Hk) as (n & s & Hin & Hn & Hn2). apply B. exists s, n.
    split; [exact Hin|]. split; [exact Hn|]. apply umem_In; exact Hn2.
  - intros k Hk. apply B in Hk. destruct Hk as (s & n & Hin & Hn & Hkeep). rewrite (minner_in k s Hin).
    eapply inner_pos; eauto. apply umem_In in Hkeep. exact Hkeep.
  - intros k l Hin. destruct (C k l Hin) as (s & Hs & Hne & Pl). split; [exact Hne|]. intros a.
    rewrite (kept_sum _ k s l a Hs Pl). rewrite (minner_in k s Hs). reflexivity.
Qed.

Lemma has_exit_ext : has_exit sites -> ext_rates h sites <> [].
Proof.
  intros (k & s & n & Hin & Hn & Ho) E.
  destruct (rates_where_spec (fun k => negb (umem k sites))) as (_ & B & _). fold (ext_rates h sites) in B.
  assert (X : In k (ukeys (ext_rates h sites))).
  { apply B. exists s, n. split; [exact Hin|]. split; [exact Hn|]. apply negb_true_iff, umem_false. exact Ho. }
  rewrite E in X. destruct X.
Qed.
Lemma has_exit_off : has_exit sites -> exists k, In k K /\ 0 < moff h sites k.
Proof.
  intros (k & s & n & Hin & Hn & Ho). exists k. split; [apply (in_map fst) in Hin; exact Hin|].
  rewrite (moff_in k s Hin). eapply off_pos; eauto.
Qed.
End T.

(** ** Accumulating weights *)
Section Acc.
Context {I : Impl}.
Definition acc_add (m : umap xn) (e : Z * R) : umap xn :=
  match ulookup (fst e) m with
  | Some w => uset m (fst e) (nadd w (Fin (snd e)))
  | None => uset m (fst e) (Fin (snd e))
  end.
Lemma acc_spec (E : list (Z * R)) : forall (m : umap xn) f, NoDup (ukeys m) ->
  (forall k, In k (ukeys m) -> ulookup k m = Some (Fin (f k))) -> (forall k, ~ In k (ukeys m) -> f k = 0) ->
  let m' := fold_left acc_add E m in
  NoDup (ukeys m') /\ (forall k, In k (ukeys m') <-> In k (ukeys m) \/ In k (map fst E)) /\
  (forall k, In k (ukeys m') -> ulookup k m' = Some (Fin (f k + Rsum (fun e => if Z.eqb (fst e) k then snd e else 0) E))).
Proof.
  induction E as [|[n v] E IH]; intros m f NM Hf Hz; cbn [fold_left].
  - split; [exact NM|]. split; [simpl; tauto|]. intros k Hk. rewrite (Hf k Hk). cbn [Rsum]. rewrite Rplus_0_r. reflexivity.
  - set (m1 := acc_add m (n, v)).
    assert (H1 : NoDup (ukeys m1)) by (unfold m1, acc_add; cbn [fst snd]; destruct (ulookup n m); apply uset_NoDup; exact NM).
    assert (K1 : forall k, In k (ukeys m1) <-> k = n \/ In k (ukeys m)).
    { intros k. unfold m1, acc_add; cbn [fst snd]; destruct (ulookup n m); apply uset_keys_In. }
    assert (L1 : forall k, In k (ukeys m1) -> ulookup k m1 = Some (Fin (f k + (if Z.eqb n k then v else 0)))).
    { intros k Hk. unfold m1, acc_add; cbn [fst snd]. destruct (Z.eqb_spec n k) as [<-|ne].
      - destruct (ulookup n m) as [w|] eqn:E0.
        + rewrite uset_lookup_same by exact NM. rewrite Hf in E0 by (apply ulookup_In_key in E0; exact E0).
          inversion E0; subst. reflexivity.
        + rewrite uset_lookup_same by exact NM. rewrite (Hz n) by (apply ulookup_None; exact E0). rewrite Rplus_0_l. reflexivity.
      - assert (Hk' : In k (ukeys m)) by (apply K1 in Hk; destruct Hk; [congruence | assumption]).
        rewrite Rplus_0_r, <- (Hf k Hk'). destruct (ulookup n m); apply uset_lookup_other; auto. }
    destruct (IH m1 (fun k => f k + (if Z.eqb n k then v else 0)) H1 L1) as (A & B & C).
    { intros k Hk. rewrite K1 in Hk. rewrite (Hz k) by tauto. destruct (Z.eqb_spec n k); [subst; tauto | lra]. }
    split; [exact A|]. split.
    + intros k. rewrite B, K1. cbn [map fst In]. intuition.
    + intros k Hk. rewrite (C k Hk). cbn [Rsum fst snd]. do 2 f_equal. lra.
Qed.
End Acc.

Lemma Rsum_flat_map {A B} (g : A -> list B) (f : B -> R) l :
  Rsum f (flat_map g l) = Rsum (fun a => Rsum f (g a)) l.
Proof. induction l as [|a l IH]; [reflexivity|]. cbn [flat_map Rsum]. rewrite Rsum_app, IH. reflexivity. Qed.
Lemma Rsum_delta (K : list Z) (f : Z -> R) n : NoDup K ->
  Rsum (fun k => if Z.eqb k n then f k else 0) K = if in_dec Z.eq_dec n K then f n else 0.
Proof.
  induction K as [|k K IH]; intros ND; [reflexivity|]. inversion ND; subst. cbn [Rsum]. rewrite IH by assumption.
  destruct (Z.eqb_spec k n) as [->|ne].
  - destruct (in_dec Z.eq_dec n K); [contradiction|]. destruct (in_dec Z.eq_dec n (n :: K)) as [|x]; [lra | destruct x; simpl; auto].
  - destruct (in_dec Z.eq_dec n K) as [i|i], (in_dec Z.eq_dec n (k :: K)) as [j|j]; simpl in *; try lra; intuition congruence.
Qed.

(** ** The tables of one update *)
Section T2.
Context {I : Impl} {G : @Rng XR}.
Variables (h : @heap XR) (sites : umap (@site XR G)) (P : Z -> R) (Kp : list Z).
Hypothesis Hm : members_ok h sites.
Hypothesis HD : dist (ukeys sites) P.
Hypothesis HKp : Permutation Kp (ukeys sites).
Notation K := (ukeys sites).
Notation pon := (tab P Kp).

Lemma Kp_in k : In k Kp -> In k K.
Proof. apply Permutation_in; exact HKp. Qed.
Lemma Kp_nd : NoDup Kp.
Proof. eapply Permutation_NoDup; [symmetry; exact HKp | apply Hm]. Qed.
Lemma Kp_sum f : Rsum f Kp = Rsum f K.
Proof. apply Rsum_perm; exact HKp. Qed.

Lemma weigh_tau_val : weigh_tau sites pon = Ok (tab (fun k => P k * mtau h sites k) Kp).
Proof.
  assert (Gen : forall l, (forall k, In k l -> In k K) -> weigh_tau sites (tab P l) = Ok (tab (fun k => P k * mtau h sites k) l)).
  { induction l as [|k l IH]; intros Hl; [reflexivity|].
    change (tab P (k :: l)) with ((k, Fin (P k) : xn) :: tab P l). cbn [weigh_tau fst snd].
    rewrite (tau_of_val h sites Hm k) by (apply Hl; simpl; auto). cbn [rbind].
    rewrite IH by (intros; apply Hl; simpl; auto). reflexivity. }
  apply Gen. exact Kp_in.
Qed.

(** weight of a member inside: P tau / sum P tau *)
Definition WT : R := Rsum (fun k => P k * mtau h sites k) K.
Definition wint (k : Z) : R := P k * mtau h sites k / WT.
Lemma WT_pos : K <> [] -> 0 < WT.
Proof.
  intros Hne. apply Rsum_pos; [exact Hne|]. intros k Hk. apply Rmult_lt_0_compat; [apply HD; exact Hk | apply mtau_pos; auto].
Qed.
Lemma wint_pos k : In k K -> 0 < wint k.
Proof.
  intros Hk. apply Rdiv_lt_0_compat; [apply Rmult_lt_0_compat; [apply HD; exact Hk | apply mtau_pos; auto]|].
  apply WT_pos. intros E; rewrite E in Hk; destruct Hk.
Qed.
Lemma wint_sum : K <> [] -> Rsum wint K = 1.
Proof.
  intros Hne. pose proof (WT_pos Hne). unfold wint, Rdiv. rewrite Rsum_scal_r. fold WT. apply Rinv_r. lra.
Qed.

Lemma calcHopToInternal_val c : c_sites c = sites -> c_pon c = pon -> K <> [] ->
  exists K2, Permutation K2 K /\
  c_calcHopToInternal c = Ret tt (c_with_cint (c_cint c ++ cumulate n0 (tab wint K2)) (c_with_pint (tab wint K2) c)).
Proof.
  intros Es Ep Hne. pose proof (WT_pos Hne) as HW. unfold c_calcHopToInternal, bind, gets. rewrite Es, Ep, weigh_tau_val.
  unfold lift at 1. rewrite tab_sum, Kp_sum. fold WT.
  destruct (umap_of_tab (fun k => P k * mtau h sites k) Kp Kp_nd) as (K1 & E1 & P1). rewrite E1.
  replace (map _ (tab (fun k => P k * mtau h sites k) K1)) with (tab wint K1).
  - destruct (sort_desc_tab wint K1) as (K2 & E2 & P2). rewrite E2. cbn [lift].
    exists K2. split; [rewrite P2, P1; exact HKp | reflexivity].
  - unfold tab at 2. rewrite map_map. apply map_ext. intros k. cbn [fst snd].
    change (k, Fin (wint k) : xn) with (k, Fin (P k * mtau h sites k / WT) : xn). f_equal.
    symmetry. apply xdiv_Fin. lra.
Qed.

(** flow of probability to the outside neighbour [n] *)
Definition wexit (n : Z) : R := Rsum (fun k => P k * mprob h sites k n) K.
Definition exits (e : Z * @site XR G) : list (Z * R) :=
  map (fun n => (n, site_prob h (snd e) n * P (fst e))) (filter (fun n => negb (umem n sites)) (s_neighIds (snd e))).

Lemma exit_fold : exit_weights sites pon = Ok (fold_left acc_add (flat_map exits sites) []).
Proof.
  unfold exit_weights.
  assert (Inn : forall k s l (m : umap xn), In (k, s) sites -> (forall n, In n l -> In n (s_neighIds s)) ->
    fold_left (fun (acc : res (umap xn)) n =>
      m <-! acc;
      if umem n sites then Ok m
      else p <-! s_probTo s n;
           let v := nmul p (uget n0 k pon) in
           Ok (match ulookup n m with Some w => uset m n (nadd w v) | None => uset m n v end)) l (Ok (m : umap xn))
    = Ok (fold_left acc_add (map (fun n => (n, site_prob h s n * P k)) (filter (fun n => negb (umem n sites)) l)) m)).
  { intros k s l m Hin. assert (Hkp : In k Kp).
    { eapply Permutation_in; [symmetry; exact HKp|]; apply (in_map fst) in Hin; exact Hin. }
    rewrite (tab_get P Kp k Hkp). revert m.
    induction l as [|n l IH]; intros m Hl; cbn [fold_left filter]; [reflexivity|].
    cbn [rbind]. destruct (umem n sites) eqn:En; cbn [negb].
    - apply IH. intros; apply Hl; simpl; auto.
    - rewrite (probTo_val h s n (proj2 Hm k s Hin)) by (apply Hl; simpl; auto). cbn [rbind].
      change (@nmul XR (Fin (site_prob h s n)) (Fin (P k))) with (Fin (site_prob h s n * P k) : xn).
      cbn [map fold_left]. unfold acc_add at 2. cbn [fst snd].
      apply IH. intros; apply Hl; simpl; auto. }
  assert (Out : forall l (m : umap xn), (forall e, In e l -> In e sites) ->
    fold_left (fun (acc : res (umap xn)) e =>
    fold_left (fun (acc : res (umap xn)) n =>
      m <-! acc;
      if umem n sites then Ok m
      else p <-! s_probTo (snd e) n;
           let v := nmul p (uget n0 (fst e) pon) in
           Ok (match ulookup n m with Some w => uset m n (nadd w v) | None => uset m n v end))
      (s_neighIds (snd e)) acc) l (Ok (m : umap xn)) = Ok (fold_left acc_add (flat_map exits l) m)).
  { induction l as [|[k s] l IH]; intros m Hl; [reflexivity|]. cbn [fold_left flat_map].
    change (fst (k, s)) with k. change (snd (k, s)) with s.
    match goal with |- fold_left ?f l ?a = _ => pose proof (f_equal (fold_left f l) (Inn k s (s_neighIds s) m ltac:(apply Hl; simpl; auto) ltac:(auto))) as X end.
    refine (eq_trans X _).
    rewrite fold_left_app. apply IH. intros; apply Hl; simpl; auto. }
  apply Out. auto.
Qed.

Lemma wexit_exits n : ~ In n K ->
  Rsum (fun e => if Z.eqb (fst e) n then snd e else 0) (flat_map exits sites) = wexit n.
Proof.
  intros Hn. rewrite Rsum_flat_map. unfold wexit, ukeys. rewrite Rsum_map. apply Rsum_ext. intros [k s] Hin.
  cbn [fst snd]. unfold exits. rewrite Rsum_map. cbn [fst snd]. rewrite Rsum_filter.
  rewrite (qq_in h sites k n s Hm Hin).
  transitivity (Rsum (fun m => if Z.eqb m n then site_prob h s m * P k else 0) (s_neighIds s)).
  - apply Rsum_ext. intros m Hmm. destruct (Z.eqb_spec m n) as [->|]; [|destruct (negb _); reflexivity].
    apply umem_false in Hn. rewrite Hn. reflexivity.
  - rewrite Rsum_delta by (apply (neigh_NoDup h); apply (proj2 Hm k s Hin)).
    destruct (in_dec _ _ _) as [i|i]; [ring|]. rewrite (site_prob_zero h s n i). ring.
Qed.

Lemma exit_weights_val : exists K2, NoDup K2 /\ (forall n, In n K2 <-> outside sites n) /\
  exit_weights sites pon = Ok (tab wexit K2).
Proof.
  rewrite exit_fold.
  destruct (acc_spec (flat_map exits sites) [] (fun _ => 0)) as (A & B & C); [constructor | intros ? [] | reflexivity |].
  set (m := fold_left acc_add (flat_map exits sites) []) in *.
  assert (Ko : forall n, In n (ukeys m) <-> outside sites n).
  { intros n. rewrite B. cbn [ukeys map In]. rewrite in_map_iff. unfold outside. split.
    - intros [[]|([x v] & <- & Hin)]. apply in_flat_map in Hin. destruct Hin as ([k s] & Hin & Hx).
      apply in_map_iff in Hx. destruct Hx as (y & E & Hy). inversion E; subst. apply filter_In in Hy. destruct Hy as [Hy Hy2].
      cbn [fst snd] in *. apply negb_true_iff, umem_false in Hy2. eauto 6.
    - intros (Hn & k & s & Hin & Hn2). right. exists (n, site_prob h s n * P k). split; [reflexivity|].
      apply in_flat_map. exists (k, s). split; [exact Hin|]. apply in_map_iff. exists n. split; [reflexivity|].
      apply filter_In. split; [exact Hn2|]. apply negb_true_iff, umem_false. exact Hn. }
  exists (ukeys m). split; [exact A|]. split; [exact Ko|]. f_equal. apply tab_eq.
  intros [n v] Hin. cbn [fst snd]. assert (Hn : In n (ukeys m)) by (apply (in_map fst) in Hin; exact Hin).
  pose proof (C n Hn) as E. rewrite (In_ulookup n v m A Hin) in E. inversion E; subst. f_equal.
  rewrite Rplus_0_l. apply wexit_exits. apply Ko in Hn. apply Hn.
Qed.

Lemma wexit_pos n : outside sites n -> 0 < wexit n.
Proof.
  intros (Hn & k & s & Hin & Hn2). unfold wexit.
  assert (Hk : In k K) by (apply (in_map fst) in Hin; exact Hin).
  apply Rsum_pos_ex with (x := k); [|exact Hk|].
  - intros j Hj. apply Rmult_le_pos; [left; apply HD; exact Hj | apply qq_nonneg; exact Hm].
  - rewrite (qq_in h sites k n s Hm Hin). apply Rmult_lt_0_compat; [apply HD; exact Hk|].
    apply site_prob_pos; [apply (proj2 Hm k s Hin) | exact Hn2].
Qed.

Lemma calcHopToNeighbors_val c : c_sites c = sites -> c_pon c = pon ->
  exists K2, NoDup K2 /\ (forall n, In n K2 <-> outside sites n) /\
  let f := fun n => wexit n / Rsum wexit K2 in
  c_calcHopToNeighbors c = Ret tt (c_with_cnbr (c_cnbr c ++ cumulate n0 (tab f K2)) (c_with_pnbr (tab f K2) c)).
Proof.
  intros Es Ep. destruct exit_weights_val as (K1 & ND1 & O1 & E1).
  unfold c_calcHopToNeighbors, bind, gets. rewrite Es, Ep, E1. unfold lift at 1. rewrite tab_sum, n1_XR.
  set (S := Rsum wexit K1).
  assert (Em : map (fun e : Z * xn => (fst e, nmul (snd e) (ndiv (Fin 1) (Fin S)))) (tab wexit K1) = tab (fun n => wexit n / S) K1).
  { unfold tab. rewrite map_map. apply map_ext_in. intros n Hn. cbn [fst snd]. f_equal.
    assert (0 < S) by (apply Rsum_pos; [intros E; rewrite E in Hn; destruct Hn | intros x Hx; apply wexit_pos, O1; exact Hx]).
    rewrite xdiv_Fin by lra. cbn [nmul XR xmul]. f_equal. unfold Rdiv. ring. }
  rewrite Em. destruct (umap_of_tab (fun n => wexit n / S) K1 ND1) as (K3 & E3 & P3). rewrite E3.
  destruct (sort_desc_tab (fun n => wexit n / S) K3) as (K2 & E2 & P2). rewrite E2. cbn [lift].
  assert (P12 : Permutation K2 K1) by (rewrite P2; exact P3).
  exists K2. split; [eapply Permutation_NoDup; [symmetry; exact P12 | exact ND1]|]. split.
  - intros n. rewrite <- O1. split; apply Permutation_in; [exact P12 | symmetry; exact P12].
  - cbn zeta. rewrite (Rsum_perm wexit K2 K1 P12). reflexivity.
Qed.
End T2.

(** a loop that rewrites each listed entry from its old value *)
Section Upd.
Context {I : Impl}.
Lemma fold_update {V W} (d : V) (g : V -> V) (l : list (Z * W)) : forall m : umap V, NoDup (ukeys m) -> NoDup (map fst l) ->
  let m' := fold_left (fun m e => uset m (fst e) (g (uget d (fst e) m))) l m in
  NoDup (ukeys m') /\ (forall k, In k (ukeys m') <-> In k (map fst l) \/ In k (ukeys m)) /\
  (forall k, In k (map fst l) -> ulookup k m' = Some (g (uget d k m))) /\
  (forall k, ~ In k (map fst l) -> ulookup k m' = ulookup k m).
Proof.
  induction l as [|e l IH]; intros m NM NL; cbn [fold_left].
  - split; [exact NM|]. split; [simpl; tauto|]. split; [intros ? [] | reflexivity].
  - cbn [map] in NL. inversion NL as [|? ? Hni NL']; subst.
    destruct (IH (uset m (fst e) (g (uget d (fst e) m))) (uset_NoDup _ _ _ NM) NL') as (A & B & C & D).
    split; [exact A|]. split; [|split].
    + intros k. rewrite B, uset_keys_In. cbn [map In]. intuition.
    + intros k Hk. cbn [map In] in Hk. destruct (Z.eq_dec (fst e) k) as [<-|ne].
      * rewrite D by exact Hni. apply uset_lookup_same; exact NM.
      * rewrite C by tauto. do 2 f_equal. unfold uget. rewrite uset_lookup_other by auto. reflexivity.
    + intros k Hk. cbn [map In] in Hk. rewrite D by tauto. apply uset_lookup_other; [exact NM|]. intuition.
Qed.
End Upd.

Section T3.
Context {I : Impl} {G : @Rng XR}.
Variables (h : @heap XR) (sites : umap (@site XR G)) (P : Z -> R) (Kp : list Z).
Hypothesis Hm : members_ok h sites.
Hypothesis HD : dist (ukeys sites) P.
Hypothesis HKp : Permutation Kp (ukeys sites).
Hypothesis Hlk : linked sites.
Hypothesis Hex : has_exit sites.
Notation K := (ukeys sites).
Notation pon := (tab P Kp).

Lemma K_ne : K <> [].
Proof. destruct Hex as (k & s & n & Hin & _). intros E. apply (in_map fst) in Hin. fold (ukeys sites) in Hin. rewrite E in Hin. destruct Hin. Qed.

Lemma ext_tab (f : umap xn -> xn) : (forall k l, In (k, l) (ext_rates h sites) -> f l = Fin (moff h sites k)) ->
  map (fun e => (fst e, f (snd e))) (ext_rates h sites) = tab (moff h sites) (ukeys (ext_rates h sites)).
Proof.
  intros Hf. unfold tab, ukeys. rewrite map_map. apply map_ext_in. intros [k l] Hin. cbn [fst snd].
  rewrite (Hf k l Hin). reflexivity.
Qed.
Lemma calcSumOff_val c : c_sites c = sites ->
  exists K2, Permutation K2 (ukeys (ext_rates h sites)) /\
    c_calcSumOff h c = Ret tt (c_with_sumoff (tab (moff h sites) K2) c).
Proof.
  intros Es. destruct (ext_keys h sites Hm) as (A & B & C & D & E).
  unfold c_calcSumOff. rewrite modify_eq, Es. rewrite (ext_tab (@sum_first XR)).
  - destruct (umap_of_tab (moff h sites) _ A) as (K2 & E2 & P2). rewrite E2. eauto.
  - intros k l Hin. destruct (E k l Hin) as [Hne Hs]. destruct l as [|x l]; [congruence|].
    cbn [sum_first]. pose proof (Hs 0) as Hs0. cbn [fold_left] in Hs0.
    rewrite Rplus_0_l in Hs0. rewrite <- Hs0. f_equal.
    destruct (rates_where_spec h sites Hm (fun k => negb (umem k sites))) as (_ & _ & Sp).
    destruct (Sp k _ Hin) as (s & Hsin & _ & Pl).
    assert (Hx : In x (kept h (fun k => negb (umem k sites)) s)) by (eapply Permutation_in; [exact Pl | simpl; auto]).
    apply in_map_iff in Hx. destruct Hx as ([n a] & <- & Hx). apply filter_In in Hx. destruct Hx as [Hx _].
    cbn [snd]. destruct (proj2 Hm k s Hsin) as [Hg _]. destruct (good_value h _ _ Hg Hx) as [Ev _].
    cbn [snd] in Ev. rewrite Ev. cbn [nadd XR xadd]. f_equal. lra.
Qed.
Lemma calcSumInt_val c : c_sites c = sites ->
  exists K2, Permutation K2 K /\
    c_calcSumInt h c = Ret tt (c_with_sumint (tab (minner h sites) K2) c).
Proof.
  intros Es. destruct (int_keys h sites Hm) as (A & B & C & D & E).
  unfold c_calcSumInt. rewrite modify_eq, Es.
  replace (map _ (int_rates h sites)) with (tab (minner h sites) (ukeys (int_rates h sites))).
  - destruct (umap_of_tab (minner h sites) _ A) as (K2 & E2 & P2). rewrite E2. exists K2. split; [|reflexivity].
    rewrite P2. apply NoDup_Permutation; [exact A | apply Hm|]. intros k. split; [apply B | apply C; exact Hlk].
  - symmetry. unfold tab, ukeys. rewrite map_map. apply map_ext_in. intros [k l] Hin. cbn [fst snd]. f_equal.
    destruct (E k l Hin) as [Hne Hs]. unfold sum_snd. rewrite n0_XR. rewrite (Hs 0). cbn [nadd XR xadd]. f_equal. lra.
Qed.

(** weight with which the cluster is left from member [k] *)
Definition WO : R := Rsum (fun k => P k * moff h sites k * mtau h sites k) K.
Definition woff (k : Z) : R := P k * moff h sites k * mtau h sites k / WO.
Lemma WO_pos : 0 < WO.
Proof.
  destruct (has_exit_off h sites Hm Hex) as (k & Hk & Ho).
  apply Rsum_pos_ex with (x := k); [|exact Hk|].
  - intros j Hj. repeat apply Rmult_le_pos; [left; apply HD; exact Hj | apply moff_nonneg; exact Hm | left; apply mtau_pos; auto].
  - repeat apply Rmult_lt_0_compat; [apply HD; exact Hk | exact Ho | apply mtau_pos; auto].
Qed.
Lemma woff_nonneg k : In k K -> 0 <= woff k.
Proof.
  intros Hk. unfold woff, Rdiv. apply Rmult_le_pos; [|left; apply Rinv_0_lt_compat, WO_pos].
  repeat apply Rmult_le_pos; [left; apply HD; exact Hk | apply moff_nonneg; exact Hm | left; apply mtau_pos; auto].
Qed.
Lemma woff_sum : Rsum woff K = 1.
Proof. pose proof WO_pos. unfold woff, Rdiv. rewrite Rsum_scal_r. fold WO. apply Rinv_r. lra. Qed.

Lemma sum_rates_val : fold_left (fun acc e => fold_left (fun acc r => @nadd XR acc (snd r)) (snd e) acc)
   (ext_rates h sites) (n0 : xn) = Fin (Rsum (moff h sites) K).
Proof.
  destruct (ext_keys h sites Hm) as (A & B & C & D & E).
  assert (Gen : forall l a, (forall e, In e l -> In e (ext_rates h sites)) ->
    fold_left (fun acc e => fold_left (fun acc r => @nadd XR acc (snd r)) (snd e) acc) l (Fin a : xn) =
    Fin (a + Rsum (moff h sites) (ukeys l))).
  { induction l as [|[k r] l IH]; intros a Hl; cbn [fold_left ukeys map Rsum].
    - f_equal. lra.
    - cbn [fst snd]. destruct (E k r) as [_ Hr]; [apply Hl; simpl; auto|].
      rewrite (Hr a). refine (eq_trans (IH _ _) _); [intros; apply Hl; simpl; auto|]. unfold ukeys. f_equal. lra. }
  rewrite n0_XR. refine (eq_trans (Gen _ _ (fun e He => He)) _). f_equal. rewrite Rplus_0_l.
  transitivity (Rsum (fun k => if in_dec Z.eq_dec k K then moff h sites k else 0) (ukeys (ext_rates h sites))).
  - apply Rsum_ext. intros k Hk. destruct (in_dec _ _ _) as [|n]; [reflexivity | destruct n; auto].
  - rewrite Rsum_inter; [| exact A | apply Hm]. apply Rsum_ext. intros k Hk.
    destruct (in_dec _ _ _) as [|n]; [reflexivity | symmetry; auto].
Qed.

Lemma sum_taus_val : sum_taus sites pon (n0 : xn) = Ok (Fin (Rsum (mtau h sites) K)).
Proof.
  assert (Gen : forall l a, (forall k, In k l -> In k K) -> sum_taus sites (tab P l) (Fin a : xn) = Ok (Fin (a + Rsum (mtau h sites) l))).
  { induction l as [|k l IH]; intros a Hl.
    - cbn [tab map sum_taus Rsum]. do 2 f_equal. lra.
    - change (tab P (k :: l)) with ((k, Fin (P k) : xn) :: tab P l). cbn [sum_taus fst snd].
      rewrite (tau_of_val h sites Hm k) by (apply Hl; simpl; auto). cbn [rbind].
      change (@nadd XR (Fin a) (Fin (mtau h sites k))) with (Fin (a + mtau h sites k) : xn).
      rewrite IH by (intros; apply Hl; simpl; auto). cbn [Rsum]. do 2 f_equal. lra. }
  rewrite n0_XR, Gen by (apply Kp_in; exact HKp). rewrite Rplus_0_l. do 2 f_equal. apply Rsum_perm. exact HKp.
Qed.

Lemma sumoff_get K2 k : Permutation K2 (ukeys (ext_rates h sites)) -> In k K ->
  uget (n0 : xn) k (tab (moff h sites) K2) = Fin (moff h sites k).
Proof.
  intros P2 Hk. destruct (ext_keys h sites Hm) as (A & B & C & D & E).
  destruct (in_dec Z.eq_dec k K2) as [i|i]; [apply tab_get; exact i|].
  rewrite tab_get_out by exact i. rewrite C; [reflexivity | exact Hk|].
  intros X. apply i. eapply Permutation_in; [symmetry; exact P2 | exact X].
Qed.

Lemma calcHopOff_val c K2 : c_sites c = sites -> c_pon c = pon -> c_sumoff c = tab (moff h sites) K2 ->
  Permutation K2 (ukeys (ext_rates h sites)) -> (2 <= length sites)%nat ->
  exists K3, Permutation K3 K /\ c_calcHopOff h c = Ret tt (c_with_hopoff (tab woff K3) c).
Proof.
  intros Es Ep Eo P2 Hlen.
  set (SR := Rsum (moff h sites) K). set (ST := Rsum (mtau h sites) K).
  assert (HSR : 0 < SR).
  { destruct (has_exit_off h sites Hm Hex) as (k & Hk & Ho). apply Rsum_pos_ex with (x := k); auto.
    intros; apply moff_nonneg; exact Hm. }
  assert (HST : 0 < ST) by (apply Rsum_pos; [apply K_ne | intros; apply mtau_pos; auto]).
  pose proof WO_pos as HWO.
  unfold c_calcHopOff, bind, gets. rewrite Es, Ep, Eo. unfold cassert, c_size. rewrite Es.
  replace (1 <? Z.of_nat (length sites))%Z with true by (symmetry; apply Z.ltb_lt; lia). unfold ret.
  rewrite sum_rates_val, sum_taus_val. fold SR ST. unfold lift at 1.
  set (f := fun k => P k * moff h sites k / SR * mtau h sites k / ST).
  assert (Raw : forall l, (forall k, In k l -> In k K) ->
     hopoff_raw sites (tab (moff h sites) K2) (Fin SR) (Fin ST) (tab P l) = Ok (tab f l)).
  { induction l as [|k l IH]; intros Hl; [reflexivity|].
    change (tab P (k :: l)) with ((k, Fin (P k) : xn) :: tab P l). cbn [hopoff_raw fst snd].
    rewrite (tau_of_val h sites Hm k) by (apply Hl; simpl; auto). cbn [rbind].
    rewrite IH by (intros; apply Hl; simpl; auto). cbn [rbind].
    rewrite (sumoff_get K2 k P2) by (apply Hl; simpl; auto).
    change (@nmul XR (Fin (P k)) (Fin (moff h sites k))) with (Fin (P k * moff h sites k) : xn).
    rewrite (xdiv_Fin _ SR) by lra.
    change (@nmul XR (Fin (P k * moff h sites k / SR)) (Fin (mtau h sites k))) with (Fin (P k * moff h sites k / SR * mtau h sites k) : xn).
    rewrite (xdiv_Fin _ ST) by lra. reflexivity. }
  rewrite Raw by (apply Kp_in; exact HKp). unfold lift. rewrite modify_eq, tab_sum.
  destruct (umap_of_tab f Kp (Kp_nd h sites Kp Hm HKp)) as (K3 & E3 & P3). rewrite E3.
  exists K3. split; [rewrite P3; exact HKp|]. do 2 f_equal.
  unfold tab. rewrite map_map. apply map_ext. intros k. cbn [fst snd].
  assert (Ef : Rsum f Kp = WO / (SR * ST)).
  { rewrite (Rsum_perm f Kp K HKp). unfold WO, Rdiv at 1. rewrite <- Rsum_scal_r. apply Rsum_ext. intros j Hj.
    unfold f. field. lra. }
  rewrite Ef. rewrite xdiv_Fin.
  - f_equal. f_equal. unfold f, woff. field. lra.
  - apply Rgt_not_eq. apply Rdiv_lt_0_compat; [lra | apply Rmult_lt_0_compat; lra].
Qed.

(** probability that the next hop of the walker stays inside *)
Definition SI : R := Rsum (fun k => P k * (minner h sites k * mtau h sites k)) K.
Lemma SI_pos : 0 < SI.
Proof.
  apply Rsum_pos; [apply K_ne|]. intros k Hk. destruct (int_keys h sites Hm) as (A & B & C & D & E).
  apply Rmult_lt_0_compat; [apply HD; exact Hk|]. apply Rmult_lt_0_compat; [apply D, C; auto | apply mtau_pos; auto].
Qed.

Lemma calcHopBetween_val c K3 : c_sites c = sites -> c_pon c = pon -> c_hopoff c = tab woff K3 -> Permutation K3 K ->
  (2 <= length sites)%nat ->
  exists K4 K5, Permutation K4 K /\ Permutation K5 K /\
    c_calcHopBetween h c = Ret tt (c_with_hopoff (tab (fun k => woff k / SI) K4)
       (c_with_hopbet (tab (fun k => minner h sites k * mtau h sites k * P k) K5) c)).
Proof.
  intros Es Ep Eo P3 Hlen. destruct (int_keys h sites Hm) as (A & B & C & D & E).
  pose proof SI_pos as HSI.
  unfold c_calcHopBetween, bind, gets. rewrite Es, Ep. unfold cassert, c_size. rewrite Es.
  replace (1 <? Z.of_nat (length sites))%Z with true by (symmetry; apply Z.ltb_lt; lia). unfold ret.
  set (g := fun k => minner h sites k * mtau h sites k * P k).
  assert (Raw : forall l, (forall e, In e l -> In e (int_rates h sites)) ->
     hopbet_raw sites pon l = Ok (tab g (ukeys l))).
  { induction l as [|[k r] l IH]; intros Hl; [reflexivity|]. cbn [hopbet_raw fst snd].
    assert (Hin : In (k, r) (int_rates h sites)) by (apply Hl; simpl; auto).
    assert (Hk : In k K) by (apply B; apply (in_map fst) in Hin; exact Hin).
    rewrite (tau_of_val h sites Hm k Hk). cbn [rbind]. rewrite IH by (intros; apply Hl; simpl; auto). cbn [rbind].
    rewrite (tab_get P Kp k) by (eapply Permutation_in; [symmetry; exact HKp | exact Hk]).
    destruct (E k r Hin) as [_ Hr]. unfold sum_snd. rewrite n0_XR, (Hr 0). cbn [ukeys map fst tab].
    unfold tab. do 3 f_equal. cbn [nmul XR xmul]. unfold g. f_equal. lra. }
  rewrite (Raw (int_rates h sites)) by auto. unfold lift. rewrite modify_eq, Eo, tab_sum.
  set (Ki := ukeys (int_rates h sites)) in *.
  assert (PK : Permutation Ki K) by (apply NoDup_Permutation; [exact A | apply Hm | intros k; split; [apply B | apply C; exact Hlk]]).
  assert (ES : Rsum g Ki = SI).
  { rewrite (Rsum_perm g Ki K PK). apply Rsum_ext. intros k _. unfold g. ring. }
  rewrite ES.
  destruct (umap_of_tab g Ki A) as (K5 & E5 & P5). rewrite E5.
  assert (N5 : NoDup (map fst (tab g K5))).
  { change (NoDup (ukeys (tab g K5))). rewrite tab_keys. eapply Permutation_NoDup; [symmetry; exact P5 | exact A]. }
  assert (N3 : NoDup (ukeys (tab woff K3))) by (rewrite tab_keys; eapply Permutation_NoDup; [symmetry; exact P3 | apply Hm]).
  destruct (fold_update (n0 : xn) (fun v => ndiv v (Fin SI)) (tab g K5) (tab woff K3) N3 N5) as (A' & B' & C' & _).
  match type of A' with NoDup (ukeys ?m) => set (m' := m) in * end.
  assert (KM : forall k, In k (ukeys m') <-> In k K).
  { intros k. rewrite B'. change (map fst (tab g K5)) with (ukeys (tab g K5)). rewrite !tab_keys. split.
    - intros [X|X]; [eapply Permutation_in; [|eapply Permutation_in; [exact P5 | exact X]]; exact PK | eapply Permutation_in; [exact P3 | exact X]].
    - intros X. right. eapply Permutation_in; [symmetry; exact P3 | exact X]. }
  exists (ukeys m'), K5. split; [apply NoDup_Permutation; [exact A' | apply Hm | exact KM]|].
  split; [rewrite P5; exact PK|]. do 2 f_equal.
  apply tab_eq. intros [k v] Hin. cbn [fst snd].
  assert (Hk : In k K) by (apply KM; apply (in_map fst) in Hin; exact Hin).
  pose proof (In_ulookup k v m' A' Hin) as E1. rewrite C' in E1.
  - assert (Ev : v = ndiv (uget (n0 : xn) k (tab woff K3)) (Fin SI)) by congruence. rewrite Ev. rewrite (tab_get woff K3 k) by (eapply Permutation_in; [symmetry; exact P3 | exact Hk]).
    apply xdiv_Fin. lra.
  - change (In k (ukeys (tab g K5))). rewrite tab_keys. eapply Permutation_in; [symmetry; exact P5|].
    eapply Permutation_in; [symmetry; exact PK | exact Hk].
Qed.

(** the escape time constant *)
Definition TAU : R := Rsum (fun k => if Rltb 0 (moff h sites k) then / moff h sites k * (woff k / SI) else 0) K.

Lemma mean_inverse_val K2 K4 (f : Z -> R) (sums : Z -> R) :
  (forall k, In k K4 -> uget (n0 : xn) k (tab sums K2) = Fin (sums k)) ->
  @mean_inverse XR (tab sums K2) (tab f K4) = Fin (Rsum (fun k => if Rltb 0 (sums k) then / sums k * f k else 0) K4).
Proof.
  intros Hg. unfold mean_inverse. rewrite n0_XR.
  assert (Gen : forall l a, (forall k, In k l -> In k K4) ->
    fold_left (fun acc e => let r := uget (Fin 0 : xn) (fst e) (tab sums K2) in
      if nltb (Fin 0 : xn) r then nadd acc (nmul (ndiv n1 r) (snd e)) else acc) (tab f l) (Fin a : xn) =
    Fin (a + Rsum (fun k => if Rltb 0 (sums k) then / sums k * f k else 0) l)).
  { induction l as [|k l IH]; intros a Hl.
    - cbn [tab map fold_left Rsum]. f_equal. lra.
    - change (tab f (k :: l)) with ((k, Fin (f k) : xn) :: tab f l). cbn [fold_left fst snd].
      pose proof (Hg k (Hl k (or_introl eq_refl))) as Hgk. rewrite n0_XR in Hgk. cbn zeta. rewrite Hgk.
      change (@nltb XR (Fin 0) (Fin (sums k))) with (Rltb 0 (sums k)). cbn [Rsum].
      destruct (Rltb 0 (sums k)) eqn:Ep.
      + apply Rltb_true in Ep. rewrite n1_XR, xdiv_Fin by lra.
        change (@nadd XR (Fin a) (@nmul XR (Fin (1 / sums k)) (Fin (f k)))) with (Fin (a + 1 / sums k * f k) : xn).
        rewrite IH by (intros; apply Hl; simpl; auto). f_equal. unfold Rdiv. lra.
      + rewrite IH by (intros; apply Hl; simpl; auto). f_equal. lra. }
  refine (eq_trans (Gen K4 0 (fun k Hk => Hk)) _). f_equal. lra.
Qed.

Lemma calcTau_val c K2 K4 : c_sites c = sites -> c_sumoff c = tab (moff h sites) K2 ->
  Permutation K2 (ukeys (ext_rates h sites)) -> c_hopoff c = tab (fun k => woff k / SI) K4 -> Permutation K4 K ->
  c_calcTau h c = Ret tt (c_with_inc (ndiv (Fin TAU) (c_res c)) (c_with_tau (Fin TAU) c)).
Proof.
  intros Es Eo P2 Eh P4. unfold c_calcTau. rewrite modify_eq, Es, Eo, Eh.
  pose proof (has_exit_ext h sites Hm Hex) as Hne. destruct (ext_rates h sites) as [|e0 r0] eqn:Ee; [congruence|].
  rewrite <- Ee in P2.
  rewrite mean_inverse_val.
  - rewrite (Rsum_perm _ K4 K P4). reflexivity.
  - intros k Hk. apply sumoff_get; [exact P2 | eapply Permutation_in; eauto].
Qed.

Lemma TAU_pos : 0 < TAU.
Proof.
  destruct (has_exit_off h sites Hm Hex) as (k & Hk & Ho). pose proof SI_pos. pose proof WO_pos.
  apply Rsum_pos_ex with (x := k); [|exact Hk|].
  - intros j Hj. destruct (Rltb 0 (moff h sites j)) eqn:E; [|lra]. apply Rltb_true in E.
    apply Rmult_le_pos; [left; apply Rinv_0_lt_compat; exact E|]. unfold Rdiv.
    apply Rmult_le_pos; [apply woff_nonneg; exact Hj | left; apply Rinv_0_lt_compat; assumption].
  - apply Rltb_true in Ho. rewrite Ho. apply Rltb_true in Ho.
    apply Rmult_lt_0_compat; [apply Rinv_0_lt_compat; exact Ho|]. apply Rdiv_lt_0_compat; [|assumption].
    apply Rdiv_lt_0_compat; [|assumption]. repeat apply Rmult_lt_0_compat; [apply HD; exact Hk | exact Ho | apply mtau_pos; auto].
Qed.

Lemma calcITau_val c : exists v, c_calcITau h c = Ret tt (c_with_itau v c).
Proof. unfold c_calcITau. rewrite modify_eq. eauto. Qed.

Lemma calcDwell_val c : c_sites c = sites -> NoDup (ukeys (c_idwell c)) ->
  exists m, c_calcInternalDwell h c = Ret tt (c_with_idwell m c) /\ NoDup (ukeys m) /\
    forall k, In k K -> ulookup k m = Some (Fin (/ minner h sites k) : xn).
Proof.
  intros Es ND. destruct (int_keys h sites Hm) as (A & B & C & D & E).
  unfold c_calcInternalDwell. rewrite modify_eq, Es. eexists. split; [reflexivity|].
  destruct (fold_uset_spec (fun e : Z * umap xn => ndiv n1 (@sum_snd XR (snd e))) (int_rates h sites) (c_idwell c) ND A) as (A' & B' & C').
  split; [exact A'|]. intros k Hk. pose proof (C Hlk k Hk) as Hki. apply in_map_iff in Hki. destruct Hki as ([k' l] & E1 & Hin).
  cbn [fst] in E1. subst k'. refine (eq_trans (B' _ Hin) _). cbn [snd]. destruct (E k l Hin) as [_ Hs].
  unfold sum_snd. rewrite n0_XR, (Hs 0), n1_XR. rewrite xdiv_Fin.
  - do 2 f_equal. rewrite Rplus_0_l. unfold Rdiv. lra.
  - rewrite Rplus_0_l. apply Rgt_not_eq. apply D. apply C; auto.
Qed.
End T3.
