(** * Cluster calculations over exact arithmetic *)
From Coq Require Import ZArith List Bool Reals Lra Lia Permutation Relations.
From Verif Require Import Base BaseProofs Num OrdLaws RSum SiteModel SiteSpec SiteProofs
  ClusterModel ClusterSpec ClusterFrame MasterEq MasterBlocks.
Import ListNotations.
Open Scope R_scope.

(** one spelling of the type of numbers *)
Notation xn := (@num XR).

(** ** Sums over maps *)
Lemma Rsum_inter (A B : list Z) f : NoDup A -> NoDup B ->
  Rsum (fun n => if in_dec Z.eq_dec n B then f n else 0) A =
  Rsum (fun n => if in_dec Z.eq_dec n A then f n else 0) B.
Proof.
  intros NA NB.
  assert (E : forall X Y, Rsum (fun n => if in_dec Z.eq_dec n Y then f n else 0) X =
                Rsum f (filter (fun n => if in_dec Z.eq_dec n Y then true else false) X)).
  { intros X Y. rewrite Rsum_filter. apply Rsum_ext. intros n _. destruct (in_dec _ _ _); reflexivity. }
  rewrite !E. apply Rsum_perm. apply NoDup_Permutation; try (apply NoDup_filter; assumption).
  intros n. rewrite !filter_In. destruct (in_dec Z.eq_dec n B), (in_dec Z.eq_dec n A); intuition congruence.
Qed.

Lemma Rsum_umap {V} (m : umap V) (K : list Z) (f : Z -> V -> R) :
  NoDup (ukeys m) -> NoDup K -> (forall k, In k (ukeys m) -> In k K) ->
  Rsum (fun e => f (fst e) (snd e)) m = Rsum (fun k => match ulookup k m with Some v => f k v | None => 0 end) K.
Proof.
  intros NM NK Hin.
  transitivity (Rsum (fun k => match ulookup k m with Some v => f k v | None => 0 end) (ukeys m)).
  - unfold ukeys. rewrite Rsum_map. apply Rsum_ext. intros [k v] He. simpl.
    rewrite (In_ulookup k v m NM He). reflexivity.
  - transitivity (Rsum (fun k => if in_dec Z.eq_dec k K then match ulookup k m with Some v => f k v | None => 0 end else 0) (ukeys m)).
    + apply Rsum_ext. intros k Hk. destruct (in_dec _ _ _) as [|n]; [reflexivity | destruct n; auto].
    + rewrite (Rsum_inter (ukeys m) K) by assumption. apply Rsum_ext. intros k Hk.
      destruct (in_dec Z.eq_dec k (ukeys m)) as [|n]; [reflexivity|].
      apply ulookup_None in n. rewrite n. reflexivity.
Qed.

(** values given by a function of the key *)
Definition vals (m : umap xn) (f : Z -> R) : Prop := forall e, In e m -> snd e = Fin (f (fst e)).
Lemma sum_snd_vals (m : umap xn) f : vals m f -> @sum_snd XR m = Fin (Rsum (fun e => f (fst e)) m).
Proof.
  intros Hv. unfold sum_snd. rewrite n0_XR. rewrite (fold_nadd snd (fun e => f (fst e))).
  - f_equal. apply Rplus_0_l.
  - exact Hv.
Qed.
Lemma Rsum_keys {V} (m : umap V) (f : Z -> R) : Rsum (fun e => f (fst e)) m = Rsum f (ukeys m).
Proof. unfold ukeys. rewrite Rsum_map. reflexivity. Qed.

Section Umaps.
Context {I : Impl}.

Lemma umap_fold_perm {V} (l : list (Z * V)) : forall m, NoDup (ukeys m ++ map fst l) ->
  Permutation (fold_left (fun m e => uset m (fst e) (snd e)) l m) (l ++ m).
Proof.
  induction l as [|[k v] l IH]; intros m ND; [reflexivity|]. cbn [fold_left fst snd].
  simpl in ND. pose proof (NoDup_remove_2 _ _ _ ND) as Hk. rewrite in_app_iff in Hk.
  assert (F : umem k m = false) by (apply umem_false; intros X; apply Hk; auto).
  pose proof (uset_perm_new m k v F) as P.
  rewrite IH.
  - rewrite P. symmetry. apply Permutation_middle.
  - eapply Permutation_NoDup; [|exact ND].
    unfold ukeys. rewrite (Permutation_map fst P). simpl. symmetry. apply Permutation_middle.
Qed.
Lemma umap_of_perm {V} (l : list (Z * V)) : NoDup (map fst l) -> Permutation (umap_of l) l.
Proof. intros ND. unfold umap_of. rewrite umap_fold_perm by exact ND. rewrite app_nil_r. reflexivity. Qed.

Lemma fold_uset_spec {V W} (g : Z * W -> V) (l : list (Z * W)) : forall m, NoDup (ukeys m) -> NoDup (map fst l) ->
  let m' := fold_left (fun m e => uset m (fst e) (g e)) l m in
  NoDup (ukeys m') /\ (forall e, In e l -> ulookup (fst e) m' = Some (g e)) /\
  (forall k, ~ In k (map fst l) -> ulookup k m' = ulookup k m).
Proof.
  induction l as [|e l IH]; intros m NM NL; cbn [fold_left].
  - split; [exact NM|]. split; [intros ? []| reflexivity].
  - simpl in NL. inversion NL as [|? ? Hni NL']; subst.
    destruct (IH (uset m (fst e) (g e)) (uset_NoDup m (fst e) (g e) NM) NL') as (A & B & C).
    split; [exact A|]. split.
    + intros x [<-|Hx]; [|auto]. rewrite C by exact Hni. apply uset_lookup_same; exact NM.
    + intros k Hk. simpl in Hk. rewrite C by tauto. apply uset_lookup_other; [exact NM|]. intuition.
Qed.
Lemma fold_uset_keys {V W} (g : Z * W -> V) (l : list (Z * W)) : forall m k,
  In k (ukeys (fold_left (fun m e => uset m (fst e) (g e)) l m)) <-> In k (map fst l) \/ In k (ukeys m).
Proof.
  induction l as [|e l IH]; intros m k; cbn [fold_left]; [simpl; tauto|].
  rewrite IH, uset_keys_In. simpl. intuition.
Qed.
End Umaps.

Section Real.
Context {I : Impl} {G : @Rng XR}.
Implicit Types (s : @site XR G) (sites : umap (@site XR G)).

(** ** Sites *)
Lemma neigh_NoDup h s : site_ok h s -> NoDup (ukeys (s_neigh s)).
Proof. intros [Hg _]. apply Hg. Qed.
Lemma total_pos h s : site_ok h s -> 0 < total_rate h (s_neigh s).
Proof. intros [Hg _]. apply total_rate_pos; exact Hg. Qed.
Lemma tau_val h s : site_ok h s -> s_tau s = Fin (/ total_rate h (s_neigh s)).
Proof.
  intros [_ (_ & _ & _ & _ & _ & Ht & _)]. unfold s_getTimeConstant in Ht. rewrite Ht.
  f_equal. unfold Rdiv. ring.
Qed.
Lemma site_rate_pos h s n : site_ok h s -> In n (s_neighIds s) -> 0 < site_rate h s n.
Proof.
  intros [Hg _] Hn. unfold site_rate. apply ukeys_In in Hn. destruct Hn as [a Ha]. rewrite Ha.
  apply ulookup_In in Ha. apply (good_value h _ (n, a) Hg Ha).
Qed.
Lemma site_rate_zero h s n : ~ In n (s_neighIds s) -> site_rate h s n = 0.
Proof. intros Hn. unfold site_rate. apply ulookup_None in Hn. rewrite Hn. reflexivity. Qed.
Lemma site_rate_nonneg h s n : site_ok h s -> 0 <= site_rate h s n.
Proof.
  intros Hs. destruct (in_dec Z.eq_dec n (s_neighIds s)) as [i|i].
  - left. apply site_rate_pos; auto.
  - rewrite site_rate_zero by exact i. lra.
Qed.
Lemma site_prob_nonneg h s n : site_ok h s -> 0 <= site_prob h s n.
Proof.
  intros Hs. unfold site_prob, Rdiv. apply Rmult_le_pos; [apply site_rate_nonneg; auto|].
  left. apply Rinv_0_lt_compat, total_pos; auto.
Qed.
Lemma site_prob_pos h s n : site_ok h s -> In n (s_neighIds s) -> 0 < site_prob h s n.
Proof. intros Hs Hn. apply Rdiv_lt_0_compat; [apply site_rate_pos | apply total_pos]; auto. Qed.
Lemma site_prob_zero h s n : ~ In n (s_neighIds s) -> site_prob h s n = 0.
Proof. intros Hn. unfold site_prob. rewrite site_rate_zero by exact Hn. unfold Rdiv. ring. Qed.

Lemma probTo_val h s n : site_ok h s -> In n (s_neighIds s) -> s_probTo s n = Ok (Fin (site_prob h s n)).
Proof.
  intros [Hg (He & _ & _ & _ & Hp & _)] Hn. apply Hp. apply He.
  unfold site_prob, site_rate. apply ukeys_In in Hn. destruct Hn as [a Ha]. rewrite Ha.
  exists (realv (h a)). split; [|reflexivity]. exists a. apply ulookup_In in Ha. split; [exact Ha|].
  apply (good_value h _ (n, a) Hg Ha).
Qed.

(** a sum over the neighbours *)
Lemma neigh_sum h s (f : Z -> R -> R) : site_ok h s ->
  Rsum (fun n => f n (site_rate h s n)) (s_neighIds s) = Rsum (fun na => f (fst na) (realv (h (snd na)))) (s_neigh s).
Proof.
  intros Hs. unfold s_neighIds, ukeys. rewrite Rsum_map. apply Rsum_ext. intros [n a] Hin. simpl.
  unfold site_rate. rewrite (In_ulookup n a _ (neigh_NoDup h s Hs) Hin). reflexivity.
Qed.
Lemma prob_sum h s : site_ok h s -> Rsum (site_prob h s) (s_neighIds s) = 1.
Proof.
  intros Hs. unfold site_prob. rewrite (neigh_sum h s (fun _ r => r / total_rate h (s_neigh s)) Hs).
  unfold Rdiv. rewrite Rsum_scal_r. pose proof (total_pos h s Hs). unfold total_rate in *.
  apply Rinv_r. lra.
Qed.

(** ** The transition probabilities between members *)
Notation qq := mprob.

Lemma qq_in h sites n k s : members_ok h sites -> In (n, s) sites -> qq h sites n k = site_prob h s k.
Proof. intros [ND _] Hin. unfold mprob. rewrite (In_ulookup n s sites ND Hin). reflexivity. Qed.
Lemma keys_In sites k : In k (ukeys sites) -> exists s, In (k, s) sites.
Proof. intros Hk. apply ukeys_In in Hk. destruct Hk as [s E]. exists s. apply ulookup_In; exact E. Qed.
Lemma qq_nonneg h sites n k : members_ok h sites -> 0 <= qq h sites n k.
Proof.
  intros [ND Hok]. unfold mprob. destruct (ulookup n sites) eqn:E; [|lra].
  apply site_prob_nonneg. eapply Hok. apply ulookup_In; exact E.
Qed.

Lemma stay_val h sites n s : members_ok h sites -> In (n, s) sites ->
  stay (ukeys sites) (qq h sites) n = inner_rate h sites s / total_rate h (s_neigh s).
Proof.
  intros Hm Hin. pose proof Hm as [ND Hok]. pose proof (Hok n s Hin) as Hs. unfold stay.
  transitivity (Rsum (fun k => if in_dec Z.eq_dec k (s_neighIds s) then site_prob h s k else 0) (ukeys sites)).
  { apply Rsum_ext. intros k Hk. rewrite (qq_in h sites n k s Hm Hin).
    destruct (in_dec _ _ _); [reflexivity | apply site_prob_zero; assumption]. }
  rewrite Rsum_inter; [| exact ND | exact (neigh_NoDup h s Hs)].
  transitivity (Rsum (fun k => (fun k r => if umem k sites then r / total_rate h (s_neigh s) else 0) k (site_rate h s k)) (s_neighIds s)).
  { apply Rsum_ext. intros k Hk. unfold site_prob. destruct (in_dec Z.eq_dec k (ukeys sites)) as [i|i].
    - apply umem_In in i. rewrite i. reflexivity.
    - apply umem_false in i. rewrite i. reflexivity. }
  rewrite (neigh_sum h s (fun k r => if umem k sites then r / total_rate h (s_neigh s) else 0) Hs). unfold inner_rate, Rdiv. rewrite <- Rsum_scal_r. apply Rsum_ext.
  intros [k a] _. simpl. destruct (umem k sites); ring.
Qed.

Lemma off_inner h sites s : off_rate h sites s + inner_rate h sites s = total_rate h (s_neigh s).
Proof.
  unfold off_rate, inner_rate, total_rate. rewrite <- Rsum_plus. apply Rsum_ext. intros [k a] _; simpl.
  destruct (umem k sites); ring.
Qed.
Lemma good_nonneg h s na : site_ok h s -> In na (s_neigh s) -> 0 < realv (h (snd na)).
Proof. intros [Hg _] Hin. apply (good_value h _ na Hg Hin). Qed.
Lemma off_nonneg h sites s : site_ok h s -> 0 <= off_rate h sites s.
Proof.
  intros Hs. apply Rsum_nonneg. intros na Hin. pose proof (good_nonneg h s na Hs Hin). destruct (umem _ _); lra.
Qed.
Lemma inner_nonneg h sites s : site_ok h s -> 0 <= inner_rate h sites s.
Proof.
  intros Hs. apply Rsum_nonneg. intros na Hin. pose proof (good_nonneg h s na Hs Hin). destruct (umem _ _); lra.
Qed.
Lemma stay_le1 h sites n : members_ok h sites -> In n (ukeys sites) -> stay (ukeys sites) (qq h sites) n <= 1.
Proof.
  intros Hm Hn. destruct (keys_In sites n Hn) as [s Hin]. rewrite (stay_val h sites n s Hm Hin).
  pose proof (proj2 Hm n s Hin) as Hs. pose proof (total_pos h s Hs). pose proof (off_nonneg h sites s Hs).
  pose proof (off_inner h sites s).
  apply Rmult_le_reg_r with (total_rate h (s_neigh s)); [lra|]. unfold Rdiv. rewrite Rmult_assoc, Rinv_l by lra. lra.
Qed.
Lemma inner_pos h sites k s n : members_ok h sites -> In (k, s) sites -> In n (s_neighIds s) -> In n (ukeys sites) ->
  0 < inner_rate h sites s.
Proof.
  intros Hm Hin Hn Hk. pose proof (proj2 Hm k s Hin) as Hs.
  apply ukeys_In in Hn. destruct Hn as [a Ha]. apply ulookup_In in Ha.
  unfold inner_rate. apply Rsum_pos_ex with (x := (n, a)); auto.
  - intros na Hna. pose proof (good_nonneg h s na Hs Hna). destruct (umem _ _); lra.
  - simpl. apply umem_In in Hk. rewrite Hk. apply (good_nonneg h s (n, a) Hs Ha).
Qed.
Lemma off_pos h sites k s n : members_ok h sites -> In (k, s) sites -> In n (s_neighIds s) -> ~ In n (ukeys sites) ->
  0 < off_rate h sites s.
Proof.
  intros Hm Hin Hn Hk. pose proof (proj2 Hm k s Hin) as Hs.
  apply ukeys_In in Hn. destruct Hn as [a Ha]. apply ulookup_In in Ha.
  unfold off_rate. apply Rsum_pos_ex with (x := (n, a)); auto.
  - intros na Hna. pose proof (good_nonneg h s na Hs Hna). destruct (umem _ _); lra.
  - simpl. apply umem_false in Hk. rewrite Hk. apply (good_nonneg h s (n, a) Hs Ha).
Qed.
Lemma edge_iff h sites i k : members_ok h sites -> (edge (ukeys sites) (qq h sites) i k <-> internal_edge sites i k).
Proof.
  intros Hm. split.
  - intros (Hi & Hk & Hq). destruct (keys_In sites i Hi) as [s Hin]. exists s. split; [exact Hin|].
    split; [|exact Hk]. rewrite (qq_in h sites i k s Hm Hin) in Hq.
    destruct (in_dec Z.eq_dec k (s_neighIds s)) as [|n]; [assumption|].
    rewrite site_prob_zero in Hq by exact n. lra.
  - intros (s & Hin & Hn & Hk). split; [apply (in_map fst) in Hin; exact Hin|]. split; [exact Hk|].
    rewrite (qq_in h sites i k s Hm Hin). apply site_prob_pos; auto. apply (proj2 Hm i s Hin).
Qed.

(** ** iterate_ *)
Definition pon_is sites (pon : umap xn) (P : Z -> R) : Prop :=
  NoDup (ukeys pon) /\ forall k, In k (ukeys sites) -> ulookup k pon = Some (Fin (P k)).

Lemma pon_get sites pon P k : pon_is sites pon P -> In k (ukeys sites) -> uget (n0 : xn) k pon = Fin (P k).
Proof. intros [_ Hp] Hk. unfold uget. rewrite (Hp k Hk). reflexivity. Qed.

Lemma inflow_neigh h sites k s P : members_ok h sites -> mutual sites -> In (k, s) sites ->
  Rsum (fun n => if umem n sites then qq h sites n k * P n else 0) (s_neighIds s) =
  inflow (ukeys sites) (qq h sites) P k.
Proof.
  intros Hm Hmut Hin. pose proof Hm as [ND Hok]. pose proof (Hok k s Hin) as Hs.
  assert (Hk : In k (ukeys sites)) by (apply (in_map fst) in Hin; exact Hin).
  transitivity (Rsum (fun n => if in_dec Z.eq_dec n (ukeys sites) then qq h sites n k * P n else 0) (s_neighIds s)).
  { apply Rsum_ext. intros n _. destruct (in_dec Z.eq_dec n (ukeys sites)) as [i|i].
    - apply umem_In in i. rewrite i. reflexivity.
    - apply umem_false in i. rewrite i. reflexivity. }
  rewrite Rsum_inter; [| exact (neigh_NoDup h s Hs) | exact ND]. unfold inflow. apply Rsum_ext.
  intros n Hn. destruct (in_dec Z.eq_dec n (s_neighIds s)) as [|nn]; [reflexivity|].
  destruct (keys_In sites n Hn) as [s' Hin']. rewrite (qq_in h sites n k s' Hm Hin').
  rewrite site_prob_zero; [ring|]. intros Hc.
  destruct (Hmut n k) as (s2 & Hin2 & Hn2 & _); [exists s'; auto|].
  pose proof (In_ulookup k s sites ND Hin) as E1. pose proof (In_ulookup k s2 sites ND Hin2) as E2.
  assert (s2 = s) by congruence. subst. contradiction.
Qed.

Lemma it_temp_val h sites pon P k s : members_ok h sites -> mutual sites -> pon_is sites pon P -> In (k, s) sites ->
  it_temp sites pon k s = Ok (Fin (inflow (ukeys sites) (qq h sites) P k)).
Proof.
  intros Hm Hmut HP Hin. pose proof Hm as [ND Hok]. pose proof (Hok k s Hin) as Hs.
  assert (Hk : In k (ukeys sites)) by (apply (in_map fst) in Hin; exact Hin).
  unfold it_temp. rewrite (pon_get sites pon P k HP Hk).
  assert (Gen : forall l t, (forall n, In n l -> In n (s_neighIds s)) ->
    fold_left (fun acc n => t <-! acc;
      t1 <-! (match ulookup n sites with
            | Some sn => p <-! s_probTo sn k; Ok (nadd t (nmul p (uget n0 n pon)))
            | None => Ok t end);
      p <-! s_probTo s n; Ok (nsub t1 (nmul p (Fin (P k))))) l (Ok (Fin t)) =
    Ok (Fin (t + Rsum (fun n => if umem n sites then qq h sites n k * P n else 0) l - Rsum (site_prob h s) l * P k))).
  { induction l as [|n l IH]; intros t Hl; cbn [fold_left Rsum].
    - do 2 f_equal. ring.
    - rewrite (probTo_val h s n Hs) by (apply Hl; simpl; auto). cbn [rbind].
      unfold umem at 1. destruct (ulookup n sites) as [sn|] eqn:E.
      + assert (Hn : In (n, sn) sites) by (apply ulookup_In; exact E).
        assert (Hkn : In k (s_neighIds sn)).
        { destruct (Hmut k n) as (s2 & Hin2 & Hn2 & _).
          - exists s. split; [exact Hin|]. split; [apply Hl; simpl; auto|]. apply (in_map fst) in Hn; exact Hn.
          - rewrite (In_ulookup n s2 sites ND Hin2) in E. congruence. }
        rewrite (probTo_val h sn k (Hok n sn Hn) Hkn). cbn [rbind].
        rewrite (pon_get sites pon P n HP) by (apply (in_map fst) in Hn; exact Hn).
        cbn [nadd nmul nsub XR xadd xmul xsub xopp].
        rewrite IH by (intros; apply Hl; simpl; auto).
        rewrite (qq_in h sites n k sn Hm Hn). do 2 f_equal. ring.
      + cbn [rbind nadd nmul nsub XR xadd xmul xsub xopp].
        rewrite IH by (intros; apply Hl; simpl; auto). do 2 f_equal. ring. }
  rewrite Gen by auto. rewrite (inflow_neigh h sites k s P Hm Hmut Hin), (prob_sum h s Hs).
  do 2 f_equal. ring.
Qed.

Lemma it_temps_val h sites pon P l : members_ok h sites -> mutual sites -> pon_is sites pon P ->
  (forall e, In e l -> In e sites) ->
  it_temps sites pon l = Ok (map (fun e => (fst e, Fin (inflow (ukeys sites) (qq h sites) P (fst e)) : xn)) l).
Proof.
  intros Hm Hmut HP. induction l as [|[k s] l IH]; intros Hl; cbn [it_temps map]; [reflexivity|].
  cbn [fst snd]. rewrite (it_temp_val h sites pon P k s Hm Hmut HP) by (apply Hl; simpl; auto). cbn [rbind].
  rewrite IH by (intros; apply Hl; simpl; auto). reflexivity.
Qed.

Lemma sum_snd_map {V} (l : umap V) (f : Z -> R) : @sum_snd XR (map (fun e => (fst e, Fin (f (fst e)) : xn)) l) = Fin (Rsum f (ukeys l)).
Proof.
  rewrite (sum_snd_vals _ f).
  - f_equal. rewrite Rsum_map. cbn [fst]. apply Rsum_keys.
  - intros e He. apply in_map_iff in He. destruct He as (x & <- & _). reflexivity.
Qed.

Notation KK sites := (ukeys sites).
Notation stp h sites := (step (KK sites) (qq h sites)).

Lemma linked_has sites : sites <> [] -> linked sites -> has_link sites.
Proof.
  intros Hne Hl. destruct sites as [|[k s] r] eqn:E; [congruence|]. rewrite <- E in *.
  destruct (Hl k) as [n Hn]; [rewrite E; simpl; auto|]. exists k, n. exact Hn.
Qed.

Lemma some_edge h sites : members_ok h sites -> sites <> [] -> has_link sites ->
  exists i k, edge (KK sites) (qq h sites) i k.
Proof. intros Hm _ (i & k & E). exists i, k. apply edge_iff; auto. Qed.

Lemma iterate_val h sites pon P : members_ok h sites -> mutual sites -> sites <> [] -> has_link sites ->
  pon_is sites pon P -> dist (KK sites) P ->
  exists pon', iterate sites pon = Ok pon' /\ pon_is sites pon' (stp h sites P) /\ dist (KK sites) (stp h sites P) /\
    (forall k, In k (ukeys pon') <-> In k (ukeys pon)).
Proof.
  intros Hm Hmut Hne Hl HP HD. pose proof Hm as [ND Hok].
  pose proof (some_edge h sites Hm Hne Hl) as He.
  assert (Hqn : forall i k, In i (KK sites) -> In k (KK sites) -> 0 <= qq h sites i k) by (intros; apply qq_nonneg; auto).
  assert (HT : 0 < Ttot (KK sites) (qq h sites) P) by (apply Ttot_pos; auto; apply HD).
  assert (HD' : dist (KK sites) (stp h sites P)) by (apply step_dist; auto).
  unfold iterate. rewrite (it_temps_val h sites pon P sites Hm Hmut HP) by auto. cbn [rbind].
  rewrite sum_snd_map. rewrite n1_XR.
  change (Rsum (inflow (KK sites) (qq h sites) P) (KK sites)) with (Ttot (KK sites) (qq h sites) P).
  rewrite xdiv_Fin by lra.
  rewrite map_map. cbn [fst snd].
  assert (Enew : map (fun x : Z * @site XR G => (fst x,
       nmul (nadd (nmul (Fin (inflow (KK sites) (qq h sites) P (fst x))) (Fin (1 / Ttot (KK sites) (qq h sites) P))) (uget n0 (fst x) pon)) (nlit 1 2))) sites
     = map (fun e => (fst e, Fin (stp h sites P (fst e)) : xn)) sites).
  { apply map_ext_in. intros e He'. rewrite (pon_get sites pon P (fst e) HP) by (apply in_map; exact He').
    f_equal. cbn [nlit XR nmul xmul nadd xadd]. f_equal. unfold step. field. lra. }
  rewrite Enew. rewrite sum_snd_map. rewrite (proj2 HD'). rewrite xdiv_Fin by lra.
  eexists; split; [reflexivity|].
  set (g := fun e : Z * xn => nmul (snd e) (Fin (1 / 1))).
  set (l := map (fun e => (fst e, Fin (stp h sites P (fst e)) : xn)) sites).
  assert (NDl : NoDup (map fst l)) by (unfold l; rewrite map_map; exact ND).
  destruct (fold_uset_spec g l pon (proj1 HP) NDl) as (A & B & C).
  split; [|split].
  - split; [exact A|]. intros k Hk. destruct (keys_In sites k Hk) as [s Hin].
    assert (Hl' : In (k, Fin (stp h sites P k) : xn) l) by (apply (in_map (fun e => (fst e, Fin (stp h sites P (fst e)) : xn))) in Hin; exact Hin).
    specialize (B _ Hl'). cbn [fst] in B. refine (eq_trans B _). f_equal.
    unfold g. cbn [snd nmul XR xmul]. f_equal. field.
  - exact HD'.
  - intros k. refine (iff_trans (fold_uset_keys g l pon k) _). split; [|auto]. intros [Hk|]; [|assumption].
    unfold l in Hk. rewrite map_map in Hk. cbn [fst] in Hk. fold (ukeys sites) in Hk.
    destruct HP as [_ Hp]. specialize (Hp k Hk). apply ulookup_In_key in Hp. exact Hp.
Qed.

Lemma iterate_n_val h sites n : members_ok h sites -> mutual sites -> sites <> [] -> has_link sites ->
  forall pon P, pon_is sites pon P -> dist (KK sites) P ->
  exists pon', iterate_n n sites pon = Ok pon' /\ pon_is sites pon' (steps (KK sites) (qq h sites) n P) /\
    dist (KK sites) (steps (KK sites) (qq h sites) n P) /\ (forall k, In k (ukeys pon') <-> In k (ukeys pon)).
Proof.
  intros Hm Hmut Hne Hl. induction n as [|n IH]; intros pon P HP HD; cbn [iterate_n steps].
  - exists pon. split; [reflexivity|]. split; [exact HP|]. split; [exact HD|]. tauto.
  - destruct (iterate_val h sites pon P Hm Hmut Hne Hl HP HD) as (pon1 & -> & HP1 & HD1 & K1). cbn [rbind].
    destruct (IH pon1 _ HP1 HD1) as (pon2 & E & HP2 & HD2 & K2).
    exists pon2. split; [exact E|]. split; [exact HP2|]. split; [exact HD2|]. intros k. rewrite K2. apply K1.
Qed.

(** the error of one step, as the code computes it: over the keys of the old map *)
Lemma iter_error_val sites pon pon' P P' : pon_is sites pon P -> pon_is sites pon' P' ->
  (forall k, In k (ukeys pon) -> In k (KK sites)) -> NoDup (KK sites) ->
  iter_error pon pon' = Fin (sqrt (Rsum (fun k => (P k - P' k) * (P k - P' k)) (KK sites))).
Proof.
  intros HP HP' Hk ND. unfold iter_error. rewrite n0_XR.
  rewrite (fold_nadd (fun e => let d := nsub (snd e) (uget n0 (fst e) pon') in nmul d d)
             (fun e => (P (fst e) - P' (fst e)) * (P (fst e) - P' (fst e)))).
  - cbn [nsqrt XR xsqrt]. rewrite Rplus_0_l.
    rewrite (Rsum_keys pon (fun k => (P k - P' k) * (P k - P' k))).
    replace (Rsum (fun k => (P k - P' k) * (P k - P' k)) (ukeys pon)) with
      (Rsum (fun k => (P k - P' k) * (P k - P' k)) (KK sites)).
    + replace (Rltb _ 0) with false; [reflexivity|]. symmetry. apply Rltb_false. apply Rsum_nonneg.
      intros. apply Rle_0_sqr.
    + apply Rsum_perm. apply NoDup_Permutation; [exact ND | apply HP|]. intros k. split; [|apply Hk].
      intros Hin. destruct HP as [_ HP]. specialize (HP k Hin). apply ulookup_In_key in HP. exact HP.
  - intros [k v] Hin. cbn [fst snd]. assert (Hkk : In k (KK sites)) by (apply Hk; apply (in_map fst) in Hin; exact Hin).
    rewrite (pon_get sites pon' P' k HP' Hkk).
    destruct HP as [NP HP]. pose proof (In_ulookup k v pon NP Hin) as E. rewrite (HP k Hkk) in E. inversion E; subst.
    reflexivity.
Qed.

(** the tolerance loop returns a distribution whenever it returns *)
Lemma iterate_tol_val h sites tol fuel : members_ok h sites -> mutual sites -> sites <> [] -> has_link sites ->
  forall err pon P pon', pon_is sites pon P -> dist (KK sites) P ->
  iterate_tol fuel tol err sites pon = Ok pon' ->
  exists P', pon_is sites pon' P' /\ dist (KK sites) P' /\ (forall k, In k (ukeys pon') <-> In k (ukeys pon)).
Proof.
  intros Hm Hmut Hne Hl. induction fuel as [|f IH]; intros err pon P pon' HP HD; cbn [iterate_tol];
    destruct (nltb tol err); try discriminate.
  - intros E; inversion E; subst. exists P. split; [exact HP|]. split; [exact HD | tauto].
  - destruct (iterate_val h sites pon P Hm Hmut Hne Hl HP HD) as (pon1 & -> & HP1 & HD1 & K1). cbn [rbind].
    intros E. destruct (IH _ _ _ _ HP1 HD1 E) as (P2 & A & B & C).
    exists P2. split; [exact A|]. split; [exact B|]. intros k. rewrite C. apply K1.
  - intros E; inversion E; subst. exists P. split; [exact HP|]. split; [exact HD | tauto].
Qed.

(** never anything but a value or running out of fuel *)
Lemma iterate_tol_total h sites tol fuel : members_ok h sites -> mutual sites -> sites <> [] -> has_link sites ->
  forall err pon P, pon_is sites pon P -> dist (KK sites) P ->
  (exists pon', iterate_tol fuel tol err sites pon = Ok pon') \/ iterate_tol fuel tol err sites pon = Bad Diverged.
Proof.
  intros Hm Hmut Hne Hl. induction fuel as [|f IH]; intros err pon P HP HD; cbn [iterate_tol];
    destruct (nltb tol err); eauto.
  destruct (iterate_val h sites pon P Hm Hmut Hne Hl HP HD) as (pon1 & -> & HP1 & HD1 & K1). cbn [rbind]. eauto.
Qed.

Lemma sum_sq_le (f : Z -> R) (l : list Z) : sqrt (Rsum (fun k => f k * f k) l) <= Rsum (fun k => Rabs (f k)) l.
Proof.
  assert (Hp : 0 <= Rsum (fun k => Rabs (f k)) l) by (apply Rsum_nonneg; intros; apply Rabs_pos).
  rewrite <- (sqrt_square _ Hp). apply sqrt_le_1_alt.
  induction l as [|k l IH]; simpl; [lra|].
  assert (Hl : 0 <= Rsum (fun k => Rabs (f k)) l) by (apply Rsum_nonneg; intros; apply Rabs_pos).
  specialize (IH Hl). pose proof (Rabs_pos (f k)).
  assert (f k * f k = Rabs (f k) * Rabs (f k)).
  { unfold Rabs. destruct (Rcase_abs (f k)); ring. }
  nra.
Qed.

Lemma edge_star h sites j k : members_ok h sites -> clos_refl_trans Z (internal_edge sites) j k ->
  clos_refl_trans_n1 Z (edge (KK sites) (qq h sites)) j k.
Proof.
  intros Hm Hr. apply clos_rt_rtn1. induction Hr; [apply rt_step, edge_iff; auto | apply rt_refl | eapply rt_trans; eauto].
Qed.

Lemma iterate_tol_stops h sites tol n : members_ok h sites -> mutual sites -> sites <> [] -> has_link sites ->
  forall pon P, pon_is sites pon P -> dist (KK sites) P -> (forall k, In k (ukeys pon) -> In k (KK sites)) ->
  Rsum (fun k => Rabs (steps (KK sites) (qq h sites) n P k - step (KK sites) (qq h sites) (steps (KK sites) (qq h sites) n P) k)) (KK sites) <= tol ->
  forall err fuel, (n < fuel)%nat -> exists pon', iterate_tol fuel (Fin tol) err sites pon = Ok pon'.
Proof.
  intros Hm Hmut Hne Hl. induction n as [|n IH]; intros pon P HP HD HK Hn err fuel Hf;
    (destruct fuel as [|f]; [lia|]); cbn [iterate_tol]; (destruct (nltb (Fin tol) err); [|eauto]);
    destruct (iterate_val h sites pon P Hm Hmut Hne Hl HP HD) as (pon1 & -> & HP1 & HD1 & K1); cbn [rbind].
  - cbn [steps] in Hn. rewrite (iter_error_val sites pon pon1 P _ HP HP1 HK (proj1 Hm)).
    destruct f; cbn [iterate_tol];
    (replace (nltb _ _) with false; [eauto|]; symmetry; cbn [nltb XR xltb]; apply Rltb_false;
     eapply Rle_trans; [apply sum_sq_le | exact Hn]).
  - cbn [steps] in Hn. apply (IH pon1 _ HP1 HD1); [intros k Hk; apply HK, K1, Hk | exact Hn | lia].
Qed.

Lemma iterate_tol_terminates h sites tol pon P err : members_ok h sites -> mutual sites -> sites <> [] -> has_link sites ->
  0 < tol -> pon_is sites pon P -> dist (KK sites) P -> (forall k, In k (ukeys pon) -> In k (KK sites)) ->
  exists n, forall fuel, (n < fuel)%nat -> exists pon', iterate_tol fuel (Fin tol) err sites pon = Ok pon'.
Proof.
  intros Hm Hmut Hne Hl Ht HP HD HK.
  assert (Kne : KK sites <> []) by (destruct sites; [congruence | discriminate]).
  destruct (converges_any (KK sites) (qq h sites)) with (P0 := P) (eta := tol) as [n Hn]; auto.
  - intros; apply qq_nonneg; auto.
  - intros; apply stay_le1; auto.
  - intros i k E. apply edge_iff; [exact Hm|]. apply Hmut. apply (edge_iff h sites); auto.
  - apply some_edge; auto.
  - exists n. intros fuel Hf. eapply iterate_tol_stops; eauto.
Qed.

(** ** initialise and solve *)
Lemma init_pon_val sites pon : NoDup (KK sites) -> sites <> [] -> NoDup (ukeys pon) ->
  pon_is sites (init_pon sites pon) (fun _ => / INR (length sites)) /\
  dist (KK sites) (fun _ => / INR (length sites)) /\
  (forall k, In k (ukeys (init_pon sites pon)) <-> In k (KK sites) \/ In k (ukeys pon)).
Proof.
  intros ND Hne NP. unfold init_pon.
  assert (Hpos : 0 < INR (length sites)) by (apply lt_0_INR; destruct sites; [congruence | simpl; lia]).
  set (v := @ndiv XR n1 (nofZ (Z.of_nat (length sites)))).
  assert (Hv : v = Fin (/ INR (length sites))).
  { unfold v. rewrite n1_XR. cbn [nofZ XR]. rewrite <- INR_IZR_INZ.
    change (xdiv (Fin 1) (Fin (INR (length sites)))) with (@ndiv XR (Fin 1) (Fin (INR (length sites)))).
    rewrite xdiv_Fin by lra. f_equal. unfold Rdiv. ring. }
  destruct (fold_uset_spec (fun _ : Z * @site XR G => v) sites pon NP ND) as (A & B & C).
  split; [|split].
  - split; [exact A|]. intros k Hk. destruct (keys_In sites k Hk) as [s Hin]. refine (eq_trans (B _ Hin) _). rewrite Hv. reflexivity.
  - split; [intros; apply Rinv_0_lt_compat; exact Hpos|]. rewrite Rsum_const. unfold ukeys. rewrite map_length.
    apply Rinv_r. lra.
  - exact (fold_uset_keys (fun _ : Z * @site XR G => v) sites pon).
Qed.

Lemma solve_val h sites fuel m iters tol pon : members_ok h sites -> mutual sites -> sites <> [] -> has_link sites ->
  NoDup (ukeys pon) -> (forall k, In k (ukeys pon) -> In k (KK sites)) ->
  (exists pon' P, solve_pon fuel m iters tol sites pon = Ok pon' /\ pon_is sites pon' P /\ dist (KK sites) P /\
     (forall k, In k (ukeys pon') <-> In k (KK sites))) \/
  (m = ByTolerance /\ solve_pon fuel m iters tol sites pon = Bad Diverged).
Proof.
  intros Hm Hmut Hne Hl NP HK.
  destruct (init_pon_val sites pon (proj1 Hm) Hne NP) as (A & B & C).
  assert (C' : forall k, In k (ukeys (init_pon sites pon)) <-> In k (KK sites)) by (intros k; rewrite C; intuition).
  unfold solve_pon. destruct m.
  - left. destruct (iterate_n_val h sites (Z.to_nat iters) Hm Hmut Hne Hl _ _ A B) as (p & E & X & Y & K).
    exists p. eexists. split; [exact E|]. split; [exact X|]. split; [exact Y|]. intros k; rewrite K; apply C'.
  - left. destruct (iterate_n_val h sites (Z.to_nat (iters * Z.of_nat (length sites))) Hm Hmut Hne Hl _ _ A B) as (p & E & X & Y & K).
    exists p. eexists. split; [exact E|]. split; [exact X|]. split; [exact Y|]. intros k; rewrite K; apply C'.
  - destruct (iterate_tol_total h sites tol fuel Hm Hmut Hne Hl (nmul tol (nlit 11 10)) _ _ A B) as [[p E]|E]; [left | right; auto].
    destruct (iterate_tol_val h sites tol fuel Hm Hmut Hne Hl _ _ _ _ A B E) as (P & X & Y & K).
    exists p, P. split; [exact E|]. split; [exact X|]. split; [exact Y|]. intros k; rewrite K; apply C'.
Qed.

Lemma solve_terminates h sites m iters tol pon : members_ok h sites -> mutual sites -> sites <> [] -> has_link sites -> 0 < tol ->
  NoDup (ukeys pon) -> (forall k, In k (ukeys pon) -> In k (KK sites)) ->
  exists n, forall fuel, (n < fuel)%nat -> exists pon', solve_pon fuel m iters (Fin tol) sites pon = Ok pon'.
Proof.
  intros Hm Hmut Hne Hl Ht NP HK.
  destruct (init_pon_val sites pon (proj1 Hm) Hne NP) as (A & B & C).
  destruct m.
  - exists O. intros fuel _. destruct (solve_val h sites fuel PerCluster iters (Fin tol) pon Hm Hmut Hne Hl NP HK) as [(p & P & E & _)|[X _]]; [eauto | discriminate].
  - exists O. intros fuel _. destruct (solve_val h sites fuel PerSite iters (Fin tol) pon Hm Hmut Hne Hl NP HK) as [(p & P & E & _)|[X _]]; [eauto | discriminate].
  - unfold solve_pon. eapply iterate_tol_terminates; eauto.
    intros k Hk. apply C in Hk. destruct Hk; auto.
Qed.
End Real.
