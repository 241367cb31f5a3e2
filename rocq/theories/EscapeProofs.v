(** * Exits and times of clusters compared with a hop-by-hop walker *)
From Coq Require Import ZArith List Bool Reals Lra Lia Permutation Relations.
From Verif Require Import Base BaseProofs Num OrdLaws RSum SiteModel SiteSpec ClusterModel ClusterSpec ClusterFrame ClusterHist
  ClusterOps MasterEq MasterLimit ClusterReal ClusterTables ClusterUpdate ClusterProofs ClusterPick ClusterSolver EscapeSpec.
Import ListNotations.
Open Scope R_scope.

Section Esc.
Context {I : Impl} {G : @Rng XR}.
Implicit Types (c : @cluster XR G) (sites : umap (@site XR G)).

Lemma joined_linked sites : NoDup (ukeys sites) -> joined sites -> (2 <= length sites)%nat -> linked sites.
Proof.
  intros ND J H2 k Hk.
  assert (X : exists j, In j (ukeys sites) /\ j <> k).
  { destruct sites as [|[a s] [|[b s'] l]]; [simpl in H2; lia | simpl in H2; lia|]. cbn [ukeys map fst] in *.
    inversion ND as [|? ? Na _]; subst. destruct (Z.eq_dec a k) as [->|Hne].
    - exists b. split; [simpl; auto|]. intros ->. apply Na. simpl; auto.
    - exists a. split; [simpl; auto | exact Hne]. }
  destruct X as (j & Hj & Hne). specialize (J k j Hk Hj). apply clos_rt_rt1n in J. destruct J as [|y z He _]; [congruence | eauto].
Qed.

Lemma qs_still h sites Q : quasi_stationary h sites Q <-> dist (ukeys sites) Q /\ still (ukeys sites) (mprob h sites) Q.
Proof. unfold quasi_stationary, dist, still. change (MasterEq.inflow (ukeys sites) (mprob h sites)) with (in_flow h sites).
  change (MasterEq.Ttot (ukeys sites) (mprob h sites) Q) with (Rsum (in_flow h sites Q) (ukeys sites)). tauto. Qed.

Section Net.
Variables (h : @heap XR) (sites : umap (@site XR G)).
Hypothesis (Hm : members_ok h sites) (Hmut : mutual sites) (Hj : joined sites) (H2 : (2 <= length sites)%nat).
Notation K := (ukeys sites). Notation q := (mprob h sites).

Lemma esc_ne : sites <> []. Proof. clear - H2. destruct sites; [simpl in H2; lia | discriminate]. Qed.
Lemma esc_Kne : K <> []. Proof. pose proof esc_ne. clear - H. destruct sites; [congruence | discriminate]. Qed.
Lemma esc_linked : linked sites. Proof. exact (joined_linked sites (proj1 Hm) Hj H2). Qed.
Lemma esc_link : has_link sites. Proof. exact (linked_has sites esc_ne esc_linked). Qed.
Lemma esc_limit : exists Q, dist K Q /\ still K q Q /\ (forall P, dist K P -> still K q P -> forall k, In k K -> P k = Q k) /\
  (forall P k, dist K P -> In k K -> Un_cv (fun n => steps K q n P k) (Q k)) /\
  exists M, 0 < M /\ forall a b P k, dist K P -> between K q a b P -> In k K -> Rabs (P k - Q k) <= M * (b - a).
Proof.
  apply limit.
  - exact esc_Kne.
  - intros; apply qq_nonneg; exact Hm.
  - intros; apply stay_le1; assumption.
  - intros j k Hjk Hk. apply edge_star; auto.
  - apply some_edge; [exact Hm | exact esc_ne | exact esc_link].
  - intros n Hn. destruct (keys_In sites n Hn) as [s Hin]. rewrite (stay_val h sites n s Hm Hin).
    destruct (esc_linked n Hn) as (k & s' & Hin' & Hk & Hkk).
    pose proof (In_ulookup n s sites (proj1 Hm) Hin) as E1. rewrite (In_ulookup n s' sites (proj1 Hm) Hin') in E1. injection E1 as ->.
    apply Rdiv_lt_0_compat; [eapply inner_pos; eauto | apply total_pos; apply (proj2 Hm n s Hin)].
Qed.
End Net.

(** a lower bound along the whole iteration *)
Lemma relaxed_dist h sites n : members_ok h sites -> mutual sites -> sites <> [] -> has_link sites -> dist (ukeys sites) (relaxed h sites n).
Proof.
  intros Hm Hmut Hne Hl. rewrite <- (Nat.add_0_r n), <- steps_relaxed. apply steps_dist.
  - intros; apply qq_nonneg; exact Hm.
  - apply some_edge; assumption.
  - cbn [relaxed]. assert (0 < INR (length sites)) by (apply lt_0_INR; destruct sites; [congruence | simpl; lia]).
    split; [intros; apply Rinv_0_lt_compat; assumption|]. rewrite Rsum_const. unfold ukeys. rewrite map_length. field. lra.
Qed.
Lemma relax_half h sites P k : members_ok h sites -> (forall i, In i (ukeys sites) -> 0 < P i) -> (exists i k, edge (ukeys sites) (mprob h sites) i k) ->
  In k (ukeys sites) -> P k / 2 <= relax h sites P k.
Proof.
  intros Hm HP He Hk. unfold relax.
  assert (0 <= in_flow h sites P k / Rsum (in_flow h sites P) (ukeys sites)); [|lra].
  apply Rmult_le_pos.
  - apply (inflow_nonneg (ukeys sites) (mprob h sites)); [intros; apply qq_nonneg; exact Hm | intros; left; auto | exact Hk].
  - left. apply Rinv_0_lt_compat. apply (Ttot_pos (ukeys sites) (mprob h sites)); [intros; apply qq_nonneg; exact Hm | exact HP | exact He].
Qed.
Lemma relaxed_low h sites m : members_ok h sites -> mutual sites -> sites <> [] -> has_link sites ->
  exists f, 0 < f /\ forall n k, (n <= m)%nat -> In k (ukeys sites) -> f <= relaxed h sites n k.
Proof.
  intros Hm Hmut Hne Hl. induction m as [|m (f & Hf & IH)].
  - exists (/ INR (length sites)). assert (0 < INR (length sites)) by (apply lt_0_INR; destruct sites; [congruence | simpl; lia]).
    split; [apply Rinv_0_lt_compat; assumption|]. intros n k Hn _. replace n with O by lia. simpl. lra.
  - exists (f / 2). split; [lra|]. intros n k Hn Hk. destruct (Nat.eq_dec n (S m)) as [->|].
    + cbn [relaxed]. pose proof (relax_half h sites (relaxed h sites m) k Hm ltac:(apply relaxed_dist; assumption) ltac:(apply some_edge; assumption) Hk).
      specialize (IH m k (le_n m) Hk). lra.
    + specialize (IH n k ltac:(lia) Hk). lra.
Qed.
Lemma change_each h sites n k : In k (ukeys sites) -> Rabs (relaxed h sites n k - relaxed h sites (S n) k) <= change h sites n.
Proof.
  intros Hk. unfold change. set (f := fun k => relaxed h sites n k - relaxed h sites (S n) k). change (Rabs (f k) <= sqrt (Rsum (fun k => f k * f k) (ukeys sites))).
  rewrite <- (sqrt_square (Rabs (f k))) by apply Rabs_pos. apply sqrt_le_1_alt.
  replace (Rabs (f k) * Rabs (f k)) with (f k * f k) by (unfold Rabs; destruct (Rcase_abs (f k)); ring).
  apply (Rsum_ge_elem (fun k => f k * f k)); [|exact Hk]. intros; nra.
Qed.

(** C67: with enough iterations, or a small enough tolerance, the occupation
    probabilities are those of the quasi-stationary distribution *)
Lemma solver_limit h sites : members_ok h sites -> mutual sites -> joined sites -> (2 <= length sites)%nat ->
  exists Q, quasi_stationary h sites Q /\ (forall Q', quasi_stationary h sites Q' -> forall k, In k (ukeys sites) -> Q' k = Q k) /\
    forall eps, 0 < eps -> exists N t, 0 < t /\ forall fuel c c', built c -> c_sites c = sites -> finer N t c -> c_update fuel h c = Ret tt c' ->
      forall k, In k (c_siteIds c) -> exists p, c_probOn k c' = Ret (Fin p) c' /\ Rabs (p - Q k) < eps.
Proof.
  intros Hm Hmut Hj H2. pose proof (esc_ne sites H2) as Hne. pose proof (esc_link h sites Hm Hj H2) as Hl.
  destruct (esc_limit h sites Hm Hj H2) as (Q & DQ & SQ & Uq & Cv & M & HM & Near).
  exists Q. split; [apply qs_still; auto|]. split; [intros Q' HQ'; apply qs_still in HQ'; apply Uq; tauto|].
  intros eps He.
  assert (Er : forall n, steps (ukeys sites) (mprob h sites) n (relaxed h sites 0) = relaxed h sites n) by (intros n; rewrite steps_relaxed; f_equal; lia).
  assert (D0 : dist (ukeys sites) (relaxed h sites 0)) by (apply relaxed_dist; assumption).
  (* iterations *)
  destruct (uniform (fun N k => forall n, (N <= n)%nat -> Rabs (relaxed h sites n k - Q k) < eps) (ukeys sites)) as [N HN].
  { intros m m' x Hmm X n Hn. apply X. lia. }
  { intros k Hk. destruct (Cv _ k D0 Hk eps He) as [N HN]. exists N. intros n Hn. rewrite <- Er. apply HN. lia. }
  (* tolerance *)
  destruct (floor (ukeys sites) (mprob h sites) (esc_Kne sites H2)) as (f1 & m1 & Hf1 & Hfl).
  { intros; apply qq_nonneg; exact Hm. }
  { intros; apply stay_le1; assumption. }
  { intros j k Hjk Hk. apply edge_star; auto. }
  { apply some_edge; assumption. }
  { intros n Hn. destruct (keys_In sites n Hn) as [s Hin]. rewrite (stay_val h sites n s Hm Hin).
    destruct (esc_linked h sites Hm Hj H2 n Hn) as (k & s' & Hin' & Hk & Hkk).
    pose proof (In_ulookup n s sites (proj1 Hm) Hin) as E1. rewrite (In_ulookup n s' sites (proj1 Hm) Hin') in E1. injection E1 as ->.
    apply Rdiv_lt_0_compat; [eapply inner_pos; eauto | apply total_pos; apply (proj2 Hm n s Hin)]. }
  destruct (relaxed_low h sites m1 Hm Hmut Hne Hl) as (f2 & Hf2 & Hlow).
  set (f := Rmin f1 f2). assert (Hf : 0 < f) by (unfold f; apply Rmin_glb_lt; assumption).
  assert (Low : forall n k, In k (ukeys sites) -> f <= relaxed h sites n k).
  { intros n k Hk. destruct (le_lt_dec n m1) as [X|X].
    - eapply Rle_trans; [apply Rmin_r | apply Hlow; assumption].
    - eapply Rle_trans; [apply Rmin_l|]. rewrite <- Er. apply Hfl; [exact D0 | exact Hk | lia]. }
  set (B := 1 + 4 * M / f). assert (HB : 0 < B) by (unfold B; assert (0 < 4 * M / f) by (apply Rdiv_lt_0_compat; lra); lra).
  exists (Z.of_nat N), (eps / (2 * B)). split; [apply Rdiv_lt_0_compat; lra|].
  intros fuel c c' Hb Es Hfin E k Hk. unfold c_siteIds in Hk. rewrite Es in Hk.
  destruct (solver_result fuel h c c' Hb) as (n & Hn & Hmeth); rewrite ?Es; try assumption.
  rewrite Es in Hn, Hmeth. unfold c_siteIds in Hn. rewrite Es in Hn.
  exists (relaxed h sites n k). split; [apply Hn; exact Hk|].
  unfold finer in Hfin. destruct (c_method c).
  - apply HN; [exact Hk|]. rewrite Hmeth. lia.
  - apply HN; [exact Hk|]. rewrite Hmeth. assert (0 <= c_iters c)%Z by lia. nia.
  - destruct Hfin as (x & Et & Hx). destruct (Hmeth x Et ltac:(lra)) as (m & -> & Hch & _).
    set (P := relaxed h sites m). assert (DP : dist (ukeys sites) P) by (apply relaxed_dist; assumption).
    assert (Hstep : forall j, In j (ukeys sites) -> Rabs (P j - relax h sites P j) <= x).
    { intros j Hjj. eapply Rle_trans; [apply change_each; exact Hjj | exact Hch]. }
    set (T := Rsum (in_flow h sites P) (ukeys sites)).
    assert (HT : 0 < T <= 1).
    { split; [apply (Ttot_pos (ukeys sites) (mprob h sites)); [intros; apply qq_nonneg; exact Hm | apply DP | apply some_edge; assumption]|].
      rewrite <- (proj2 DP). apply (Ttot_le (ukeys sites) (mprob h sites)); [intros; apply stay_le1; assumption | intros; left; apply DP; assumption]. }
    assert (Btw : between (ukeys sites) (mprob h sites) (T - 2 * x / f) (T + 2 * x / f) P).
    { intros j Hjj. specialize (Hstep j Hjj). change (MasterEq.inflow (ukeys sites) (mprob h sites) P j) with (in_flow h sites P j).
      assert (Ei : in_flow h sites P j = T * P j - 2 * T * (P j - relax h sites P j)).
      { unfold relax. fold T. field. lra. }
      pose proof (Low m j Hjj) as HL. fold P in HL.
      assert (X : Rabs (2 * T * (P j - relax h sites P j)) <= 2 * x).
      { rewrite Rabs_mult, (Rabs_pos_eq (2 * T)) by lra. pose proof (Rabs_pos (P j - relax h sites P j)). nra. }
      assert (Y : 2 * x <= 2 * x / f * P j).
      { apply Rle_trans with (2 * x / f * f); [right; field; lra|]. apply Rmult_le_compat_l; [|exact HL].
        left. apply Rdiv_lt_0_compat; lra. }
      pose proof (Rle_abs (2 * T * (P j - relax h sites P j))). pose proof (Rle_abs (- (2 * T * (P j - relax h sites P j)))) as W. rewrite Rabs_Ropp in W.
      rewrite Ei. lra. }
    pose proof (Near _ _ P k DP Btw Hk) as Hnear.
    replace (relaxed h sites (S m) k - Q k) with (- (P k - relax h sites P k) + (P k - Q k)) by (cbn [relaxed]; fold P; ring).
    eapply Rle_lt_trans; [apply Rabs_triang|]. rewrite Rabs_Ropp.
    specialize (Hstep k Hk).
    apply Rle_lt_trans with (B * x).
    + replace (M * (T + 2 * x / f - (T - 2 * x / f))) with (4 * M / f * x) in Hnear by (field; lra). unfold B. lra.
    + apply Rle_lt_trans with (B * (eps / (2 * B))); [apply Rmult_le_compat_l; lra|].
      replace (B * (eps / (2 * B))) with (eps / 2) by (field; lra). lra.
Qed.
(** ** Series and small changes *)
Lemma geo x W : 0 <= x < 1 -> infinite_sum (fun n => x ^ n * W) (W / (1 - x)).
Proof.
  intros Hx. assert (Ha : Rabs x < 1) by (rewrite Rabs_pos_eq; lra). pose proof (GP_infinite x Ha) as Gp.
  assert (C : Un_cv (fun N => W * sum_f_R0 (fun n => 1 * x ^ n) N) (W * / (1 - x))) by (apply (CV_mult (fun _ => W)); [apply Un_cv_const | exact Gp]).
  apply (Un_cv_ext (fun N => W * sum_f_R0 (fun n => 1 * x ^ n) N) (sum_f_R0 (fun n => x ^ n * W))); [|exact C].
  intros N. rewrite scal_sum. apply sum_eq. intros i _. ring.
Qed.
Lemma infinite_sum_ext u v l : (forall n, u n = v n) -> infinite_sum u l -> infinite_sum v l.
Proof. intros E. apply (Un_cv_ext (sum_f_R0 u) (sum_f_R0 v)). intros n. apply sum_eq. intros; apply E. Qed.

Lemma lin_close (K : list Z) (g Q : Z -> R) eps : 0 < eps -> exists d, 0 < d /\ forall P,
  (forall k, In k K -> Rabs (P k - Q k) < d) -> Rabs (Rsum (fun k => P k * g k) K - Rsum (fun k => Q k * g k) K) < eps.
Proof.
  intros He. set (S := Rsum (fun k => Rabs (g k)) K). assert (HS : 0 <= S) by (apply Rsum_nonneg; intros; apply Rabs_pos).
  exists (eps / (1 + S)). split; [apply Rdiv_lt_0_compat; lra|]. intros P HP. rewrite <- Rsum_minus.
  apply Rle_lt_trans with (eps / (1 + S) * S).
  - unfold S. rewrite <- Rsum_scal.
    assert (T : forall (f : Z -> R) l, Rabs (Rsum f l) <= Rsum (fun k => Rabs (f k)) l).
    { intros f l. induction l as [|x l IH]; [simpl; rewrite Rabs_R0; lra|]. cbn [Rsum]. eapply Rle_trans; [apply Rabs_triang|]. lra. }
    eapply Rle_trans; [apply T|]. apply Rsum_le. intros k Hk. specialize (HP k Hk).
    replace (P k * g k - Q k * g k) with ((P k - Q k) * g k) by ring. rewrite Rabs_mult. fold S. apply Rmult_le_compat_r; [apply Rabs_pos | lra].
  - apply Rmult_lt_reg_r with (1 + S); [lra|]. replace (eps / (1 + S) * S * (1 + S)) with (eps * S) by (field; lra). nra.
Qed.
Lemma quot_close a b eps : 0 < b -> 0 < eps -> exists d, 0 < d /\ forall a' b', Rabs (a' - a) < d -> Rabs (b' - b) < d -> 0 < b' /\ Rabs (a' / b' - a / b) < eps.
Proof.
  intros Hb He. set (A := Rabs a). assert (HA : 0 <= A) by apply Rabs_pos.
  set (d := Rmin (b / 2) (eps * (b * b) / (4 * (b + A)))).
  assert (Hd2 : 0 < eps * (b * b) / (4 * (b + A))).
  { apply Rdiv_lt_0_compat; [|lra]. apply Rmult_lt_0_compat; [lra|]. nra. }
  exists d. split; [unfold d; apply Rmin_glb_lt; [lra | exact Hd2]|]. intros a' b' Ha' Hb'.
  assert (D1 : d <= b / 2) by apply Rmin_l. assert (D2 : d <= eps * (b * b) / (4 * (b + A))) by apply Rmin_r.
  assert (Bb : b / 2 < b') by (apply Rabs_def2 in Hb'; lra). split; [lra|].
  replace (a' / b' - a / b) with (((a' - a) * b - a * (b' - b)) * / (b * b')) by (field; lra).
  rewrite Rabs_mult, (Rabs_pos_eq (/ (b * b'))) by (left; apply Rinv_0_lt_compat; nra).
  assert (N : Rabs ((a' - a) * b - a * (b' - b)) <= d * (b + A)).
  { eapply Rle_trans; [apply Rabs_triang|]. rewrite Rabs_Ropp, !Rabs_mult, (Rabs_pos_eq b) by lra. fold A.
    pose proof (Rabs_pos (a' - a)). pose proof (Rabs_pos (b' - b)). nra. }
  apply Rle_lt_trans with (d * (b + A) * (2 / (b * b))).
  - apply Rmult_le_compat; [apply Rabs_pos | left; apply Rinv_0_lt_compat; nra | exact N|].
    replace (2 / (b * b)) with (/ (b * (b / 2))) by (field; lra). apply Rinv_le_contravar; nra.
  - apply Rle_lt_trans with (eps * (b * b) / (4 * (b + A)) * (b + A) * (2 / (b * b))).
    + apply Rmult_le_compat_r; [left; apply Rdiv_lt_0_compat; nra|]. apply Rmult_le_compat_r; lra.
    + replace (eps * (b * b) / (4 * (b + A)) * (b + A) * (2 / (b * b))) with (eps / 2) by (field; lra). lra.
Qed.

(** ** The hop-by-hop walker from a quasi-stationary start *)
Lemma in_flow_scal h sites x P k : in_flow h sites (fun i => x * P i) k = x * in_flow h sites P k.
Proof. unfold in_flow. rewrite <- Rsum_scal. apply Rsum_ext. intros; ring. Qed.
Lemma in_flow_ext h sites P P' k : (forall i, In i (ukeys sites) -> P i = P' i) -> in_flow h sites P k = in_flow h sites P' k.
Proof. apply (inflow_ext (ukeys sites) (mprob h sites)). Qed.
Lemma qs_still_in h sites Q : quasi_stationary h sites Q -> forall n k, In k (ukeys sites) -> still_in h sites Q n k = stay_prob h sites Q ^ n * Q k.
Proof.
  intros (_ & _ & HQ). induction n as [|n IH]; intros k Hk; [simpl; ring|]. cbn [still_in].
  rewrite (in_flow_ext h sites _ (fun i => stay_prob h sites Q ^ n * Q i) k IH), in_flow_scal, (HQ k Hk). fold (stay_prob h sites Q). simpl. ring.
Qed.
Lemma stay_SI h sites P : members_ok h sites -> stay_prob h sites P = SI h sites P.
Proof.
  intros Hm. unfold stay_prob. change (Rsum (in_flow h sites P) (ukeys sites)) with (Ttot (ukeys sites) (mprob h sites) P).
  rewrite Ttot_stay. unfold SI. apply Rsum_ext. intros k Hk. rewrite (stay_minner h sites Hm k Hk). ring.
Qed.
Lemma off_in_tau h sites k : members_ok h sites -> In k (ukeys sites) -> moff h sites k * mtau h sites k + minner h sites k * mtau h sites k = 1.
Proof.
  intros Hm Hk. destruct (keys_In sites k Hk) as [s Hin]. rewrite (mtau_in h sites Hm k s Hin), (moff_in h sites Hm k s Hin), (minner_in h sites Hm k s Hin).
  rewrite <- Rmult_plus_distr_r, off_inner. apply Rinv_r. pose proof (total_pos h s (proj2 Hm k s Hin)). lra.
Qed.
Lemma WO_stay h sites P : members_ok h sites -> Rsum P (ukeys sites) = 1 -> WO h sites P = 1 - SI h sites P.
Proof.
  intros Hm H1. unfold WO, SI. rewrite <- H1, <- Rsum_minus. apply Rsum_ext. intros k Hk. pose proof (off_in_tau h sites k Hm Hk). rewrite Rmult_assoc.
  replace (moff h sites k * mtau h sites k) with (1 - minner h sites k * mtau h sites k) by lra. ring.
Qed.
(** all exits together *)
Lemma exit_total h sites P K2 : members_ok h sites -> NoDup K2 -> (forall n, In n K2 <-> outside sites n) ->
  Rsum (wexit h sites P) K2 = WO h sites P.
Proof.
  intros Hm ND HK. unfold wexit, WO. rewrite Rsum_swap. apply Rsum_ext. intros k Hk. rewrite Rsum_scal. rewrite Rmult_assoc. f_equal.
  destruct (keys_In sites k Hk) as [s Hin]. pose proof (proj2 Hm k s Hin) as Hs.
  rewrite (moff_in h sites Hm k s Hin), (mtau_in h sites Hm k s Hin).
  transitivity (Rsum (fun n => if in_dec Z.eq_dec n (s_neighIds s) then site_prob h s n else 0) K2).
  { apply Rsum_ext. intros n Hn. rewrite (qq_in h sites k n s Hm Hin).
    destruct (in_dec _ _ _); [reflexivity | apply site_prob_zero; assumption]. }
  rewrite Rsum_inter; [| exact ND | exact (neigh_NoDup h s Hs)].
  transitivity (Rsum (fun n => (fun n r => if umem n sites then 0 else r / total_rate h (s_neigh s)) n (site_rate h s n)) (s_neighIds s)).
  { apply Rsum_ext. intros n Hn. unfold site_prob. destruct (in_dec Z.eq_dec n K2) as [i|i].
    - apply HK in i. destruct i as [i _]. apply umem_false in i. rewrite i. reflexivity.
    - destruct (umem n sites) eqn:E; [reflexivity|]. destruct i. apply HK. split; [apply umem_false; exact E | eauto]. }
  rewrite (neigh_sum h s (fun n r => if umem n sites then 0 else r / total_rate h (s_neigh s)) Hs). unfold off_rate. rewrite <- Rsum_scal_r. apply Rsum_ext.
  intros [n a] _. simpl. destruct (umem n sites); [ring | reflexivity].
Qed.

Lemma qs_bounds h sites Q : members_ok h sites -> linked sites -> has_exit sites -> quasi_stationary h sites Q -> 0 < stay_prob h sites Q < 1.
Proof.
  intros Hm Hlk Hex HQ. apply qs_still in HQ. destruct HQ as [DQ _]. rewrite stay_SI by exact Hm.
  pose proof (WO_stay h sites Q Hm (proj2 DQ)). pose proof (WO_pos h sites Q Hm DQ Hex). pose proof (SI_pos h sites Q Hm DQ Hlk Hex). lra.
Qed.
Lemma qs_leaves h sites Q m : 0 < stay_prob h sites Q < 1 -> quasi_stationary h sites Q ->
  leaves h sites Q m (wexit h sites Q m / (1 - stay_prob h sites Q)).
Proof.
  intros Hl HQ. apply (infinite_sum_ext (fun n => stay_prob h sites Q ^ n * wexit h sites Q m)); [|apply geo; lra].
  intros n. unfold leave_to, wexit. rewrite <- Rsum_scal. apply Rsum_ext. intros k Hk. rewrite (qs_still_in h sites Q HQ n k Hk). ring.
Qed.
Lemma qs_mean_time h sites Q sel : 0 < stay_prob h sites Q < 1 -> quasi_stationary h sites Q ->
  mean_time h sites Q sel (Rsum (fun k => Q k * (if sel k then mtau h sites k else 0)) (ukeys sites) / (1 - stay_prob h sites Q)).
Proof.
  intros Hl HQ. apply (infinite_sum_ext (fun n => stay_prob h sites Q ^ n * Rsum (fun k => Q k * (if sel k then mtau h sites k else 0)) (ukeys sites))); [|apply geo; lra].
  intros n. rewrite <- Rsum_scal. apply Rsum_ext. intros k Hk. rewrite (qs_still_in h sites Q HQ n k Hk). ring.
Qed.
Lemma TAU_eq h sites P : members_ok h sites -> has_exit sites -> linked sites -> dist (ukeys sites) P ->
  TAU h sites P = Rsum (fun k => P k * (if edge_member h sites k then mtau h sites k else 0)) (ukeys sites) / WO h sites P / SI h sites P.
Proof.
  intros Hm Hex Hlk DP. pose proof (WO_pos h sites P Hm DP Hex). pose proof (SI_pos h sites P Hm DP Hlk Hex).
  unfold TAU, Rdiv. rewrite <- !Rsum_scal_r. apply Rsum_ext. intros k Hk. unfold edge_member, woff.
  destruct (Rltb 0 (moff h sites k)) eqn:E; [|ring]. apply Rltb_true in E. field. repeat split; lra.
Qed.

(** the solver's distribution, close to the quasi-stationary one *)
Lemma solved_limit h sites : members_ok h sites -> mutual sites -> joined sites -> (2 <= length sites)%nat -> has_exit sites ->
  exists Q, quasi_stationary h sites Q /\
    forall eps, 0 < eps -> exists N t, 0 < t /\ forall fuel c c', built c -> c_sites c = sites -> finer N t c -> c_update fuel h c = Ret tt c' ->
      exists P, solved h c c' P /\ dist (ukeys sites) P /\ forall k, In k (ukeys sites) -> Rabs (P k - Q k) < eps.
Proof.
  intros Hm Hmut Hj H2 Hex. destruct (solver_limit h sites Hm Hmut Hj H2) as (Q & HQ & _ & Lim). exists Q. split; [exact HQ|].
  intros eps He. destruct (Lim eps He) as (N & t & Ht & H). exists N, t. split; [exact Ht|]. intros fuel c c' Hb Es Hf E.
  assert (So : sound h c).
  { constructor; rewrite Es; try assumption. exact (joined_linked sites (proj1 Hm) Hj H2). }
  destruct (update_solved fuel h c c' (built_tidy c Hb) So E) as (P & S). exists P. split; [exact S|].
  pose proof (sv_dist _ _ _ _ S) as D. unfold c_siteIds in D. rewrite Es in D. split; [exact D|]. intros k Hk.
  assert (Hk' : In k (c_siteIds c)) by (unfold c_siteIds; rewrite Es; exact Hk).
  destruct (H fuel c c' Hb Es Hf E k Hk') as (p & Ep & Hp).
  rewrite (solved_probOn h c c' P ltac:(rewrite Es; exact Hm) S k Hk') in Ep. injection Ep as <-. exact Hp.
Qed.

(** the outside neighbours, listed once *)
Lemma exit_list sites : exists K2, NoDup K2 /\ forall n, In n K2 <-> outside sites n.
Proof.
  exists (nodup Z.eq_dec (filter (fun n => negb (umem n sites)) (flat_map (fun e => s_neighIds (snd e)) sites))). split; [apply NoDup_nodup|].
  intros n. rewrite nodup_In, filter_In, in_flat_map, negb_true_iff, umem_false. unfold outside. split.
  - intros (([k s] & Hin & Hn) & X). eauto.
  - intros (X & k & s & Hin & Hn). split; [exists (k, s); auto | exact X].
Qed.

(** C68 *)
Lemma exit_limit h sites : members_ok h sites -> mutual sites -> joined sites -> (2 <= length sites)%nat -> has_exit sites ->
  exists Q L, quasi_stationary h sites Q /\ (forall m, leaves h sites Q m (L m)) /\
    (forall l, NoDup l -> (forall n, In n l <-> outside sites n) -> Rsum L l = 1) /\
    forall eps, 0 < eps -> exists N t, 0 < t /\ forall fuel c c', built c -> c_sites c = sites -> finer N t c -> c_update fuel h c = Ret tt c' ->
      forall m, outside sites m -> exists p, c_probToNeighbor c' m = Ok (Fin p) /\ Rabs (p - L m) < eps.
Proof.
  intros Hm Hmut Hj H2 Hex. pose proof (joined_linked sites (proj1 Hm) Hj H2) as Hlk.
  destruct (solved_limit h sites Hm Hmut Hj H2 Hex) as (Q & HQ & Lim).
  pose proof (qs_bounds h sites Q Hm Hlk Hex HQ) as Hl. pose proof (proj1 (qs_still h sites Q) HQ) as [DQ _].
  assert (EW : WO h sites Q = 1 - stay_prob h sites Q) by (rewrite (WO_stay h sites Q Hm (proj2 DQ)), stay_SI by exact Hm; reflexivity).
  exists Q, (fun m => wexit h sites Q m / (1 - stay_prob h sites Q)). split; [exact HQ|]. split; [intros m; apply qs_leaves; assumption|]. split.
  { intros l ND Hin. unfold Rdiv. rewrite Rsum_scal_r, (exit_total h sites Q l Hm ND Hin), EW. field. lra. }
  intros eps He.
  (* a closeness for each neighbour *)
  destruct (exit_list sites) as (K2 & ND2 & O2).
  assert (Each : exists d, 0 < d /\ forall P, (forall k, In k (ukeys sites) -> Rabs (P k - Q k) < d) ->
    forall m, In m K2 -> Rabs (wexit h sites P m / WO h sites P - wexit h sites Q m / WO h sites Q) < eps).
  { clear ND2 O2. induction K2 as [|m l (d & Hd & IH)]; [exists 1; split; [lra | intros P _ m []]|].
    pose proof (WO_pos h sites Q Hm DQ Hex) as W0.
    destruct (quot_close (wexit h sites Q m) (WO h sites Q) eps W0 He) as (d1 & Hd1 & C1).
    destruct (lin_close (ukeys sites) (fun k => mprob h sites k m) Q d1 Hd1) as (d2 & Hd2 & C2).
    destruct (lin_close (ukeys sites) (fun k => moff h sites k * mtau h sites k) Q d1 Hd1) as (d3 & Hd3 & C3).
    exists (Rmin d (Rmin d2 d3)). split; [repeat apply Rmin_glb_lt; assumption|]. intros P HP n [<-|Hn].
    - assert (P2 : forall k, In k (ukeys sites) -> Rabs (P k - Q k) < d2).
      { intros k Hk. eapply Rlt_le_trans; [apply HP; exact Hk|]. eapply Rle_trans; [apply Rmin_r | apply Rmin_l]. }
      assert (P3 : forall k, In k (ukeys sites) -> Rabs (P k - Q k) < d3).
      { intros k Hk. eapply Rlt_le_trans; [apply HP; exact Hk|]. eapply Rle_trans; [apply Rmin_r | apply Rmin_r]. }
      apply C1; [apply C2; exact P2|]. specialize (C3 P P3). unfold WO.
      rewrite (Rsum_ext (fun k => P k * moff h sites k * mtau h sites k) (fun k => P k * (moff h sites k * mtau h sites k))) by (intros; ring).
      rewrite (Rsum_ext (fun k => Q k * moff h sites k * mtau h sites k) (fun k => Q k * (moff h sites k * mtau h sites k))) by (intros; ring). exact C3.
    - apply IH; [|exact Hn]. intros k Hk. eapply Rlt_le_trans; [apply HP; exact Hk | apply Rmin_l]. }
  destruct Each as (d & Hd & Each). destruct (Lim d Hd) as (N & t & Ht & H). exists N, t. split; [exact Ht|].
  intros fuel c c' Hb Es Hf E m Hmo. destruct (H fuel c c' Hb Es Hf E) as (P & S & DP & Close).
  destruct (sv_nbr _ _ _ _ S) as (K3 & ND3 & O3 & En). rewrite Es in O3, En.
  exists (wexit h sites P m / Rsum (wexit h sites P) K3). split.
  { unfold c_probToNeighbor. rewrite En. rewrite (tab_lookup _ K3 m) by (apply O3; exact Hmo). reflexivity. }
  rewrite (exit_total h sites P K3 Hm ND3 O3), <- EW. apply (Each P Close). apply O2. exact Hmo.
Qed.

(** C69 *)
Lemma time_limit h sites : members_ok h sites -> mutual sites -> joined sites -> (2 <= length sites)%nat -> has_exit sites ->
  exists Q T T', quasi_stationary h sites Q /\ 0 < stay_prob h sites Q < 1 /\ mean_stay h sites Q T /\ mean_time h sites Q (edge_member h sites) T' /\
    0 < T' <= T /\ ((forall k, In k (ukeys sites) -> edge_member h sites k = true) -> T' = T) /\
    forall eps, 0 < eps -> exists N t, 0 < t /\ forall fuel c c', built c -> c_sites c = sites -> finer N t c -> c_update fuel h c = Ret tt c' ->
      exists tau, c_getTimeConstant c' = Fin tau /\ Rabs (tau - T' / stay_prob h sites Q) < eps.
Proof.
  intros Hm Hmut Hj H2 Hex. pose proof (joined_linked sites (proj1 Hm) Hj H2) as Hlk.
  destruct (solved_limit h sites Hm Hmut Hj H2 Hex) as (Q & HQ & Lim).
  pose proof (qs_bounds h sites Q Hm Hlk Hex HQ) as Hl. pose proof (proj1 (qs_still h sites Q) HQ) as [DQ _].
  assert (EW : WO h sites Q = 1 - stay_prob h sites Q) by (rewrite (WO_stay h sites Q Hm (proj2 DQ)), stay_SI by exact Hm; reflexivity).
  set (g := fun k => if edge_member h sites k then mtau h sites k else 0).
  exists Q, (Rsum (fun k => Q k * mtau h sites k) (ukeys sites) / (1 - stay_prob h sites Q)), (Rsum (fun k => Q k * g k) (ukeys sites) / (1 - stay_prob h sites Q)).
  split; [exact HQ|]. split; [exact Hl|]. split; [exact (qs_mean_time h sites Q (fun _ => true) Hl HQ)|]. split; [exact (qs_mean_time h sites Q (edge_member h sites) Hl HQ)|].
  assert (Gb : forall k, In k (ukeys sites) -> 0 <= g k <= mtau h sites k).
  { intros k Hk. unfold g. pose proof (mtau_pos h sites Hm k Hk). destruct (edge_member h sites k); lra. }
  split; [split|split].
  - apply Rdiv_lt_0_compat; [|lra]. destruct (has_exit_off h sites Hm Hex) as (k & Hk & Ho).
    apply Rsum_pos_ex with (x := k); [|exact Hk|].
    + intros j Hjj. apply Rmult_le_pos; [left; apply DQ; exact Hjj | apply Gb; exact Hjj].
    + apply Rmult_lt_0_compat; [apply DQ; exact Hk|]. unfold g, edge_member. rewrite (proj2 (Rltb_true _ _) Ho). apply mtau_pos; assumption.
  - apply Rmult_le_compat_r; [left; apply Rinv_0_lt_compat; lra|]. apply Rsum_le. intros k Hk. apply Rmult_le_compat_l; [left; apply DQ; exact Hk | apply Gb; exact Hk].
  - intros All. f_equal. apply Rsum_ext. intros k Hk. unfold g. rewrite (All k Hk). reflexivity.
  - intros eps He. pose proof (WO_pos h sites Q Hm DQ Hex) as W0. pose proof (SI_pos h sites Q Hm DQ Hlk Hex) as S0.
    destruct (quot_close (Rsum (fun k => Q k * g k) (ukeys sites) / WO h sites Q) (SI h sites Q) eps S0 He) as (d0 & Hd0 & C0).
    destruct (quot_close (Rsum (fun k => Q k * g k) (ukeys sites)) (WO h sites Q) d0 W0 Hd0) as (d1 & Hd1 & C1).
    destruct (lin_close (ukeys sites) g Q d1 Hd1) as (d2 & Hd2 & C2).
    destruct (lin_close (ukeys sites) (fun k => moff h sites k * mtau h sites k) Q d1 Hd1) as (d3 & Hd3 & C3).
    destruct (lin_close (ukeys sites) (fun k => minner h sites k * mtau h sites k) Q d0 Hd0) as (d4 & Hd4 & C4).
    destruct (Lim (Rmin d2 (Rmin d3 d4))) as (N & t & Ht & H); [repeat apply Rmin_glb_lt; assumption|]. exists N, t. split; [exact Ht|].
    intros fuel c c' Hb Es Hf E. destruct (H fuel c c' Hb Es Hf E) as (P & S & DP & Close).
    exists (TAU h sites P). split; [unfold c_getTimeConstant; rewrite <- Es; exact (sv_tau _ _ _ _ S)|].
    rewrite (TAU_eq h sites P Hm Hex Hlk DP), <- EW, (stay_SI h sites Q Hm). fold g.
    change (Rsum (fun k => P k * (if edge_member h sites k then mtau h sites k else 0)) (ukeys sites)) with (Rsum (fun k => P k * g k) (ukeys sites)).
    assert (P2 : forall k, In k (ukeys sites) -> Rabs (P k - Q k) < d2).
    { intros k Hk. eapply Rlt_le_trans; [apply Close; exact Hk | apply Rmin_l]. }
    assert (P3 : forall k, In k (ukeys sites) -> Rabs (P k - Q k) < d3).
    { intros k Hk. eapply Rlt_le_trans; [apply Close; exact Hk|]. eapply Rle_trans; [apply Rmin_r | apply Rmin_l]. }
    assert (P4 : forall k, In k (ukeys sites) -> Rabs (P k - Q k) < d4).
    { intros k Hk. eapply Rlt_le_trans; [apply Close; exact Hk|]. eapply Rle_trans; [apply Rmin_r | apply Rmin_r]. }
    apply C0; [|apply C4; exact P4]. apply C1; [apply C2; exact P2|]. specialize (C3 P P3). unfold WO.
    rewrite (Rsum_ext (fun k => P k * moff h sites k * mtau h sites k) (fun k => P k * (moff h sites k * mtau h sites k))) by (intros; ring).
    rewrite (Rsum_ext (fun k => Q k * moff h sites k * mtau h sites k) (fun k => Q k * (moff h sites k * mtau h sites k))) by (intros; ring). exact C3.
Qed.
End Esc.
