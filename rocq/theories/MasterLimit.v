(** * The limit of the damped power iteration of Cluster::iterate_

    For a connected set of members: the distributions that the iteration
    leaves alone are unique, every start converges to them, and the distance
    to the limit is bounded by the spread of inflow over occupation. *)
From Coq Require Import ZArith List Bool Reals Lra Lia Relations.
From Verif Require Import RSum MasterEq.
Import ListNotations.
Open Scope R_scope.

(** limits of finite sums *)
Lemma Un_cv_const a : Un_cv (fun _ => a) a.
Proof. intros e He. exists O. intros n _. unfold R_dist. rewrite Rminus_diag_eq, Rabs_R0 by reflexivity. exact He. Qed.
Lemma Un_cv_ext (u v : nat -> R) l : (forall n, u n = v n) -> Un_cv u l -> Un_cv v l.
Proof. intros E H e He. destruct (H e He) as [N HN]. exists N. intros n Hn. rewrite <- E. apply HN; exact Hn. Qed.
Lemma Un_cv_Rsum {A} (f : nat -> A -> R) (g : A -> R) (l : list A) :
  (forall x, In x l -> Un_cv (fun n => f n x) (g x)) -> Un_cv (fun n => Rsum (f n) l) (Rsum g l).
Proof.
  induction l as [|x l IH]; intros H; [exact (Un_cv_const 0)|].
  apply (CV_plus (fun n => f n x) (fun n => Rsum (f n) l)); [apply H; simpl; auto | apply IH; intros; apply H; simpl; auto].
Qed.
Lemma Un_cv_shift (u : nat -> R) l : Un_cv u l -> Un_cv (fun n => u (S n)) l.
Proof. intros H e He. destruct (H e He) as [N HN]. exists N. intros n Hn. apply HN. lia. Qed.
Lemma Un_cv_le (u : nat -> R) l a N : Un_cv u l -> (forall n, (N <= n)%nat -> a <= u n) -> a <= l.
Proof.
  intros H B. destruct (Rle_lt_dec a l) as [X|X]; [exact X|].
  destruct (H (a - l)) as [M HM]; [lra|]. specialize (HM (Nat.max N M) (Nat.le_max_r _ _)).
  specialize (B (Nat.max N M) (Nat.le_max_l _ _)). unfold R_dist in HM. apply Rabs_def2 in HM. lra.
Qed.
Lemma Un_cv_ge (u : nat -> R) l a N : Un_cv u l -> (forall n, (N <= n)%nat -> u n <= a) -> l <= a.
Proof.
  intros H B. destruct (Rle_lt_dec l a) as [X|X]; [exact X|].
  destruct (H (l - a)) as [M HM]; [lra|]. specialize (HM (Nat.max N M) (Nat.le_max_r _ _)).
  specialize (B (Nat.max N M) (Nat.le_max_l _ _)). unfold R_dist in HM. apply Rabs_def2 in HM. lra.
Qed.

(** the smallest value on a list *)
Lemma argmin {A} (f : A -> R) (l : list A) : l <> [] -> exists x, In x l /\ forall y, In y l -> f x <= f y.
Proof.
  induction l as [|x l IH]; [congruence|]. intros _. destruct l as [|x' l'].
  - exists x. split; [simpl; auto|]. intros y [<-|[]]. lra.
  - destruct IH as (z & Hz & Hm); [discriminate|]. destruct (Rle_lt_dec (f x) (f z)) as [X|X].
    + exists x. split; [simpl; auto|]. intros y [<-|Hy]; [lra|]. specialize (Hm y Hy). lra.
    + exists z. split; [right; exact Hz|]. intros y [<-|Hy]; [lra | apply Hm; exact Hy].
Qed.

Section Limit.
Variable K : list Z.
Variable q : Z -> Z -> R.
Hypothesis Kne : K <> [].
Hypothesis q_nonneg : forall i k, In i K -> In k K -> 0 <= q i k.
Hypothesis stay_le : forall n, In n K -> stay K q n <= 1.
Hypothesis conn : forall j k, In j K -> In k K -> clos_refl_trans_n1 Z (edge K q) j k.
Hypothesis some : exists i k, edge K q i k.
Hypothesis stay_pos : forall n, In n K -> 0 < stay K q n.

Notation inflow := (inflow K q). Notation Ttot := (Ttot K q). Notation step := (step K q).
Notation steps := (steps K q). Notation dist := (dist K). Notation between := (between K q).

(** inflow proportional to the occupation *)
Definition still (P : Z -> R) : Prop := forall k, In k K -> inflow P k = Ttot P * P k.

Lemma dist_le P k : dist P -> In k K -> P k <= 1.
Proof. intros [Hp Hs] Hk. rewrite <- Hs. apply (Rsum_ge_elem P); [intros; left; auto | exact Hk]. Qed.

(** ** Uniqueness *)
Lemma still_le P Q k0 : dist P -> dist Q -> still P -> still Q -> In k0 K ->
  (forall k, In k K -> Q k0 / P k0 <= Q k / P k) -> Ttot P <= Ttot Q.
Proof.
  intros [HP _] [HQ _] SP SQ Hk Hmin. set (a := Q k0 / P k0) in *.
  assert (Ea : Q k0 = a * P k0) by (unfold a; field; specialize (HP k0 Hk); lra).
  assert (Hge : forall k, In k K -> a * P k <= Q k).
  { intros k Hkk. specialize (Hmin k Hkk). specialize (HP k Hkk).
    apply Rmult_le_compat_r with (r := P k) in Hmin; [|lra]. unfold Rdiv in Hmin at 1. rewrite Rmult_assoc, Rinv_l in Hmin by lra. lra. }
  assert (Hin : a * inflow P k0 <= inflow Q k0).
  { unfold MasterEq.inflow. rewrite <- Rsum_scal. apply Rsum_le. intros n Hn.
    replace (a * (q n k0 * P n)) with (q n k0 * (a * P n)) by ring. apply Rmult_le_compat_l; auto. }
  rewrite (SP k0 Hk), (SQ k0 Hk), Ea in Hin.
  assert (Ha : 0 < a) by (unfold a; apply Rdiv_lt_0_compat; auto).
  apply Rmult_le_reg_r with (a * P k0); [apply Rmult_lt_0_compat; auto|]. lra.
Qed.

Lemma still_unique P Q : dist P -> dist Q -> still P -> still Q -> forall k, In k K -> P k = Q k.
Proof.
  intros DP DQ SP SQ.
  destruct (argmin (fun k => Q k / P k) K Kne) as (k0 & Hk0 & Hmin).
  destruct (argmin (fun k => P k / Q k) K Kne) as (k1 & Hk1 & Hmin1).
  assert (E : Ttot P = Ttot Q).
  { apply Rle_antisym; [apply (still_le P Q k0) | apply (still_le Q P k1)]; auto. }
  pose proof DP as [HP SumP]. pose proof DQ as [HQ SumQ].
  set (a := Q k0 / P k0) in *.
  assert (Ea : Q k0 = a * P k0) by (unfold a; field; specialize (HP k0 Hk0); lra).
  assert (Hge : forall k, In k K -> a * P k <= Q k).
  { intros k Hkk. specialize (Hmin k Hkk). specialize (HP k Hkk).
    apply Rmult_le_compat_r with (r := P k) in Hmin; [|lra]. unfold Rdiv in Hmin at 1. rewrite Rmult_assoc, Rinv_l in Hmin by lra. lra. }
  (* equality spreads against the hops *)
  assert (Pred : forall i k, edge K q i k -> Q k = a * P k -> Q i = a * P i).
  { intros i k (Hi & Hk & Hq) Ek.
    assert (Z0 : Rsum (fun n => q n k * (Q n - a * P n)) K = 0).
    { rewrite (Rsum_ext _ (fun n => q n k * Q n - a * (q n k * P n))) by (intros; ring).
      rewrite Rsum_minus, Rsum_scal.
      change (inflow Q k - a * inflow P k = 0). rewrite (SP k Hk), (SQ k Hk), E, Ek. ring. }
    destruct (Rle_lt_dec (Q i - a * P i) 0) as [X|X]; [specialize (Hge i Hi); lra|].
    assert (0 < Rsum (fun n => q n k * (Q n - a * P n)) K); [|lra].
    apply Rsum_pos_ex with (x := i); [|exact Hi | apply Rmult_lt_0_compat; auto].
    intros n Hn. apply Rmult_le_pos; [auto | specialize (Hge n Hn); lra]. }
  assert (All : forall k, In k K -> Q k = a * P k).
  { intros j Hj. pose proof (conn j k0 Hj Hk0) as C. clear Hmin Hmin1. clearbody a. revert Ea. induction C as [|i k He _ IH]; intros Ek; [exact Ek|].
    destruct He as (Hi & Hk & Hq). apply IH; [exact Hi|]. apply (Pred i k); [repeat split; auto | exact Ek]. }
  assert (a = 1).
  { rewrite (Rsum_ext Q (fun k => a * P k) K) in SumQ by exact All. rewrite Rsum_scal, SumP in SumQ. lra. }
  intros k Hk. rewrite (All k Hk). subst. nra.
Qed.
(** ** The spread of inflow over occupation *)
Lemma constants : exists c m, 0 < c <= 1 /\ (forall i k, edge K q i k -> c <= q i k) /\
  (forall P, dist P -> c <= Ttot P <= 1) /\ forall j k, In j K -> In k K -> reach K q m j k.
Proof.
  destruct (q_min K q) as (c1 & Hc1 & Hq1). destruct (min_pos (stay K q) K) as (c2 & Hc2 & Hq2).
  destruct (diameter K q conn) as [m Hm]. exists (Rmin c1 c2), m. split; [|split; [|split; [|exact Hm]]].
  - split; [apply Rmin_glb_lt; lra|]. eapply Rle_trans; [apply Rmin_l | lra].
  - intros i k E. eapply Rle_trans; [apply Rmin_l | auto].
  - intros P [Hp Hs]. split; [|rewrite <- Hs; apply Ttot_le; auto; intros; left; auto].
    rewrite Ttot_stay. rewrite <- (Rmult_1_r (Rmin c1 c2)), <- Hs, <- Rsum_scal.
    apply Rsum_le. intros n Hn. apply Rmult_le_compat_r; [left; auto|].
    eapply Rle_trans; [apply Rmin_r | auto].
Qed.

Lemma spread_nonneg a b P : dist P -> between a b P -> 0 <= b - a.
Proof.
  intros [Hp _] Hb. destruct K as [|k l]; [congruence|]. specialize (Hp k (or_introl eq_refl)). destruct (Hb k (or_introl eq_refl)). nra.
Qed.
Lemma between_T a b P : dist P -> between a b P -> a <= Ttot P <= b.
Proof.
  intros [_ Hs] Hb. unfold MasterEq.Ttot. split.
  - rewrite <- (Rmult_1_r a), <- Hs, <- Rsum_scal. apply Rsum_le. intros; apply Hb; auto.
  - rewrite <- (Rmult_1_r b), <- Hs, <- Rsum_scal. apply Rsum_le. intros; apply Hb; auto.
Qed.
Lemma between_any P : dist P -> exists a b, between a b P.
Proof.
  intros [Hp Hs]. destruct (min_pos P K) as (p0 & Hp0 & Hpm). exists 0, (/ p0). intros k Hk.
  rewrite Rmult_0_l. split; [apply inflow_nonneg; auto; intros; left; auto|].
  assert (inflow P k <= 1).
  { rewrite <- Hs. eapply Rle_trans; [|apply (Ttot_le K q); auto; intros; left; auto].
    apply (Rsum_ge_elem (inflow P)); auto. intros; apply inflow_nonneg; auto. intros; left; auto. }
  assert (p0 <= P k) by (apply Hpm; auto).
  apply Rle_trans with 1; [lra|]. apply Rmult_le_reg_l with p0; [lra|].
  rewrite <- Rmult_assoc, Rinv_r, Rmult_1_l, Rmult_1_r by lra. lra.
Qed.
Lemma between_step a b P : dist P -> between a b P -> between a b (step P).
Proof.
  intros DP Hb k Hk. pose proof (Ttot_pos K q q_nonneg P (proj1 DP) some) as HT. set (T := Ttot P) in *.
  assert (E : inflow (step P) k = / (2 * T) * inflow (inflow P) k + / 2 * inflow P k).
  { rewrite (inflow_ext K q _ (fun i => / (2 * T) * inflow P i + / 2 * P i)).
    - apply inflow_lin.
    - intros i _. unfold MasterEq.step. fold T. field. lra. }
  assert (B2 : a * inflow P k <= inflow (inflow P) k <= b * inflow P k).
  { change (inflow (inflow P) k) with (Rsum (fun n => q n k * inflow P n) K). unfold MasterEq.inflow at 1 4.
    rewrite <- !Rsum_scal. split; apply Rsum_le; intros n Hn; destruct (Hb n Hn);
      [replace (a * (q n k * P n)) with (q n k * (a * P n)) by ring | replace (b * (q n k * P n)) with (q n k * (b * P n)) by ring];
      apply Rmult_le_compat_l; auto. }
  destruct (Hb k Hk) as [B3 B4]. rewrite E. unfold MasterEq.step. fold T.
  assert (0 < / (2 * T)) by (apply Rinv_0_lt_compat; lra).
  replace ((inflow P k / T + P k) / 2) with (/ (2 * T) * inflow P k + / 2 * P k) by (field; lra).
  destruct B2. split; nra.
Qed.
Lemma steps_S n P : steps (S n) P = steps n (step P). Proof. reflexivity. Qed.
Lemma between_steps n : forall a b P, dist P -> between a b P -> between a b (steps n P).
Proof.
  induction n as [|n IH]; intros a b P DP Hb; [exact Hb|]. rewrite steps_S. apply IH; [apply step_dist; auto | apply between_step; auto].
Qed.

Lemma block : exists rho w c, 0 <= rho < 1 /\ (0 < w)%nat /\ 0 < c <= 1 /\ (forall P, dist P -> c <= Ttot P <= 1) /\
  forall P a b, dist P -> between a b P -> exists a' b', b' - a' <= rho * (b - a) /\ between a' b' (steps w P).
Proof.
  destruct constants as (c & m0 & Hc & Hq & HT & Hm0).
  set (m := S m0). assert (Hm : forall j k, In j K -> In k K -> reach K q m j k).
  { intros j k Hj Hk. eapply reach_more; [|apply Hm0; assumption]. unfold m; lia. }
  set (eps := c ^ m / INR (length K) / 2 ^ m).
  assert (Hn : 1 <= INR (length K)).
  { change 1 with (INR 1). apply le_INR. destruct K; [congruence | simpl; lia]. }
  assert (Heps : 0 < eps <= 1).
  { assert (0 < c ^ m) by (apply pow_lt; lra).
    assert (c ^ m <= 1) by (rewrite <- (pow1 m); apply pow_incr; lra).
    assert (1 <= 2 ^ m) by (apply pow_R1_Rle; lra).
    unfold eps. split.
    - repeat apply Rdiv_lt_0_compat; lra.
    - apply Rmult_le_reg_r with (2 ^ m); [lra|]. unfold Rdiv at 1. rewrite Rmult_assoc, Rinv_l by lra.
      apply Rmult_le_reg_r with (INR (length K)); [lra|]. unfold Rdiv.
      rewrite Rmult_1_r, Rmult_assoc, Rinv_l by lra. nra. }
  exists (1 - eps), m, c. split; [lra|]. split; [unfold m; lia|]. split; [exact Hc|]. split; [exact HT|].
  intros P a b HP Hb.
  destruct (steps_Ls K q q_nonneg stay_le c m ltac:(lra) ltac:(intros; apply HT; auto) some P HP) as (ss & g & Hl & Hg & Hs & E).
  destruct (block_shrinks K q Kne q_nonneg stay_le conn c m a b P (inflow P) ss Hc Hq Hl Hs Hm (proj1 HP) Hb) as (a' & b' & Hw' & Hb').
  fold eps in Hw'. exists a', b'. split; [exact Hw'|]. intros k Hk.
  rewrite (inflow_ext K q _ (fun i => g * Ls K q ss P i + 0 * P i) k) by (intros i Hi; rewrite E by exact Hi; ring).
  rewrite inflow_lin, (E k Hk), <- (Ls_inflow K q) by exact Hk. destruct (Hb' k Hk) as [B1 B2].
  assert (g * (a' * Ls K q ss P k) <= g * Ls K q ss (inflow P) k) by (apply Rmult_le_compat_l; lra).
  assert (g * Ls K q ss (inflow P) k <= g * (b' * Ls K q ss P k)) by (apply Rmult_le_compat_l; lra). lra.
Qed.

(** ** Distances along the iteration *)
Lemma step_near c a b P k : 0 < c -> c <= Ttot P -> dist P -> between a b P -> In k K -> Rabs (step P k - P k) <= (b - a) / (2 * c).
Proof.
  intros Hc HT DP Hb Hk. destruct (between_T a b P DP Hb) as [T1 T2]. destruct (Hb k Hk) as [B1 B2].
  pose proof (proj1 DP k Hk) as Pk. pose proof (dist_le P k DP Hk) as Pk1. pose proof (spread_nonneg a b P DP Hb) as Hs.
  unfold MasterEq.step. set (T := Ttot P) in *.
  replace ((inflow P k / T + P k) / 2 - P k) with ((inflow P k - T * P k) * / (2 * T)) by (field; lra).
  rewrite Rabs_mult, (Rabs_pos_eq (/ (2 * T))) by (left; apply Rinv_0_lt_compat; lra).
  assert (X : Rabs (inflow P k - T * P k) <= b - a).
  { apply Rle_trans with ((b - a) * P k); [apply Rabs_le; nra | nra]. }
  unfold Rdiv. apply Rmult_le_compat; [apply Rabs_pos | left; apply Rinv_0_lt_compat; lra | exact X|].
  apply Rinv_le_contravar; lra.
Qed.
Lemma steps_near c : 0 < c -> (forall P, dist P -> c <= Ttot P) -> forall n a b P k, dist P -> between a b P -> In k K ->
  Rabs (steps n P k - P k) <= INR n * ((b - a) / (2 * c)).
Proof.
  intros Hc HT. induction n as [|n IH]; intros a b P k DP Hb Hk.
  - simpl. rewrite Rminus_diag_eq, Rabs_R0 by reflexivity. lra.
  - rewrite steps_S, S_INR.
    specialize (IH a b (step P) k (step_dist K q q_nonneg P some DP) (between_step a b P DP Hb) Hk).
    pose proof (step_near c a b P k Hc (HT P DP) DP Hb Hk).
    replace (steps n (step P) k - P k) with ((steps n (step P) k - step P k) + (step P k - P k)) by ring.
    eapply Rle_trans; [apply Rabs_triang|]. lra.
Qed.

Lemma near : exists M, 0 < M /\ forall n a b P k, dist P -> between a b P -> In k K -> Rabs (steps n P k - P k) <= M * (b - a).
Proof.
  destruct block as (rho & w & c & Hr & Hw & Hc & HT & Hblk).
  assert (HT' : forall P, dist P -> c <= Ttot P) by (intros; apply HT; auto).
  assert (Hw1 : 0 < INR w) by (apply lt_0_INR; exact Hw).
  set (B := INR w / (2 * c)). assert (HB : 0 < B) by (unfold B; apply Rdiv_lt_0_compat; lra).
  assert (Hi : forall i a b P k, dist P -> between a b P -> In k K -> Rabs (steps (i * w) P k - P k) <= B / (1 - rho) * (b - a)).
  { induction i as [|i IH]; intros a b P k DP Hb Hk.
    - simpl. rewrite Rminus_diag_eq, Rabs_R0 by reflexivity. pose proof (spread_nonneg a b P DP Hb).
      apply Rmult_le_pos; [|lra]. left. apply Rdiv_lt_0_compat; lra.
    - destruct (Hblk P a b DP Hb) as (a' & b' & Hs & Hb').
      change (S i * w)%nat with (w + i * w)%nat. rewrite steps_add.
      assert (D' : dist (steps w P)) by (apply steps_dist; auto).
      specialize (IH a' b' (steps w P) k D' Hb' Hk).
      pose proof (steps_near c ltac:(lra) HT' w a b P k DP Hb Hk) as H1.
      replace (steps (i * w) (steps w P) k - P k) with ((steps (i * w) (steps w P) k - steps w P k) + (steps w P k - P k)) by ring.
      eapply Rle_trans; [apply Rabs_triang|].
      assert (X : B / (1 - rho) * (b' - a') <= B / (1 - rho) * (rho * (b - a))).
      { apply Rmult_le_compat_l; [left; apply Rdiv_lt_0_compat; lra | exact Hs]. }
      replace (INR w * ((b - a) / (2 * c))) with (B * (b - a)) in H1 by (unfold B; field; lra).
      replace (B / (1 - rho) * (b - a)) with (B / (1 - rho) * (rho * (b - a)) + B * (b - a)) by (field; lra). lra. }
  exists (B + B / (1 - rho)). split; [assert (0 < B / (1 - rho)) by (apply Rdiv_lt_0_compat; lra); lra|].
  intros n a b P k DP Hb Hk. rewrite (Nat.div_mod_eq n w), (Nat.mul_comm w), steps_add.
  set (P1 := steps (n / w * w) P).
  assert (D1 : dist P1) by (apply steps_dist; auto).
  pose proof (Hi (n / w)%nat a b P k DP Hb Hk) as H1. fold P1 in H1.
  pose proof (steps_near c ltac:(lra) HT' (n mod w) a b P1 k D1 (between_steps _ a b P DP Hb) Hk) as H2.
  replace (steps (n mod w) P1 k - P k) with ((steps (n mod w) P1 k - P1 k) + (P1 k - P k)) by ring.
  eapply Rle_trans; [apply Rabs_triang|].
  assert (X : INR (n mod w) * ((b - a) / (2 * c)) <= B * (b - a)).
  { replace (B * (b - a)) with (INR w * ((b - a) / (2 * c))) by (unfold B; field; lra).
    apply Rmult_le_compat_r.
    - pose proof (spread_nonneg a b P DP Hb). unfold Rdiv. apply Rmult_le_pos; [lra|]. left. apply Rinv_0_lt_compat. lra.
    - apply le_INR. pose proof (Nat.mod_upper_bound n w). lia. }
  lra.
Qed.

(** the spread becomes as small as wanted *)
Lemma spread_small P d : dist P -> 0 < d -> exists N, forall n, (N <= n)%nat -> exists a b, b - a <= d /\ between a b (steps n P).
Proof.
  intros DP Hd. destruct block as (rho & w & c & Hr & Hw & Hc & HT & Hblk).
  destruct (between_any P DP) as (a0 & b0 & H0). pose proof (spread_nonneg a0 b0 P DP H0) as Hs0.
  assert (Hj : forall j, exists a b, b - a <= rho ^ j * (b0 - a0) /\ between a b (steps (j * w) P)).
  { induction j as [|j (a & b & Hs & Hb)]; [exists a0, b0; split; [simpl; lra | exact H0]|].
    destruct (Hblk (steps (j * w) P) a b ltac:(apply steps_dist; auto) Hb) as (a' & b' & Hs' & Hb').
    exists a', b'. split.
    - simpl. eapply Rle_trans; [exact Hs'|]. rewrite Rmult_assoc. apply Rmult_le_compat_l; lra.
    - replace (S j * w)%nat with (j * w + w)%nat by lia. intros k Hk.
      rewrite (inflow_ext K q _ (steps w (steps (j * w) P))) by (intros; apply steps_add). rewrite steps_add. apply Hb'; exact Hk. }
  assert (Hlim : exists j, rho ^ j * (b0 - a0) <= d).
  { destruct (Req_dec (b0 - a0) 0) as [->|Hne]; [exists O; lra|].
    assert (Hpow : Rabs rho < 1) by (rewrite Rabs_pos_eq; lra).
    destruct (pow_lt_1_zero rho Hpow (d / (b0 - a0))) as [j Hjj]; [apply Rdiv_lt_0_compat; lra|].
    exists j. specialize (Hjj j (le_n j)). rewrite Rabs_pos_eq in Hjj by (apply pow_le; lra).
    apply Rmult_lt_compat_r with (r := b0 - a0) in Hjj; [|lra]. unfold Rdiv in Hjj. rewrite Rmult_assoc, Rinv_l in Hjj by exact Hne. lra. }
  destruct Hlim as [j Hjd]. destruct (Hj j) as (a & b & Hs & Hb). exists (j * w)%nat. intros n Hn.
  exists a, b. split; [lra|]. replace n with (j * w + (n - j * w))%nat by lia. intros k Hk.
  rewrite (inflow_ext K q _ (steps (n - j * w) (steps (j * w) P))) by (intros; apply steps_add). rewrite steps_add.
  apply between_steps; [apply steps_dist; auto | exact Hb | exact Hk].
Qed.

(** ** The limit *)
Lemma cauchy P k : dist P -> In k K -> Cauchy_crit (fun n => steps n P k).
Proof.
  intros DP Hk e He. destruct near as (M & HM & Hnear).
  destruct (spread_small P (e / (4 * M)) DP) as [N HN]; [apply Rdiv_lt_0_compat; lra|].
  destruct (HN N (le_n N)) as (a & b & Hs & Hb).
  assert (X : forall n, (n >= N)%nat -> Rabs (steps n P k - steps N P k) <= e / 4).
  { intros n Hn. replace n with (N + (n - N))%nat by lia. rewrite steps_add.
    eapply Rle_trans; [apply (Hnear (n - N)%nat a b (steps N P) k); [apply steps_dist; auto | exact Hb | exact Hk]|].
    apply Rle_trans with (M * (e / (4 * M))); [apply Rmult_le_compat_l; lra|]. right. field. lra. }
  exists N. intros n m Hn Hm. pose proof (X n Hn) as X1. pose proof (X m Hm) as X2.
  unfold R_dist. replace (steps n P k - steps m P k) with ((steps n P k - steps N P k) - (steps m P k - steps N P k)) by ring.
  eapply Rle_lt_trans; [apply Rabs_triang|]. rewrite Rabs_Ropp. lra.
Qed.

(** occupations stay away from 0 *)
Lemma floor : exists f m, 0 < f /\ forall P n k, dist P -> In k K -> (m <= n)%nat -> f <= steps n P k.
Proof.
  destruct constants as (c & m & Hc & Hq & HT & Hm).
  assert (Hn : 1 <= INR (length K)).
  { change 1 with (INR 1). apply le_INR. destruct K; [congruence | simpl; lia]. }
  assert (Hcm : 0 < c ^ m) by (apply pow_lt; lra). assert (H2m : 0 < 2 ^ m) by (apply pow_lt; lra).
  exists (/ 2 ^ m * (c ^ m / INR (length K))), m.
  split; [apply Rmult_lt_0_compat; [apply Rinv_0_lt_compat; lra | apply Rdiv_lt_0_compat; lra]|].
  assert (Base : forall P k, dist P -> In k K -> / 2 ^ m * (c ^ m / INR (length K)) <= steps m P k).
  { intros P k DP Hk.
    destruct (steps_Ls K q q_nonneg stay_le c m ltac:(lra) ltac:(intros; apply HT; auto) some P DP) as (ss & g & Hl & Hg & Hs & E).
    assert (Hs0 : forall s, In s ss -> c <= s) by (intros s X; apply Hs in X; lra).
    assert (Hs1 : forall s, In s ss -> 0 <= s <= 1) by (intros s X; apply Hs in X; lra).
    assert (HP0 : forall i, In i K -> 0 <= P i) by (intros; left; apply DP; auto).
    assert (D' : dist (steps m P)) by (apply steps_dist; auto).
    assert (G1 : / 2 ^ m <= g).
    { destruct D' as [_ S1]. rewrite (Rsum_ext _ (fun k => g * Ls K q ss P k) K) in S1 by exact E. rewrite Rsum_scal in S1.
      pose proof (Ls_sum K q q_nonneg stay_le ss P Hs1 HP0) as U. rewrite Hl, (proj2 DP), Rmult_1_r in U.
      apply Rmult_le_reg_r with (2 ^ m); [lra|]. rewrite Rinv_l by lra.
      assert (g * Rsum (Ls K q ss P) K <= g * 2 ^ m) by (apply Rmult_le_compat_l; lra). lra. }
    pose proof (Ls_lower_sum K q q_nonneg c ss P k ltac:(lra) Hq Hs0 HP0 ltac:(intros; rewrite Hl; auto)) as Lw.
    rewrite Hl, (proj2 DP), Rmult_1_r in Lw. rewrite (E k Hk).
    apply Rmult_le_compat; [left; apply Rinv_0_lt_compat; lra | left; apply Rdiv_lt_0_compat; lra | exact G1|].
    apply Rmult_le_reg_l with (INR (length K)); [lra|]. replace (INR (length K) * (c ^ m / INR (length K))) with (c ^ m) by (field; lra). exact Lw. }
  intros P n k DP Hk Hmn. replace n with ((n - m) + m)%nat by lia. rewrite steps_add. apply Base; [apply steps_dist; auto | exact Hk].
Qed.

Lemma limit_exists P : dist P -> exists Q, dist Q /\ still Q /\ forall k, In k K -> Un_cv (fun n => steps n P k) (Q k).
Proof.
  intros DP.
  set (Q := fun k => match in_dec Z.eq_dec k K with left H => proj1_sig (R_complete _ (cauchy P k DP H)) | right _ => 0 end).
  assert (HQ : forall k, In k K -> Un_cv (fun n => steps n P k) (Q k)).
  { intros k Hk. unfold Q. destruct (in_dec Z.eq_dec k K) as [H|H]; [|contradiction]. apply (proj2_sig (R_complete _ (cauchy P k DP H))). }
  exists Q. split; [|split; [|exact HQ]].
  - destruct floor as (f & m & Hf & Hfl). split.
    + intros k Hk. apply Rlt_le_trans with f; [exact Hf|]. apply (Un_cv_le _ _ f m (HQ k Hk)). intros n Hn. apply Hfl; auto.
    + apply (UL_sequence (fun n => Rsum (steps n P) K)); [apply Un_cv_Rsum; exact HQ|].
      apply (Un_cv_ext (fun _ => 1)); [|apply Un_cv_const]. intros n. symmetry. apply (steps_dist K q q_nonneg n P some DP).
  - assert (HI : forall k, Un_cv (fun n => inflow (steps n P) k) (inflow Q k)).
    { intros k. unfold MasterEq.inflow. apply (Un_cv_Rsum (fun n i => q i k * steps n P i)). intros i Hi.
      apply (CV_mult (fun _ => q i k)); [apply Un_cv_const | apply HQ; exact Hi]. }
    assert (HTt : Un_cv (fun n => Ttot (steps n P)) (Ttot Q)).
    { unfold MasterEq.Ttot. apply (Un_cv_Rsum (fun n k => inflow (steps n P) k)). intros; apply HI. }
    intros k Hk. apply (Rplus_eq_reg_r (Ttot Q * Q k)).
    apply (UL_sequence (fun n => inflow (steps n P) k + Ttot (steps n P) * steps n P k)).
    + apply CV_plus; [apply HI|]. apply CV_mult; [exact HTt | apply HQ; exact Hk].
    + replace (Ttot Q * Q k + Ttot Q * Q k) with (2 * (Ttot Q * Q k)) by ring.
      apply (Un_cv_ext (fun n => 2 * (Ttot (steps n P) * steps (S n) P k))).
      * intros n. replace (S n) with (n + 1)%nat by lia. rewrite steps_add. cbn [MasterEq.steps]. unfold MasterEq.step.
        pose proof (Ttot_pos K q q_nonneg (steps n P) (proj1 (steps_dist K q q_nonneg n P some DP)) some). field. lra.
      * apply (CV_mult (fun _ => 2)); [apply Un_cv_const|]. apply CV_mult; [exact HTt|]. apply (Un_cv_shift (fun n => steps n P k)), HQ, Hk.
Qed.

(** one distribution that stays, every start converges to it, and the spread
    bounds the distance *)
Theorem limit : exists Q, dist Q /\ still Q /\ (forall P, dist P -> still P -> forall k, In k K -> P k = Q k) /\
  (forall P k, dist P -> In k K -> Un_cv (fun n => steps n P k) (Q k)) /\
  exists M, 0 < M /\ forall a b P k, dist P -> between a b P -> In k K -> Rabs (P k - Q k) <= M * (b - a).
Proof.
  assert (D0 : dist (fun _ => / INR (length K))).
  { assert (0 < INR (length K)) by (apply lt_0_INR; destruct K; [congruence | simpl; lia]).
    split; [intros; apply Rinv_0_lt_compat; assumption|]. rewrite Rsum_const. field. lra. }
  destruct (limit_exists _ D0) as (Q & DQ & SQ & _). exists Q. split; [exact DQ|]. split; [exact SQ|].
  split; [intros P DP SP k Hk; apply still_unique; auto|].
  assert (Cv : forall P k, dist P -> In k K -> Un_cv (fun n => steps n P k) (Q k)).
  { intros P k DP Hk. destruct (limit_exists P DP) as (Q' & DQ' & SQ' & C). rewrite (still_unique Q Q' DQ DQ' SQ SQ' k Hk). apply C; exact Hk. }
  split; [exact Cv|]. destruct near as (M & HM & Hn). exists M. split; [exact HM|]. intros a b P k DP Hb Hk.
  rewrite Rabs_minus_sym. apply (Un_cv_ge (fun n => Rabs (steps n P k - P k)) _ _ O).
  - apply cv_cvabs. apply (CV_minus (fun n => steps n P k) (fun _ => P k)); [apply Cv; auto | apply Un_cv_const].
  - intros n _. apply Hn; auto.
Qed.
End Limit.
