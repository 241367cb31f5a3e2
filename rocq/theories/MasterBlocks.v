(** * The damped power iteration on members that are not all connected *)
From Coq Require Import ZArith List Reals Lra Lia Relations Permutation Classical.
From Verif Require Import RSum MasterEq.
Import ListNotations.
Open Scope R_scope.

Lemma divide {A} (Q : A -> Prop) (l : list A) :
  exists l1 l2, Permutation l (l1 ++ l2) /\ (forall x, In x l1 -> Q x) /\ (forall x, In x l2 -> ~ Q x).
Proof.
  induction l as [|x l (l1 & l2 & Hp & H1 & H2)]; [exists [], []; split; [constructor|]; split; intros ? []|].
  destruct (classic (Q x)) as [Hx|Hx].
  - exists (x :: l1), l2. split; [apply perm_skip; exact Hp|]. split; [|exact H2]. intros y [<-|Hy]; auto.
  - exists l1, (x :: l2). split; [eapply perm_trans; [apply perm_skip; exact Hp|apply Permutation_middle]|]. split; [exact H1|].
    intros y [<-|Hy]; auto.
Qed.

Section Blocks.
Variable K : list Z.
Variable q : Z -> Z -> R.
Hypothesis Kne : K <> [].
Hypothesis q_nonneg : forall i k, In i K -> In k K -> 0 <= q i k.
Hypothesis stay_le : forall n, In n K -> stay K q n <= 1.
Hypothesis sym : forall i k, edge K q i k -> edge K q k i.
Hypothesis some : exists i k, edge K q i k.
Notation inflow := (inflow K q).
Notation step := (step K q).
Notation steps := (steps K q).
Notation Ttot := (Ttot K q).
Notation edge := (edge K q).
Notation stay := (stay K q).
Notation dist := (dist K).

(** ** The total inflow stays away from 0 *)
Definition linked_mass (P : Z -> R) : R := Rsum (fun k => if Rlt_dec 0 (stay k) then P k else 0) K.
Lemma edge_stay i k : edge i k -> 0 < stay i.
Proof.
  intros (Hi & Hk & Hq). unfold MasterEq.stay. apply (Rsum_pos_ex _ K k); auto.
Qed.
Lemma inflow_edge P k : In k K -> inflow P k <> 0 -> exists n, edge n k.
Proof.
  intros Hk Hn. apply NNPP. intros X. apply Hn. unfold MasterEq.inflow. rewrite (Rsum_ext _ (fun _ => 0)); [apply Rsum_zero|].
  intros n Hnk. destruct (Rle_lt_or_eq_dec 0 (q n k) (q_nonneg n k Hnk Hk)) as [Hp|<-]; [|ring].
  destruct X. exists n. repeat split; auto.
Qed.
Lemma mass_nonneg P : (forall k, In k K -> 0 <= P k) -> 0 <= linked_mass P.
Proof. intros HP. apply Rsum_nonneg. intros k Hk. destruct (Rlt_dec _ _); auto. lra. Qed.
Lemma mass_step P : dist P -> 1 / 2 <= linked_mass (step P).
Proof.
  intros HD. pose proof (Ttot_pos K q q_nonneg P (proj1 HD) some) as HT.
  apply Rle_trans with (Rsum (fun k => (/ 2 * / Ttot P) * inflow P k) K).
  - rewrite Rsum_scal. change (Rsum (inflow P) K) with (Ttot P). right. field. lra.
  - apply Rsum_le. intros k Hk. assert (HP0 : forall i, In i K -> 0 <= P i) by (intros; left; apply HD; auto).
    pose proof (inflow_nonneg K q q_nonneg P k HP0 Hk) as Hi. pose proof (HP0 k Hk) as Hpk.
    destruct (Rlt_dec 0 (stay k)) as [Hs|Hs].
    + unfold MasterEq.step. replace ((inflow P k / Ttot P + P k) / 2) with (/ 2 * / Ttot P * inflow P k + P k / 2) by (field; lra). lra.
    + destruct (Req_dec (inflow P k) 0) as [->|X]; [lra|]. destruct (inflow_edge P k Hk X) as [n E]. destruct Hs. apply (edge_stay k n), sym, E.
Qed.
Lemma total_lower P0 : dist P0 -> exists c, 0 < c <= 1 /\ forall t, c <= Ttot (steps t P0) <= 1.
Proof.
  intros HD. destruct (min_pos stay K) as (c2 & Hc2 & Hst).
  assert (Hm0 : 0 < linked_mass P0).
  { destruct some as (i & k & E). apply (Rsum_pos_ex _ K i).
    - intros y Hy. destruct (Rlt_dec _ _); [left; apply HD; exact Hy|lra].
    - apply E.
    - destruct (Rlt_dec 0 (stay i)) as [|X]; [apply HD, E|destruct X; apply (edge_stay i k E)]. }
  set (m := Rmin (1 / 2) (linked_mass P0)).
  assert (Hm : 0 < m <= 1 / 2) by (unfold m; split; [apply Rmin_glb_lt; lra|apply Rmin_l]).
  assert (HT : forall P, dist P -> m <= linked_mass P -> c2 * m <= Ttot P).
  { intros P HP HmP. apply Rle_trans with (c2 * linked_mass P); [apply Rmult_le_compat_l; lra|].
    rewrite Ttot_stay. unfold linked_mass. rewrite <- Rsum_scal. apply Rsum_le. intros k Hk. pose proof (proj1 HP k Hk) as Hpk.
    destruct (Rlt_dec 0 (stay k)) as [Hs|Hs]; [apply Rmult_le_compat_r; [lra|apply Hst; assumption]|].
    rewrite Rmult_0_r. apply Rmult_le_pos; [|lra]. unfold MasterEq.stay. apply Rsum_nonneg. intros; auto. }
  exists (c2 * m). split; [nra|]. intros t.
  assert (X : dist (steps t P0) /\ m <= linked_mass (steps t P0)).
  { assert (m <= linked_mass P0) by apply Rmin_r. assert (m <= 1 / 2) by lra. clearbody m. clear - HD H H0 sym some q_nonneg Kne.
    revert P0 HD H. induction t as [|t IH]; intros P0 HD H; [auto|]. cbn [MasterEq.steps]. apply IH; [apply step_dist; auto|].
    pose proof (mass_step P0 HD). lra. }
  split; [apply HT; apply X|]. destruct X as [[Xp Xs] _]. rewrite <- Xs. apply Ttot_le; auto. intros; left; auto.
Qed.

(** ** Ratios of connected members approach each other *)
Lemma steps_succ n P k : steps (S n) P k = step (steps n P) k.
Proof. revert P. induction n as [|n IH]; intros P; [reflexivity|]. change (steps (S (S n)) P k) with (steps (S n) (step P) k). rewrite IH. reflexivity. Qed.

(** the component of a member *)
Section Component.
Variables (B : list Z) (rest : list Z).
Hypothesis HK : Permutation K (B ++ rest).
Hypothesis Bne : B <> [].
Hypothesis closed : forall i k, In i rest -> In k B -> q i k = 0.
Hypothesis conn : forall j k, In j B -> In k B -> clos_refl_trans_n1 Z (MasterEq.edge B q) j k.

Lemma B_sub i : In i B -> In i K.
Proof. intros Hi. apply (Permutation_in i (Permutation_sym HK)), in_app_iff. auto. Qed.
Lemma inflow_B P k : In k B -> inflow P k = MasterEq.inflow B q P k.
Proof.
  intros Hk. unfold MasterEq.inflow. rewrite (Rsum_perm _ _ _ HK), Rsum_app.
  rewrite (Rsum_ext (fun n => q n k * P n) (fun _ => 0) rest); [rewrite Rsum_zero; ring|]. intros i Hi. rewrite (closed i k Hi Hk). ring.
Qed.
Lemma B_nonneg i k : In i B -> In k B -> 0 <= q i k.
Proof. intros; apply q_nonneg; apply B_sub; assumption. Qed.
Lemma B_stay n : In n B -> MasterEq.stay B q n <= 1.
Proof.
  intros Hn. eapply Rle_trans; [|apply (stay_le n (B_sub n Hn))]. unfold MasterEq.stay. rewrite (Rsum_perm _ _ _ HK), Rsum_app.
  assert (0 <= Rsum (fun k => q n k) rest); [|lra]. apply Rsum_nonneg. intros k Hk. apply q_nonneg; [apply B_sub, Hn|].
  apply (Permutation_in k (Permutation_sym HK)), in_app_iff. auto.
Qed.
(** [m] steps are a positive multiple of a product of [L]s of the component *)
Lemma steps_LB c P0 : 0 < c -> (forall t, c <= Ttot (steps t P0) <= 1) -> forall m t,
  exists ss g, length ss = m /\ 0 < g /\ (forall s, In s ss -> c <= s <= 1) /\
    forall k, In k B -> steps (t + m) P0 k = g * Ls B q ss (steps t P0) k.
Proof.
  intros Hc HT m t. induction m as [|m (ss & g & Hl & Hg & Hs & E)].
  - exists [], 1. split; [reflexivity|]. split; [lra|]. split; [intros ? []|]. intros k Hk. rewrite Nat.add_0_r. cbn [Ls]. ring.
  - pose proof (HT (t + m)%nat) as HTm. set (T := Ttot (steps (t + m) P0)) in *.
    exists (T :: ss), (g / (2 * T)). split; [cbn; lia|]. split; [apply Rdiv_lt_0_compat; lra|]. split; [intros s [<-|Hin]; auto|].
    intros k Hk. replace (t + S m)%nat with (S (t + m)) by lia. rewrite steps_succ. unfold MasterEq.step. fold T.
    rewrite (inflow_B _ k Hk). rewrite (MasterEq.inflow_ext B q _ (fun i => g * Ls B q ss (steps t P0) i + 0 * P0 i) k) by (intros i Hi; rewrite E by exact Hi; ring).
    rewrite inflow_lin, E by exact Hk. cbn [Ls]. unfold L. field. lra.
Qed.
(** the spread of the ratios on the component is eventually below [d] *)
Lemma spread P0 d : dist P0 -> 0 < d -> exists J, forall t, (J <= t)%nat -> exists a b, b - a <= d /\ 
  forall k, In k B -> a * steps t P0 k <= inflow (steps t P0) k <= b * steps t P0 k.
Proof.
  intros HP0 Hd. destruct (total_lower P0 HP0) as (c1 & Hc1 & HT1).
  destruct (q_min B q) as (c2 & Hc2 & Hq2). set (c := Rmin c1 c2).
  assert (Hc : 0 < c <= 1) by (unfold c; split; [apply Rmin_glb_lt; lra|eapply Rle_trans; [apply Rmin_l|lra]]).
  assert (HT : forall t, c <= Ttot (steps t P0) <= 1) by (intros t; split; [eapply Rle_trans; [apply Rmin_l|apply HT1]|apply HT1]).
  assert (Hq : forall i k, MasterEq.edge B q i k -> c <= q i k) by (intros i k E; eapply Rle_trans; [apply Rmin_r|auto]).
  destruct (diameter B q conn) as [m Hm].
  assert (Hn : 1 <= INR (length B)) by (change 1 with (INR 1); apply le_INR; destruct B; [congruence | simpl; lia]).
  set (eps := c ^ m / INR (length B) / 2 ^ m).
  assert (Heps : 0 < eps <= 1).
  { assert (0 < c ^ m) by (apply pow_lt; lra).
    assert (c ^ m <= 1) by (rewrite <- (pow1 m); apply pow_incr; lra).
    assert (1 <= 2 ^ m) by (apply pow_R1_Rle; lra).
    unfold eps. split.
    - repeat apply Rdiv_lt_0_compat; lra.
    - apply Rmult_le_reg_r with (2 ^ m); [lra|]. unfold Rdiv at 1. rewrite Rmult_assoc, Rinv_l by lra.
      apply Rmult_le_reg_r with (INR (length B)); [lra|]. unfold Rdiv.
      rewrite Rmult_1_r, Rmult_assoc, Rinv_l by lra. nra. }
  assert (HDt : forall t, dist (steps t P0)) by (intros t; apply steps_dist; auto).
  (* from a bound at [t] to one at [t + m'] *)
  assert (Go : forall t m' a b ss g a' b', (forall k, In k B -> steps (t + m') P0 k = g * Ls B q ss (steps t P0) k) -> 0 < g ->
    (forall k, In k B -> a' * Ls B q ss (steps t P0) k <= Ls B q ss (inflow (steps t P0)) k <= b' * Ls B q ss (steps t P0) k) ->
    (forall k, In k B -> a * steps t P0 k <= inflow (steps t P0) k <= b * steps t P0 k) ->
    forall k, In k B -> a' * steps (t + m') P0 k <= inflow (steps (t + m') P0) k <= b' * steps (t + m') P0 k).
  { intros t m' a b ss g a' b' E Hg Hb _ k Hk. rewrite (inflow_B _ k Hk).
    rewrite (MasterEq.inflow_ext B q _ (fun i => g * Ls B q ss (steps t P0) i + 0 * P0 i) k) by (intros i Hi; rewrite E by exact Hi; ring).
    rewrite inflow_lin, (E k Hk), <- Ls_inflow by exact Hk.
    rewrite <- (Ls_ext B q ss (inflow (steps t P0)) (MasterEq.inflow B q (steps t P0)) (fun i Hi => inflow_B _ i Hi) k Hk).
    destruct (Hb k Hk) as [B1 B2].
    assert (g * (a' * Ls B q ss (steps t P0) k) <= g * Ls B q ss (inflow (steps t P0)) k) by (apply Rmult_le_compat_l; lra).
    assert (g * Ls B q ss (inflow (steps t P0)) k <= g * (b' * Ls B q ss (steps t P0) k)) by (apply Rmult_le_compat_l; lra). lra. }
  destruct (min_pos P0 K) as (p0 & Hp0 & Hpm).
  assert (Hj : forall j, exists a b, b - a <= (1 - eps) ^ j * (/ p0) /\
     forall k, In k B -> a * steps (j * m) P0 k <= inflow (steps (j * m) P0) k <= b * steps (j * m) P0 k).
  { induction j as [|j (a & b & Hw & Hb)].
    - exists 0, (/ p0). split; [simpl; lra|]. intros k Hk. cbn [Nat.mul MasterEq.steps]. destruct HP0 as [Hpp Hps]. pose proof (B_sub k Hk) as HkK.
      assert (Hpp0 : forall i, In i K -> 0 <= P0 i) by (intros; left; auto).
      rewrite Rmult_0_l. split; [apply inflow_nonneg; auto|].
      assert (inflow P0 k <= 1).
      { rewrite <- Hps. eapply Rle_trans; [|apply Ttot_le with (q := q); auto].
        apply (Rsum_ge_elem (inflow P0)); auto. intros; apply inflow_nonneg; auto. }
      assert (p0 <= P0 k) by (apply Hpm; auto).
      apply Rle_trans with 1; [lra|]. apply Rmult_le_reg_l with p0; [lra|].
      rewrite <- Rmult_assoc, Rinv_r, Rmult_1_l, Rmult_1_r by lra. lra.
    - destruct (steps_LB c P0 ltac:(lra) HT m (j * m)%nat) as (ss & g & Hl & Hg & Hs & E).
      destruct (block_shrinks B q Bne B_nonneg B_stay conn c m a b (steps (j * m) P0) (inflow (steps (j * m) P0)) ss Hc Hq Hl Hs Hm
        ltac:(intros k Hk; apply (HDt (j * m)%nat), B_sub, Hk) Hb) as (a' & b' & Hw' & Hb').
      fold eps in Hw'. exists a', b'. split.
      + cbn [pow]. eapply Rle_trans; [exact Hw'|]. rewrite Rmult_assoc. apply Rmult_le_compat_l; lra.
      + replace (S j * m)%nat with (j * m + m)%nat by lia. exact (Go _ _ a b ss g a' b' E Hg Hb' Hb). }
  assert (Hlim : exists j, (1 - eps) ^ j * / p0 <= d).
  { assert (Hpow : Rabs (1 - eps) < 1) by (rewrite Rabs_pos_eq; lra).
    destruct (pow_lt_1_zero (1 - eps) Hpow (d * p0)) as [j Hjj]; [apply Rmult_lt_0_compat; lra|].
    exists j. specialize (Hjj j (le_n j)). rewrite Rabs_pos_eq in Hjj by (apply pow_le; lra).
    apply Rmult_le_reg_r with p0; [lra|]. rewrite Rmult_assoc, Rinv_l by lra. lra. }
  destruct Hlim as [j Hjl]. exists (j * m)%nat. intros t Ht. destruct (Hj j) as (a & b & Hw & Hb). exists a, b. split; [lra|].
  replace t with (j * m + (t - j * m))%nat by lia.
  destruct (steps_LB c P0 ltac:(lra) HT (t - j * m)%nat (j * m)%nat) as (ss & g & Hl & Hg & Hs & E).
  apply (Go _ _ a b ss g a b E Hg); [|exact Hb]. intros k Hk.
  (* the products are monotone *)
  assert (Mono : forall x y : Z -> R, (forall i, In i B -> x i <= y i) -> forall i, In i B -> Ls B q ss x i <= Ls B q ss y i).
  { intros x y Hxy i Hi. assert (X : 0 <= Ls B q ss (fun i => 1 * y i + (-1) * x i) i).
    { apply Ls_nonneg; auto; [intros; apply B_nonneg; auto|intros s Hin; destruct (Hs s Hin); lra|]. intros n Hn0. specialize (Hxy n Hn0). lra. }
    rewrite Ls_lin in X by exact Hi. lra. }
  assert (Scal : forall r x i, In i B -> Ls B q ss (fun i => r * x i) i = r * Ls B q ss x i).
  { intros r x i Hi. rewrite (Ls_ext B q ss _ (fun i => r * x i + 0 * x i)) by (intros; first [ring|assumption]). rewrite Ls_lin by exact Hi. ring. }
  split; rewrite <- Scal by exact Hk; apply Mono; try exact Hk; intros i Hi; apply Hb, Hi.
Qed.
End Component.

(** every member has a component *)
Lemma component k : In k K -> exists B rest, Permutation K (B ++ rest) /\ In k B /\
  (forall i x, In i rest -> In x B -> q i x = 0) /\
  (forall j x, In j B -> In x B -> clos_refl_trans_n1 Z (MasterEq.edge B q) j x).
Proof.
  intros Hk. destruct (divide (fun x => clos_refl_trans Z edge k x) K) as (B & rest & HP & HB & Hr).
  assert (KB : forall x, In x B -> In x K) by (intros x Hx; apply (Permutation_in x (Permutation_sym HP)), in_app_iff; auto).
  assert (KR : forall x, In x rest -> In x K) by (intros x Hx; apply (Permutation_in x (Permutation_sym HP)), in_app_iff; auto).
  assert (BK : forall x, In x K -> clos_refl_trans Z edge k x -> In x B).
  { intros x Hx Hc. apply (Permutation_in x HP), in_app_iff in Hx. destruct Hx as [Hx|Hx]; [exact Hx|]. destruct (Hr x Hx Hc). }
  exists B, rest. split; [exact HP|]. split; [apply BK; [exact Hk|apply rt_refl]|]. split.
  - intros i x Hi Hx. destruct (Rle_lt_or_eq_dec 0 (q i x) (q_nonneg i x (KR i Hi) (KB x Hx))) as [Hp|<-]; [|reflexivity].
    destruct (Hr i Hi). eapply rt_trans; [apply (HB x Hx)|]. apply rt_step, sym. repeat split; auto.
  - assert (To : forall x, clos_refl_trans Z edge k x -> In x K -> clos_refl_trans Z (MasterEq.edge B q) k x /\ clos_refl_trans Z (MasterEq.edge B q) x k).
    { intros x Hc. apply clos_rt_rtn1 in Hc. induction Hc as [|y x E Hc IH]; intros Hx; [split; apply rt_refl|].
      destruct (IH (proj1 E)) as [A C].
      assert (Hy : In y B) by (apply BK; [apply E|apply clos_rtn1_rt; exact Hc]).
      assert (Hx' : In x B) by (apply BK; [apply E|eapply rt_trans; [apply clos_rtn1_rt; exact Hc|apply rt_step; exact E]]).
      split; (eapply rt_trans; [first [exact A | apply rt_step] | first [exact C | apply rt_step]]).
      - split; [exact Hy|]. split; [exact Hx'|apply E].
      - split; [exact Hx'|]. split; [exact Hy|]. apply (sym y x E). }
    intros j x Hj Hx. apply clos_rt_rtn1. eapply rt_trans; [apply (To j (HB j Hj) (KB j Hj))|apply (To x (HB x Hx) (KB x Hx))].
Qed.

Lemma ratios_close P0 d : dist P0 -> 0 < d -> exists J, forall t, (J <= t)%nat -> forall k, In k K ->
  (inflow (steps t P0) k - d * steps t P0 k) * inflow (steps t P0) k <= inflow (inflow (steps t P0)) k * steps t P0 k.
Proof.
  intros HP0 Hd.
  destruct (uniform (fun J k => forall t, (J <= t)%nat -> 
    (inflow (steps t P0) k - d * steps t P0 k) * inflow (steps t P0) k <= inflow (inflow (steps t P0)) k * steps t P0 k) K) as [J HJ].
  - intros m m' x Hm HQ t Ht. apply HQ. lia.
  - intros k Hk. destruct (component k Hk) as (B & rest & HP & HkB & Hcl & Hcon).
    assert (Bne : B <> []) by (intros ->; destruct HkB).
    destruct (spread B rest HP Bne Hcl Hcon P0 d HP0 Hd) as [J HJ]. exists J. intros t Ht. destruct (HJ t Ht) as (a & b & Hab & Hb).
    set (P := steps t P0) in *. assert (HD : dist P) by (apply steps_dist; auto).
    assert (Hp : forall i, In i K -> 0 <= P i) by (intros; left; apply HD; auto).
    pose proof (inflow_nonneg K q q_nonneg P k Hp Hk) as Hi. pose proof (proj1 HD k Hk) as Hpk.
    assert (E : a * inflow P k <= inflow (inflow P) k).
    { rewrite (inflow_B B rest HP Hcl (inflow P) k HkB), (inflow_B B rest HP Hcl P k HkB). unfold MasterEq.inflow at 1 2. rewrite <- Rsum_scal.
      apply Rsum_le. intros n Hn. assert (0 <= q n k) by (apply q_nonneg; [|exact Hk]; apply (Permutation_in n (Permutation_sym HP)), in_app_iff; auto).
      destruct (Hb n Hn) as [X _]. apply (Rmult_le_compat_l (q n k)) in X; [|assumption]. lra. }
    destruct (Hb k HkB) as [_ X]. assert (Y : inflow P k - d * P k <= a * P k) by nra.
    apply Rle_trans with (a * P k * inflow P k); [apply Rmult_le_compat_r; assumption|].
    replace (a * P k * inflow P k) with (a * inflow P k * P k) by ring. apply Rmult_le_compat_r; lra.
  - exists J. intros t Ht k Hk. apply HJ; assumption.
Qed.

(** mean square distance of the ratios from their mean *)
Definition var (P : Z -> R) : R := Rsum (fun k => P k * ((inflow P k / P k - Ttot P) * (inflow P k / P k - Ttot P))) K.
Lemma var_nonneg P : dist P -> 0 <= var P.
Proof. intros HD. apply Rsum_nonneg. intros k Hk. pose proof (proj1 HD k Hk). apply Rmult_le_pos; [lra|apply Rle_0_sqr]. Qed.

Lemma total_grows P d : dist P -> 0 < Ttot P <= 1 -> 0 <= d ->
  (forall k, In k K -> (inflow P k - d * P k) * inflow P k <= inflow (inflow P) k * P k) ->
  Ttot P + var P / 2 - d / 2 <= Ttot (step P).
Proof.
  intros HD HT Hd Hc. set (T := Ttot P) in *. pose proof (var_nonneg P HD) as Hv.
  set (W := Rsum (fun k => inflow P k * inflow P k / P k) K).
  assert (EV : var P = W - T * T).
  { unfold var. fold T. rewrite (Rsum_ext _ (fun k => inflow P k * inflow P k / P k - (2 * T * inflow P k - T * T * P k))).
    - rewrite Rsum_minus, Rsum_minus, !Rsum_scal. rewrite (proj2 HD). change (Rsum (inflow P) K) with T. fold W. ring.
    - intros k Hk. pose proof (proj1 HD k Hk). field. lra. }
  assert (E : Ttot (step P) = Rsum (fun k => inflow (inflow P) k * / (2 * T) + / 2 * inflow P k) K).
  { unfold MasterEq.Ttot at 1. apply Rsum_ext. intros k Hk.
    rewrite (MasterEq.inflow_ext K q (step P) (fun i => / (2 * T) * inflow P i + / 2 * P i) k) by (intros i Hi; unfold MasterEq.step; fold T; field; lra).
    rewrite inflow_lin. ring. }
  assert (E2 : (W - d * T) * / (2 * T) + / 2 * T <= Ttot (step P)).
  { rewrite E, Rsum_plus, Rsum_scal_r, Rsum_scal. change (Rsum (inflow P) K) with T. apply Rplus_le_compat_r, Rmult_le_compat_r; [left; apply Rinv_0_lt_compat; lra|].
    unfold W. unfold T at 1. unfold MasterEq.Ttot. rewrite <- Rsum_scal, <- Rsum_minus. apply Rsum_le. intros k Hk. pose proof (proj1 HD k Hk) as Hp. specialize (Hc k Hk).
    apply Rmult_le_reg_r with (P k); [exact Hp|]. replace ((inflow P k * inflow P k / P k - d * inflow P k) * P k) with ((inflow P k - d * P k) * inflow P k) by (field; lra). exact Hc. }
  eapply Rle_trans; [|exact E2]. replace ((W - d * T) * / (2 * T) + / 2 * T) with (T + var P / (2 * T) - d / 2) by (rewrite EV; field; lra).
  assert (var P / 2 <= var P / (2 * T)); [|lra]. apply Rmult_le_compat_l; [exact Hv|]. apply Rinv_le_contravar; lra.
Qed.

Theorem converges_any P0 eta : dist P0 -> 0 < eta ->
  exists n, Rsum (fun k => Rabs (steps n P0 k - step (steps n P0) k)) K <= eta.
Proof.
  intros HP0 Heta. destruct (total_lower P0 HP0) as (c & Hc & HT). set (x := 2 * c * eta). assert (Hx : 0 < x) by (unfold x; repeat apply Rmult_lt_0_compat; lra).
  set (v := x * x). assert (Hv : 0 < v) by (apply Rmult_lt_0_compat; assumption).
  destruct (ratios_close P0 (v / 2) HP0 ltac:(lra)) as [J HJ].
  assert (HDt : forall t, dist (steps t P0)) by (intros t; apply steps_dist; auto).
  assert (Small : exists t, (J <= t)%nat /\ var (steps t P0) < v).
  { apply NNPP. intros X.
    assert (G : forall n, INR n * (v / 4) <= Ttot (steps (J + n) P0)).
    { induction n as [|n IH]; [cbn [INR]; rewrite Rmult_0_l; pose proof (HT (J + 0)%nat); lra|].
      replace (J + S n)%nat with (S (J + n)) by lia. set (P := steps (J + n) P0) in *.
      assert (ES : Ttot (steps (S (J + n)) P0) = Ttot (step P)) by (apply (MasterEq.Ttot_ext K q); intros i _; apply steps_succ). rewrite ES.
      assert (v <= var P) by (destruct (Rlt_le_dec (var P) v) as [Y|Y]; [destruct X; exists (J + n)%nat; split; [lia|exact Y]|exact Y]).
      pose proof (HT (J + n)%nat) as HTn. fold P in HTn.
      pose proof (total_grows P (v / 2) (HDt _) ltac:(lra) ltac:(lra) (HJ (J + n)%nat ltac:(lia))) as Gr. rewrite S_INR. lra. }
    destruct (archimed (4 / v)) as [Ar _]. assert (0 < 4 / v) by (apply Rdiv_lt_0_compat; lra).
    assert (Hz : (0 <= up (4 / v))%Z) by (apply le_IZR; lra).
    specialize (G (Z.to_nat (up (4 / v)))). rewrite INR_IZR_INZ, Z2Nat.id in G by exact Hz.
    pose proof (HT (J + Z.to_nat (up (4 / v)))%nat) as [_ Up].
    assert (1 < IZR (up (4 / v)) * (v / 4)); [|lra]. apply Rmult_lt_reg_r with (4 / v); [assumption|]. rewrite Rmult_assoc. replace (v / 4 * (4 / v)) with 1 by (field; lra). lra. }
  destruct Small as (t & _ & Ht). exists t. set (P := steps t P0) in *. pose proof (HDt t) as HD. fold P in HD. pose proof (HT t) as HTt. fold P in HTt. set (T := Ttot P) in *.
  apply Rle_trans with (Rsum (fun k => / (2 * c) * (/ 2 * (/ x * (P k * ((inflow P k / P k - T) * (inflow P k / P k - T))) + x * P k))) K).
  - apply Rsum_le. intros k Hk. pose proof (proj1 HD k Hk) as Hp. set (r := inflow P k / P k).
    assert (Er : inflow P k = r * P k) by (unfold r; field; lra).
    unfold MasterEq.step. fold T. rewrite Er. replace (P k - (r * P k / T + P k) / 2) with (/ (2 * T) * (P k * - (r - T))) by (field; lra).
    rewrite Rabs_mult, (Rabs_pos_eq (/ (2 * T))) by (left; apply Rinv_0_lt_compat; lra).
    apply Rmult_le_compat; [left; apply Rinv_0_lt_compat; lra|apply Rabs_pos|apply Rinv_le_contravar; lra|].
    rewrite Rabs_mult, (Rabs_pos_eq (P k)), Rabs_Ropp by lra.
    replace (/ 2 * (/ x * (P k * ((r - T) * (r - T))) + x * P k)) with (P k * (/ 2 * (/ x * ((r - T) * (r - T)) + x))) by ring.
    apply Rmult_le_compat_l; [lra|]. apply Rmult_le_reg_r with (2 * x); [lra|].
    replace (/ 2 * (/ x * ((r - T) * (r - T)) + x) * (2 * x)) with ((r - T) * (r - T) + x * x) by (field; lra).
    set (y := Rabs (r - T)). assert (Ey : (r - T) * (r - T) = y * y).
    { unfold y. destruct (Rcase_abs (r - T)) as [X|X]; [rewrite Rabs_left by exact X|rewrite Rabs_right by exact X]; ring. }
    rewrite Ey. pose proof (Rle_0_sqr (y - x)) as Sq. unfold Rsqr in Sq. lra.
  - rewrite Rsum_scal, Rsum_scal, Rsum_plus, !Rsum_scal. rewrite (proj2 HD). change (Rsum _ K) with (var P) at 1.
    apply Rle_trans with (/ (2 * c) * x); [|unfold x; right; field; lra]. apply Rmult_le_compat_l; [left; apply Rinv_0_lt_compat; lra|].
    assert (/ x * var P <= x); [|lra]. apply Rmult_le_reg_l with x; [exact Hx|]. rewrite <- Rmult_assoc, Rinv_r, Rmult_1_l by lra. unfold v in Ht. lra.
Qed.
End Blocks.
