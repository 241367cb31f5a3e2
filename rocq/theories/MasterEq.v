(** * The damped power iteration of Cluster::iterate_ over the reals

    [K] are the members, [q n k] the probability to hop from member [n] to
    member [k] (0 when there is no rate). *)
From Coq Require Import ZArith List Bool Reals Lra Lia Relations.
From Verif Require Import RSum.
Import ListNotations.
Open Scope R_scope.

Section ME.
Variable K : list Z.
Variable q : Z -> Z -> R.

Definition inflow (P : Z -> R) (k : Z) : R := Rsum (fun n => q n k * P n) K.
Definition stay (n : Z) : R := Rsum (fun k => q n k) K.
Definition Ttot (P : Z -> R) : R := Rsum (inflow P) K.
Definition step (P : Z -> R) (k : Z) : R := (inflow P k / Ttot P + P k) / 2.
Fixpoint steps (n : nat) (P : Z -> R) : Z -> R :=
  match n with O => P | S n' => steps n' (step P) end.

Definition edge (i k : Z) : Prop := In i K /\ In k K /\ 0 < q i k.

Hypothesis Kne : K <> [].
Hypothesis q_nonneg : forall i k, In i K -> In k K -> 0 <= q i k.
Hypothesis stay_le : forall n, In n K -> stay n <= 1.

Definition dist (P : Z -> R) : Prop := (forall k, In k K -> 0 < P k) /\ Rsum P K = 1.

Lemma inflow_ext P P' k : (forall i, In i K -> P i = P' i) -> inflow P k = inflow P' k.
Proof. intros E. apply Rsum_ext. intros i Hi. rewrite E; auto. Qed.
Lemma Ttot_ext P P' : (forall i, In i K -> P i = P' i) -> Ttot P = Ttot P'.
Proof. intros E. apply Rsum_ext. intros i Hi. apply inflow_ext; auto. Qed.
Lemma step_ext P P' k : (forall i, In i K -> P i = P' i) -> In k K -> step P k = step P' k.
Proof. intros E Hk. unfold step. rewrite (inflow_ext P P' k E), (Ttot_ext P P' E), (E k Hk). reflexivity. Qed.

Lemma Ttot_stay P : Ttot P = Rsum (fun n => stay n * P n) K.
Proof.
  unfold Ttot, inflow. rewrite Rsum_swap. apply Rsum_ext. intros n Hn.
  unfold stay. rewrite Rsum_scal_r. reflexivity.
Qed.

Lemma inflow_nonneg P k : (forall i, In i K -> 0 <= P i) -> In k K -> 0 <= inflow P k.
Proof. intros HP Hk. apply Rsum_nonneg. intros i Hi. apply Rmult_le_pos; auto. Qed.

Lemma Ttot_pos P : (forall i, In i K -> 0 < P i) -> (exists i k, edge i k) -> 0 < Ttot P.
Proof.
  intros HP (i & k & Hi & Hk & Hq).
  assert (HP' : forall i, In i K -> 0 <= P i) by (intros; left; auto).
  apply Rsum_pos_ex with (x := k); auto.
  - intros j Hj. apply inflow_nonneg; auto.
  - apply Rsum_pos_ex with (x := i); auto.
    + intros j Hj. apply Rmult_le_pos; auto.
    + apply Rmult_lt_0_compat; auto.
Qed.

Lemma Ttot_le P : (forall i, In i K -> 0 <= P i) -> Ttot P <= Rsum P K.
Proof.
  intros HP. rewrite Ttot_stay. apply Rsum_le. intros n Hn.
  rewrite <- (Rmult_1_l (P n)) at 2. apply Rmult_le_compat_r; auto.
Qed.

Lemma step_sum P : Ttot P <> 0 -> Rsum P K = 1 -> Rsum (step P) K = 1.
Proof.
  intros HT HP. unfold step.
  rewrite (Rsum_ext _ (fun k => (/ 2 * / Ttot P) * inflow P k + / 2 * P k)).
  - rewrite Rsum_plus, !Rsum_scal, HP. change (Rsum (inflow P) K) with (Ttot P). field. exact HT.
  - intros k _. field. exact HT.
Qed.

Lemma step_dist P : (exists i k, edge i k) -> dist P -> dist (step P).
Proof.
  intros He (HP & HS). pose proof (Ttot_pos P HP He) as HT. split.
  - intros k Hk. unfold step.
    assert (0 <= inflow P k / Ttot P).
    { apply Rmult_le_pos; [|left; apply Rinv_0_lt_compat; exact HT].
      apply inflow_nonneg; auto. intros; left; auto. }
    specialize (HP k Hk). lra.
  - apply step_sum; [lra | exact HS].
Qed.

Lemma steps_dist n : forall P, (exists i k, edge i k) -> dist P -> dist (steps n P).
Proof. induction n; simpl; intros; auto. apply IHn; auto. apply step_dist; auto. Qed.

(** ** Convergence *)
Definition L (s : R) (x : Z -> R) (k : Z) : R := inflow x k + s * x k.
Fixpoint Ls (ss : list R) (x : Z -> R) : Z -> R :=
  match ss with [] => x | s :: ss' => L s (Ls ss' x) end.

Lemma inflow_lin a b x y k : inflow (fun i => a * x i + b * y i) k = a * inflow x k + b * inflow y k.
Proof.
  unfold inflow. rewrite <- !Rsum_scal, <- Rsum_plus. apply Rsum_ext. intros; ring.
Qed.
Lemma L_ext s x y k : (forall i, In i K -> x i = y i) -> In k K -> L s x k = L s y k.
Proof. intros E Hk. unfold L. rewrite (inflow_ext x y k E), (E k Hk). reflexivity. Qed.
Lemma Ls_ext ss x y : (forall i, In i K -> x i = y i) -> forall k, In k K -> Ls ss x k = Ls ss y k.
Proof. intros E. induction ss; simpl; auto. intros k Hk. apply L_ext; auto. Qed.
Lemma L_lin s a b x y k : L s (fun i => a * x i + b * y i) k = a * L s x k + b * L s y k.
Proof. unfold L. rewrite inflow_lin. ring. Qed.
Lemma Ls_lin ss a b x y : forall k, In k K ->
  Ls ss (fun i => a * x i + b * y i) k = a * Ls ss x k + b * Ls ss y k.
Proof.
  induction ss; simpl; auto. intros k Hk. rewrite <- L_lin. apply L_ext; auto.
Qed.
Lemma L_inflow s x k : L s (inflow x) k = inflow (L s x) k.
Proof.
  unfold L. rewrite (inflow_ext (fun k => inflow x k + s * x k) (fun k => 1 * inflow x k + s * x k) k) by (intros; ring).
  rewrite inflow_lin. ring.
Qed.
Lemma Ls_inflow ss x : forall k, In k K -> Ls ss (inflow x) k = inflow (Ls ss x) k.
Proof.
  induction ss as [|s ss IH]; simpl; auto. intros k Hk.
  rewrite (L_ext s _ (inflow (Ls ss x)) k IH Hk). apply L_inflow.
Qed.
Lemma L_nonneg s x : 0 <= s -> (forall i, In i K -> 0 <= x i) -> forall k, In k K -> 0 <= L s x k.
Proof.
  intros Hs Hx k Hk. unfold L. pose proof (inflow_nonneg x k Hx Hk).
  assert (0 <= s * x k) by (apply Rmult_le_pos; auto). lra.
Qed.
Lemma Ls_nonneg ss x : (forall s, In s ss -> 0 <= s) -> (forall i, In i K -> 0 <= x i) ->
  forall k, In k K -> 0 <= Ls ss x k.
Proof.
  intros Hs Hx. induction ss as [|s ss IH]; simpl; auto. apply L_nonneg; [apply Hs; simpl; auto|].
  apply IH. intros; apply Hs; simpl; auto.
Qed.

(** upper bound *)
Lemma L_sum s x : 0 <= s <= 1 -> (forall i, In i K -> 0 <= x i) -> Rsum (L s x) K <= 2 * Rsum x K.
Proof.
  intros Hs Hx. unfold L. rewrite Rsum_plus, Rsum_scal. pose proof (Ttot_le x Hx) as HT.
  change (Rsum (inflow x) K) with (Ttot x).
  assert (0 <= Rsum x K) by (apply Rsum_nonneg; auto).
  assert (s * Rsum x K <= 1 * Rsum x K) by (apply Rmult_le_compat_r; lra). lra.
Qed.
Lemma Ls_sum ss x : (forall s, In s ss -> 0 <= s <= 1) -> (forall i, In i K -> 0 <= x i) ->
  Rsum (Ls ss x) K <= 2 ^ length ss * Rsum x K.
Proof.
  intros Hs Hx. induction ss as [|s ss IH]; simpl; [lra|].
  assert (H1 : forall s, In s ss -> 0 <= s <= 1) by (intros; apply Hs; simpl; auto).
  eapply Rle_trans; [apply L_sum|].
  - apply Hs; simpl; auto.
  - apply Ls_nonneg; auto. intros; apply H1; auto.
  - specialize (IH H1). lra.
Qed.
Lemma Ls_upper ss x k : (forall s, In s ss -> 0 <= s <= 1) -> (forall i, In i K -> 0 <= x i) -> In k K ->
  Ls ss x k <= 2 ^ length ss * Rsum x K.
Proof.
  intros Hs Hx Hk. eapply Rle_trans; [|apply Ls_sum; auto].
  apply Rsum_ge_elem; auto. apply Ls_nonneg; auto. intros; apply Hs; auto.
Qed.

(** lower bound *)
Inductive reach : nat -> Z -> Z -> Prop :=
| reach0 j : In j K -> reach O j j
| reachS m j i k : reach m j i -> i = k \/ edge i k -> reach (S m) j k.

Lemma reach_in m j k : reach m j k -> In j K /\ In k K.
Proof.
  induction 1 as [|m j i k H [IH1 IH2] [->|E]]; auto. destruct E as (_ & ? & _). auto.
Qed.
Lemma reach_more m m' j k : (m <= m')%nat -> reach m j k -> reach m' j k.
Proof.
  intros Hm H. induction Hm; auto. eapply reachS; [exact IHHm | left; reflexivity].
Qed.
Lemma reach_of_star j k : clos_refl_trans_n1 Z edge j k -> In j K -> exists m, reach m j k.
Proof.
  intros H Hj. induction H as [|i k E _ [m IH]]; [exists O; constructor; auto|].
  exists (S m). eapply reachS; eauto.
Qed.
Hypothesis conn : forall j k, In j K -> In k K -> clos_refl_trans_n1 Z edge j k.

Lemma uniform (Pm : nat -> Z -> Prop) (l : list Z) :
  (forall m m' x, (m <= m')%nat -> Pm m x -> Pm m' x) ->
  (forall x, In x l -> exists m, Pm m x) -> exists m, forall x, In x l -> Pm m x.
Proof.
  intros Mono. induction l as [|x l IH]; intros Hx; [exists O; intros ? []|].
  destruct (Hx x) as [m1 H1]; [simpl; auto|].
  destruct IH as [m2 H2]; [intros; apply Hx; simpl; auto|].
  exists (Nat.max m1 m2). intros y [<-|Hy]; [eapply Mono; [|exact H1]; lia | eapply Mono; [|apply H2; exact Hy]; lia].
Qed.
Lemma diameter : exists m, forall j k, In j K -> In k K -> reach m j k.
Proof.
  destruct (uniform (fun m j => forall k, In k K -> reach m j k) K) as [m Hm].
  - intros m m' j Hmm Hr k Hk. eapply reach_more; [exact Hmm | auto].
  - intros j Hj. apply (uniform (fun m k => reach m j k)).
    + intros; eapply reach_more; eauto.
    + intros k Hk. apply reach_of_star; auto.
  - exists m. intros; auto.
Qed.

(** a positive lower bound of finitely many positive numbers *)
Lemma min_pos {A} (f : A -> R) (l : list A) : exists c, 0 < c <= 1 /\ forall x, In x l -> 0 < f x -> c <= f x.
Proof.
  induction l as [|x l (c & Hc & IH)]; [exists 1; split; [lra | intros ? []]|].
  destruct (Rlt_dec 0 (f x)).
  - exists (Rmin c (f x)). split.
    + split; [apply Rmin_glb_lt; lra | eapply Rle_trans; [apply Rmin_l | lra]].
    + intros y [<-|Hy] Hp; [apply Rmin_r | eapply Rle_trans; [apply Rmin_l | auto]].
  - exists c. split; [exact Hc|]. intros y [<-|Hy] Hp; [lra | auto].
Qed.
Lemma q_min : exists c, 0 < c <= 1 /\ forall i k, edge i k -> c <= q i k.
Proof.
  destruct (min_pos (fun p => q (fst p) (snd p)) (list_prod K K)) as (c & Hc & Hm).
  exists c. split; [exact Hc|]. intros i k (Hi & Hk & Hq).
  apply (Hm (i, k)); [apply in_prod; auto | exact Hq].
Qed.

Lemma Ls_lower c ss x j k : 0 < c -> (forall i k, edge i k -> c <= q i k) ->
  (forall s, In s ss -> c <= s) -> (forall i, In i K -> 0 <= x i) ->
  reach (length ss) j k -> c ^ length ss * x j <= Ls ss x k.
Proof.
  intros Hc Hq. revert k. induction ss as [|s ss IH]; intros k Hs Hx Hr.
  - simpl in *. inversion Hr; subst. lra.
  - simpl in Hr |- *. inversion Hr as [|m j' i k' Hr' He]; subst.
    assert (Hs' : forall s, In s ss -> c <= s) by (intros; apply Hs; simpl; auto).
    specialize (IH i Hs' Hx Hr').
    assert (Hnn : forall i, In i K -> 0 <= Ls ss x i).
    { apply Ls_nonneg; auto. intros; apply Rle_trans with c; [lra | auto]. }
    destruct (reach_in _ _ _ Hr') as [Hj Hi]. destruct (reach_in _ _ _ Hr) as [_ Hk].
    assert (Hsc : c <= s) by (apply Hs; simpl; auto).
    unfold L. pose proof (inflow_nonneg _ k Hnn Hk) as Hin.
    assert (Hlow : c * Ls ss x i <= inflow (Ls ss x) k + s * Ls ss x k).
    { destruct He as [->|He].
      - assert (c * Ls ss x k <= s * Ls ss x k) by (apply Rmult_le_compat_r; auto). lra.
      - assert (q i k * Ls ss x i <= inflow (Ls ss x) k).
        { apply (Rsum_ge_elem (fun n => q n k * Ls ss x n)); auto. intros; apply Rmult_le_pos; auto. }
        assert (c * Ls ss x i <= q i k * Ls ss x i) by (apply Rmult_le_compat_r; auto).
        assert (0 <= s * Ls ss x k) by (apply Rmult_le_pos; auto; lra). lra. }
    eapply Rle_trans; [|exact Hlow]. rewrite Rmult_assoc. apply Rmult_le_compat_l; lra.
Qed.

Lemma Ls_lower_sum c ss x k : 0 < c -> (forall i k, edge i k -> c <= q i k) ->
  (forall s, In s ss -> c <= s) -> (forall i, In i K -> 0 <= x i) ->
  (forall j, In j K -> reach (length ss) j k) ->
  c ^ length ss * Rsum x K <= INR (length K) * Ls ss x k.
Proof.
  intros Hc Hq Hs Hx Hr. rewrite <- Rsum_const, <- Rsum_scal. apply Rsum_le.
  intros j Hj. apply Ls_lower; auto.
Qed.

(** one block shrinks the spread of (inflow P) / P *)
Definition between (a b : R) (P : Z -> R) : Prop :=
  forall k, In k K -> a * P k <= inflow P k <= b * P k.

Lemma block_shrinks c m a b (x y : Z -> R) ss : 0 < c <= 1 -> (forall i k, edge i k -> c <= q i k) ->
  length ss = m -> (forall s, In s ss -> c <= s <= 1) ->
  (forall j k, In j K -> In k K -> reach m j k) ->
  (forall k, In k K -> 0 < x k) ->
  (forall k, In k K -> a * x k <= y k <= b * x k) ->
  let eps := c ^ m / INR (length K) / 2 ^ m in
  exists a' b', b' - a' <= (1 - eps) * (b - a) /\
    forall k, In k K -> a' * Ls ss x k <= Ls ss y k <= b' * Ls ss x k.
Proof.
  intros Hc Hq Hm Hs Hr Hx Hy eps.
  assert (Hs0 : forall s, In s ss -> c <= s) by (intros s H0; apply Hs in H0; lra).
  assert (Hs1 : forall s, In s ss -> 0 <= s <= 1) by (intros s H0; apply Hs in H0; lra).
  assert (Hx0 : forall k, In k K -> 0 <= x k) by (intros; left; auto).
  set (SX := Rsum x K). assert (HSX : 0 < SX) by (apply Rsum_pos; auto).
  assert (Hn : 0 < INR (length K)) by (apply lt_0_INR; destruct K; [congruence | simpl; lia]).
  assert (H2m : 0 < 2 ^ m) by (apply pow_lt; lra).
  assert (Hcm : 0 < c ^ m) by (apply pow_lt; lra).
  set (u := fun i => 1 * y i + (- a) * x i). set (v := fun i => b * x i + (-1) * y i).
  set (al := Rsum u K). set (be := Rsum v K).
  assert (Hu : forall k, In k K -> 0 <= u k) by (intros k Hk; unfold u; destruct (Hy k Hk); lra).
  assert (Hv : forall k, In k K -> 0 <= v k) by (intros k Hk; unfold v; destruct (Hy k Hk); lra).
  assert (Hab : al + be = (b - a) * SX).
  { unfold al, be, SX. rewrite <- Rsum_plus, <- Rsum_scal. apply Rsum_ext. intros; unfold u, v; ring. }
  assert (Hal : 0 <= al) by (apply Rsum_nonneg; auto).
  assert (Hbe : 0 <= be) by (apply Rsum_nonneg; auto).
  exists (a + eps * (al / SX)), (b - eps * (be / SX)). split.
  { replace (b - eps * (be / SX) - (a + eps * (al / SX))) with ((b - a) - eps * ((al + be) / SX)) by (field; lra).
    rewrite Hab. right. field. lra. }
  assert (Gen : forall w, (forall k, In k K -> 0 <= w k) -> forall k, In k K ->
                  eps * (Rsum w K / SX) * Ls ss x k <= Ls ss w k).
  { intros w Hw k Hk.
    pose proof (Ls_lower_sum c ss w k ltac:(lra) Hq Hs0 Hw ltac:(intros; rewrite Hm; auto)) as Lw.
    pose proof (Ls_upper ss x k Hs1 Hx0 Hk) as Ux. rewrite Hm in Lw, Ux. fold SX in Ux.
    assert (Hw0 : 0 <= Rsum w K) by (apply Rsum_nonneg; auto).
    assert (0 <= eps * (Rsum w K / SX)).
    { unfold eps. apply Rmult_le_pos.
      - unfold Rdiv. repeat apply Rmult_le_pos; try lra; left; apply Rinv_0_lt_compat; lra.
      - unfold Rdiv. apply Rmult_le_pos; [exact Hw0|]. left; apply Rinv_0_lt_compat; lra. }
    eapply Rle_trans; [apply Rmult_le_compat_l; [assumption | exact Ux]|].
    replace (eps * (Rsum w K / SX) * (2 ^ m * SX)) with (/ INR (length K) * (c ^ m * Rsum w K))
      by (unfold eps; field; lra).
    apply Rmult_le_reg_l with (INR (length K)); [exact Hn|].
    rewrite <- Rmult_assoc, Rinv_r, Rmult_1_l by lra. exact Lw. }
  intros k Hk. split.
  - pose proof (Gen u Hu k Hk) as G1. fold al in G1.
    assert (Eu : Ls ss u k = 1 * Ls ss y k + (- a) * Ls ss x k) by (apply Ls_lin; auto).
    rewrite Eu in G1. lra.
  - pose proof (Gen v Hv k Hk) as G1. fold be in G1.
    assert (Ev : Ls ss v k = b * Ls ss x k + (-1) * Ls ss y k) by (apply Ls_lin; auto).
    rewrite Ev in G1. lra.
Qed.

(** [m] damped steps are a positive multiple of a product of [L]s *)
Lemma steps_Ls c m : 0 < c -> (forall P, dist P -> c <= Ttot P) -> (exists i k, edge i k) ->
  forall P, dist P -> exists ss g, length ss = m /\ 0 < g /\ (forall s, In s ss -> c <= s <= 1) /\
    forall k, In k K -> steps m P k = g * Ls ss P k.
Proof.
  intros Hc HT He. induction m as [|m IH]; intros P HP.
  - exists [], 1. split; [reflexivity|]. split; [lra|]. split; [intros ? []|]. intros; simpl; ring.
  - destruct (IH (step P)) as (ss & g & Hl & Hg & Hs & E); [apply step_dist; auto|].
    pose proof (HT P HP) as HTP.
    assert (HT1 : Ttot P <= 1).
    { destruct HP as [Hp Hsum]. rewrite <- Hsum. apply Ttot_le. intros; left; auto. }
    exists (ss ++ [Ttot P]), (g / (2 * Ttot P)). split; [rewrite app_length, Hl; simpl; lia|].
    split; [apply Rdiv_lt_0_compat; lra|]. split.
    { intros s Hin. apply in_app_iff in Hin. destruct Hin as [Hin|[<-|[]]]; auto. }
    intros k Hk. simpl steps. rewrite E by exact Hk.
    assert (Eapp : Ls (ss ++ [Ttot P]) P k = Ls ss (L (Ttot P) P) k).
    { clear. induction ss as [|s ss IH] in k |- *; simpl; [reflexivity|].
      unfold L at 1. rewrite IH. unfold L at 2. f_equal. apply inflow_ext. intros; apply IH. }
    rewrite Eapp.
    rewrite (Ls_ext ss (step P) (fun i => / (2 * Ttot P) * L (Ttot P) P i + 0 * P i)).
    + rewrite Ls_lin by exact Hk. field. lra.
    + intros i Hi. unfold step, L. field. lra.
    + exact Hk.
Qed.

Lemma steps_add n m P k : steps (n + m) P k = steps m (steps n P) k.
Proof. revert P. induction n; simpl; intros; auto. Qed.

Theorem converges P0 eta : dist P0 -> 0 < eta -> (exists i k, edge i k) ->
  (forall n, In n K -> 0 < stay n) ->
  exists n, Rsum (fun k => Rabs (steps n P0 k - step (steps n P0) k)) K <= eta.
Proof.
  intros HP0 Heta He Hstay.
  destruct q_min as (c1 & Hc1 & Hq1). destruct (min_pos stay K) as (c2 & Hc2 & Hq2).
  set (c := Rmin c1 c2).
  assert (Hc : 0 < c <= 1).
  { unfold c. split; [apply Rmin_glb_lt; lra|]. eapply Rle_trans; [apply Rmin_l | lra]. }
  assert (Hq : forall i k, edge i k -> c <= q i k).
  { intros i k E. eapply Rle_trans; [apply Rmin_l | auto]. }
  assert (HT : forall P, dist P -> c <= Ttot P).
  { intros P [Hp Hs]. rewrite Ttot_stay. rewrite <- (Rmult_1_r c), <- Hs, <- Rsum_scal.
    apply Rsum_le. intros n Hn. apply Rmult_le_compat_r; [left; auto|].
    eapply Rle_trans; [apply Rmin_r | auto]. }
  destruct diameter as [m Hm].
  set (eps := c ^ m / INR (length K) / 2 ^ m).
  assert (Hn : 1 <= INR (length K)).
  { change 1 with (INR 1). apply le_INR. destruct K; [congruence | simpl; lia]. }
  assert (Heps : 0 < eps <= 1).
  { assert (0 < c ^ m) by (apply pow_lt; lra).
    assert (c ^ m <= 1) by (rewrite <- (pow1 m); apply pow_incr; lra).
    assert (1 <= 2 ^ m) by (apply pow_R1_Rle; lra).
    unfold eps. split.
    - repeat apply Rdiv_lt_0_compat; lra.
    - apply Rmult_le_reg_r with (2 ^ m); [lra|]. unfold Rdiv at 1. rewrite Rmult_assoc, Rinv_l by lra.
      apply Rmult_le_reg_r with (INR (length K)); [lra|]. unfold Rdiv.
      rewrite Rmult_1_r, Rmult_assoc, Rinv_l by lra. nra. }
  (* spread after j blocks *)
  destruct (min_pos P0 K) as (p0 & Hp0 & Hpm).
  assert (Hj : forall j, exists a b, b - a <= (1 - eps) ^ j * (/ p0) /\ between a b (steps (j * m) P0)).
  { induction j as [|j (a & b & Hw & Hb)].
    - exists 0, (/ p0). split; [simpl; lra|]. intros k Hk. simpl. destruct HP0 as [Hpp Hps].
      rewrite Rmult_0_l. split; [apply inflow_nonneg; auto; intros; left; auto|].
      assert (inflow P0 k <= 1).
      { rewrite <- Hps. eapply Rle_trans; [|apply Ttot_le; intros; left; auto].
        apply (Rsum_ge_elem (inflow P0)); auto. intros; apply inflow_nonneg; auto. intros; left; auto. }
      assert (p0 <= P0 k) by (apply Hpm; auto).
      apply Rle_trans with 1; [lra|]. apply Rmult_le_reg_l with p0; [lra|].
      rewrite <- Rmult_assoc, Rinv_r, Rmult_1_l, Rmult_1_r by lra. lra.
    - assert (Hd : dist (steps (j * m) P0)) by (apply steps_dist; auto).
      destruct (steps_Ls c m ltac:(lra) HT He _ Hd) as (ss & g & Hl & Hg & Hs & E).
      destruct (block_shrinks c m a b _ (inflow (steps (j * m) P0)) ss Hc Hq Hl Hs Hm (proj1 Hd) Hb)
        as (a' & b' & Hw' & Hb').
      fold eps in Hw'. exists a', b'. split.
      + simpl. eapply Rle_trans; [exact Hw'|]. rewrite Rmult_assoc. apply Rmult_le_compat_l; lra.
      + replace (S j * m)%nat with (j * m + m)%nat by lia. intros k Hk.
        assert (E2 : forall i, In i K -> steps (j * m + m) P0 i = g * Ls ss (steps (j * m) P0) i).
        { intros i Hi. rewrite steps_add. apply E; exact Hi. }
        rewrite (inflow_ext _ (fun i => g * Ls ss (steps (j * m) P0) i + 0 * P0 i) k)
          by (intros i Hi; rewrite E2 by exact Hi; ring).
        rewrite inflow_lin, (E2 k Hk), <- Ls_inflow by exact Hk.
        destruct (Hb' k Hk) as [B1 B2].
        assert (g * (a' * Ls ss (steps (j * m) P0) k) <= g * Ls ss (inflow (steps (j * m) P0)) k)
          by (apply Rmult_le_compat_l; lra).
        assert (g * Ls ss (inflow (steps (j * m) P0)) k <= g * (b' * Ls ss (steps (j * m) P0) k))
          by (apply Rmult_le_compat_l; lra). lra. }
  (* choose j *)
  assert (Hlim : exists j, (1 - eps) ^ j * / p0 <= 2 * c * eta).
  { assert (Hpow : Rabs (1 - eps) < 1) by (rewrite Rabs_pos_eq; lra).
    destruct (pow_lt_1_zero (1 - eps) Hpow (2 * c * eta * p0)) as [j Hjj].
    { repeat apply Rmult_lt_0_compat; lra. }
    exists j. specialize (Hjj j (le_n j)). rewrite Rabs_pos_eq in Hjj by (apply pow_le; lra).
    apply Rmult_le_reg_r with p0; [lra|]. rewrite Rmult_assoc, Rinv_l by lra. lra. }
  destruct Hlim as [j Hjl]. destruct (Hj j) as (a & b & Hw & Hb).
  exists (j * m)%nat. set (P := steps (j * m) P0) in *.
  assert (Hd : dist P) by (apply steps_dist; auto). destruct Hd as [Hpp Hps].
  pose proof (HT P (conj Hpp Hps)) as HTP.
  assert (HaT : a <= Ttot P).
  { unfold Ttot. rewrite <- (Rmult_1_r a), <- Hps, <- Rsum_scal. apply Rsum_le. intros; apply Hb; auto. }
  assert (HbT : Ttot P <= b).
  { unfold Ttot. rewrite <- (Rmult_1_r b), <- Hps, <- Rsum_scal. apply Rsum_le. intros; apply Hb; auto. }
  apply Rle_trans with (Rsum (fun k => eta * P k) K); [|rewrite Rsum_scal, Hps; lra].
  apply Rsum_le. intros k Hk. unfold step. destruct (Hb k Hk) as [B1 B2]. specialize (Hpp k Hk).
  replace (P k - (inflow P k / Ttot P + P k) / 2) with ((Ttot P * P k - inflow P k) / (2 * Ttot P)) by (field; lra).
  unfold Rdiv. rewrite Rabs_mult, (Rabs_pos_eq (/ (2 * Ttot P))) by (left; apply Rinv_0_lt_compat; lra).
  assert (Habs : Rabs (Ttot P * P k - inflow P k) <= (b - a) * P k).
  { apply Rabs_le. assert (Ttot P * P k <= b * P k) by (apply Rmult_le_compat_r; lra).
    assert (a * P k <= Ttot P * P k) by (apply Rmult_le_compat_r; lra). lra. }
  apply Rmult_le_reg_r with (2 * Ttot P); [lra|]. rewrite Rmult_assoc, Rinv_l, Rmult_1_r by lra.
  eapply Rle_trans; [exact Habs|].
  apply Rle_trans with (2 * c * eta * P k); [apply Rmult_le_compat_r; lra|].
  replace (eta * P k * (2 * Ttot P)) with (2 * Ttot P * eta * P k) by ring.
  apply Rmult_le_compat_r; [lra|]. apply Rmult_le_compat_r; lra.
Qed.
End ME.
