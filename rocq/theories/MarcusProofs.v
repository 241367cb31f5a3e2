(** * Proofs about Marcus rates *)
From Coq Require Import Reals Lra Psatz.
From Verif Require Import MarcusModel.
Open Scope R_scope.

Lemma pow10_pos n : 0 < 10 ^ n.
Proof. apply pow_lt; lra. Qed.
Lemma k_B_pos : 0 < k_B.
Proof. unfold k_B. apply Rdiv_lt_0_compat; [lra|apply pow10_pos]. Qed.
Lemma SRk_B_pos : 0 < SRk_B.
Proof. unfold SRk_B. apply Rdiv_lt_0_compat; [lra|apply pow10_pos]. Qed.
Lemma h_bar_pos : 0 < h_bar.
Proof. unfold h_bar. apply Rdiv_lt_0_compat; [lra|apply pow10_pos]. Qed.
Lemma PI_c_pos : 0 < PI_c.
Proof. unfold PI_c. apply Rdiv_lt_0_compat; [lra|apply pow10_pos]. Qed.
Lemma SRPI_pos : 0 < SRPI.
Proof. unfold SRPI. apply Rdiv_lt_0_compat; [lra|apply pow10_pos]. Qed.

Lemma pre_pos lambda T : 0 < T -> 0 < m_pre_factor (marcus_new lambda T).
Proof.
  intros HT. simpl.
  pose proof PI_c_pos; pose proof h_bar_pos; pose proof SRPI_pos; pose proof SRk_B_pos.
  pose proof (sqrt_lt_R0 T HT).
  assert (0 < 2 * PI_c / h_bar) by (apply Rdiv_lt_0_compat; lra).
  apply Rdiv_lt_0_compat; [lra|].
  repeat apply Rmult_lt_0_compat; lra.
Qed.

Lemma denom_pos lambda T : 0 < lambda -> 0 < T -> 0 < m_expon_denom (marcus_new lambda T).
Proof.
  intros. simpl. pose proof k_B_pos. repeat apply Rmult_lt_0_compat; lra.
Qed.

(** rate as a function of x = lambda + E_j - E_i *)
Lemma rate_shape lambda T Ei Ej H :
  marcus_getRate (marcus_new lambda T) Ei Ej H =
  m_pre_factor (marcus_new lambda T) * (H * H) *
  exp (- ((lambda + Ej - Ei) * (lambda + Ej - Ei)) / m_expon_denom (marcus_new lambda T)).
Proof.
  unfold marcus_getRate. simpl m_lambda.
  replace (-1 * ((lambda + Ej - Ei) * (lambda + Ej - Ei)))
    with (- ((lambda + Ej - Ei) * (lambda + Ej - Ei))) by ring.
  ring.
Qed.

Lemma detailed_balance lambda T Ei Ej H : 0 < lambda -> 0 < T ->
  marcus_getRate (marcus_new lambda T) Ei Ej H =
  marcus_getRate (marcus_new lambda T) Ej Ei H * exp (- (Ej - Ei) / (k_B * T)).
Proof.
  intros HL HT. rewrite !rate_shape.
  etransitivity; [|symmetry; apply Rmult_assoc]. rewrite <- exp_plus. f_equal. f_equal.
  simpl. pose proof k_B_pos. field. repeat split; lra.
Qed.

Lemma sqr_pos H : H <> 0 -> 0 < H * H.
Proof. intros. apply Rsqr_pos_lt; assumption. Qed.

Lemma rate_positive lambda T Ei Ej H : 0 < T -> H <> 0 ->
  0 < marcus_getRate (marcus_new lambda T) Ei Ej H.
Proof.
  intros HT HH. rewrite rate_shape. apply Rmult_lt_0_compat; [|apply exp_pos].
  apply Rmult_lt_0_compat; [apply pre_pos; assumption|apply sqr_pos; assumption].
Qed.

Lemma rate_zero lambda T Ei Ej : marcus_getRate (marcus_new lambda T) Ei Ej 0 = 0.
Proof. rewrite rate_shape. ring. Qed.

Lemma rate_sign lambda T Ei Ej H :
  marcus_getRate (marcus_new lambda T) Ei Ej (- H) = marcus_getRate (marcus_new lambda T) Ei Ej H.
Proof. rewrite !rate_shape. replace (- H * - H) with (H * H) by ring. reflexivity. Qed.

Lemma rate_shift lambda T Ei Ej H c :
  marcus_getRate (marcus_new lambda T) (Ei + c) (Ej + c) H = marcus_getRate (marcus_new lambda T) Ei Ej H.
Proof. rewrite !rate_shape. replace (lambda + (Ej + c) - (Ei + c)) with (lambda + Ej - Ei) by ring. reflexivity. Qed.

Lemma sqr_lt_abs a b : Rabs a < Rabs b -> a * a < b * b.
Proof. intros. apply Rsqr_lt_abs_1 in H. exact H. Qed.

Lemma rate_monotone lambda T Ei Ej Ei' Ej' H : 0 < lambda -> 0 < T -> H <> 0 ->
  Rabs ((Ej - Ei) + lambda) < Rabs ((Ej' - Ei') + lambda) ->
  marcus_getRate (marcus_new lambda T) Ei' Ej' H < marcus_getRate (marcus_new lambda T) Ei Ej H.
Proof.
  intros HL HT HH Hlt. rewrite !rate_shape.
  apply Rmult_lt_compat_l.
  - apply Rmult_lt_0_compat; [apply pre_pos; assumption|apply sqr_pos; assumption].
  - apply exp_increasing. apply sqr_lt_abs in Hlt.
    pose proof (denom_pos lambda T HL HT) as HD.
    apply Rmult_lt_compat_r; [apply Rinv_0_lt_compat; exact HD|].
    replace (lambda + Ej - Ei) with (Ej - Ei + lambda) by ring.
    replace (lambda + Ej' - Ei') with (Ej' - Ei' + lambda) by ring. lra.
Qed.

Lemma rate_max lambda T Ei Ej Ei' Ej' H : 0 < lambda -> 0 < T -> H <> 0 ->
  Ej - Ei = - lambda ->
  marcus_getRate (marcus_new lambda T) Ei' Ej' H <= marcus_getRate (marcus_new lambda T) Ei Ej H /\
  (marcus_getRate (marcus_new lambda T) Ei' Ej' H = marcus_getRate (marcus_new lambda T) Ei Ej H ->
   Ej' - Ei' = - lambda).
Proof.
  intros HL HT HH E.
  destruct (Req_dec (Ej' - Ei' + lambda) 0) as [Z|Z].
  - assert (E' : Ej' - Ei' = - lambda) by lra. split; [|auto].
    apply Req_le. rewrite !rate_shape.
    replace (lambda + Ej' - Ei') with 0 by lra. replace (lambda + Ej - Ei) with 0 by lra. reflexivity.
  - assert (marcus_getRate (marcus_new lambda T) Ei' Ej' H < marcus_getRate (marcus_new lambda T) Ei Ej H).
    { apply rate_monotone; auto. replace (Ej - Ei + lambda) with 0 by lra. rewrite Rabs_R0.
      apply Rabs_pos_lt; exact Z. }
    split; lra.
Qed.

(** The constants are consistent: the prefactor is the documented
    2 pi / h_bar / sqrt(4 pi k_B T) up to a relative error of 1e-9. *)
Lemma prefactor_documented lambda T : 0 < T ->
  Rabs (m_pre_factor (marcus_new lambda T) / (2 * PI_c / h_bar / sqrt (4 * PI_c * k_B * T)) - 1) <= / 10 ^ 9.
Proof.
  intros HT. simpl m_pre_factor.
  pose proof PI_c_pos; pose proof h_bar_pos; pose proof SRPI_pos; pose proof SRk_B_pos; pose proof k_B_pos.
  pose proof (sqrt_lt_R0 T HT) as HsT.
  assert (Hs : sqrt (4 * PI_c * k_B * T) = 2 * sqrt (PI_c * k_B) * sqrt T).
  { replace (4 * PI_c * k_B * T) with ((2 * 2) * ((PI_c * k_B) * T)) by ring.
    rewrite sqrt_mult_alt by lra. rewrite sqrt_square by lra.
    rewrite sqrt_mult_alt. { ring. } apply Rlt_le, Rmult_lt_0_compat; assumption. }
  rewrite Hs.
  assert (Hq : 0 < sqrt (PI_c * k_B)) by (apply sqrt_lt_R0, Rmult_lt_0_compat; assumption).
  replace (2 * PI_c / h_bar * 1 / (SRPI * 2 * SRk_B * sqrt T) /
    (2 * PI_c / h_bar / (2 * sqrt (PI_c * k_B) * sqrt T))) with (sqrt (PI_c * k_B) / (SRPI * SRk_B)).
  2:{ field. repeat split; lra. }
  assert (HP : 0 < SRPI * SRk_B) by (apply Rmult_lt_0_compat; assumption).
  assert (Hsq : sqrt (PI_c * k_B) * sqrt (PI_c * k_B) = PI_c * k_B).
  { apply sqrt_sqrt. apply Rlt_le, Rmult_lt_0_compat; assumption. }
  assert (Lo : (SRPI * SRk_B) * (1 - / 10 ^ 9) <= sqrt (PI_c * k_B)).
  { apply Rsqr_incr_0_var; [|lra]. unfold Rsqr. rewrite Hsq.
    unfold SRPI, SRk_B, PI_c, k_B. simpl. lra. }
  assert (Hi : sqrt (PI_c * k_B) <= (SRPI * SRk_B) * (1 + / 10 ^ 9)).
  { apply Rsqr_incr_0_var.
    - unfold Rsqr. rewrite Hsq. unfold SRPI, SRk_B, PI_c, k_B. simpl. lra.
    - apply Rmult_le_pos; [lra|]. assert (0 < / 10 ^ 9) by (apply Rinv_0_lt_compat, pow10_pos). lra. }
  apply Rabs_le. split.
  - apply Rplus_le_reg_r with 1. replace (sqrt (PI_c * k_B) / (SRPI * SRk_B) - 1 + 1)
      with (sqrt (PI_c * k_B) / (SRPI * SRk_B)) by ring.
    apply Rmult_le_reg_r with (SRPI * SRk_B); [exact HP|].
    unfold Rdiv at 1. rewrite Rmult_assoc, Rinv_l by lra. lra.
  - apply Rplus_le_reg_r with 1. replace (sqrt (PI_c * k_B) / (SRPI * SRk_B) - 1 + 1)
      with (sqrt (PI_c * k_B) / (SRPI * SRk_B)) by ring.
    apply Rmult_le_reg_r with (SRPI * SRk_B); [exact HP|].
    unfold Rdiv at 1. rewrite Rmult_assoc, Rinv_l by lra. lra.
Qed.
