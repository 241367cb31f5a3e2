(** * C13, C14, C52: Marcus rates (real arithmetic) *)
From Coq Require Import Reals Lra.
From Verif Require Import MarcusModel MarcusProofs.
Open Scope R_scope.

(** C13 *)
Theorem C13_detailed_balance :
  forall lambda T Ei Ej H, 0 < lambda -> 0 < T ->
    marcus_getRate (marcus_new lambda T) Ei Ej H =
    marcus_getRate (marcus_new lambda T) Ej Ei H * exp (- (Ej - Ei) / (k_B * T)).
Proof. exact detailed_balance. Qed.
Print Assumptions C13_detailed_balance.

Example C13_nonvacuous : 0 < 1 / 2 /\ 0 < 300.
Proof. lra. Qed.

(** C14 *)
Theorem C14_rate_positive :
  forall lambda T Ei Ej H, 0 < T -> H <> 0 ->
    0 < marcus_getRate (marcus_new lambda T) Ei Ej H.
Proof. exact rate_positive. Qed.
Print Assumptions C14_rate_positive.

Theorem C14_rate_zero_without_coupling :
  forall lambda T Ei Ej, marcus_getRate (marcus_new lambda T) Ei Ej 0 = 0.
Proof. exact rate_zero. Qed.
Print Assumptions C14_rate_zero_without_coupling.

Theorem C14_rate_even_in_coupling :
  forall lambda T Ei Ej H,
    marcus_getRate (marcus_new lambda T) Ei Ej (- H) = marcus_getRate (marcus_new lambda T) Ei Ej H.
Proof. exact rate_sign. Qed.
Print Assumptions C14_rate_even_in_coupling.

Theorem C14_rate_shift_invariant :
  forall lambda T Ei Ej H c,
    marcus_getRate (marcus_new lambda T) (Ei + c) (Ej + c) H = marcus_getRate (marcus_new lambda T) Ei Ej H.
Proof. exact rate_shift. Qed.
Print Assumptions C14_rate_shift_invariant.

(** strictly decreasing in the distance of Ej - Ei from -lambda, hence with an
    inverted region *)
Theorem C14_rate_decreases_away_from_peak :
  forall lambda T Ei Ej Ei' Ej' H, 0 < lambda -> 0 < T -> H <> 0 ->
    Rabs ((Ej - Ei) + lambda) < Rabs ((Ej' - Ei') + lambda) ->
    marcus_getRate (marcus_new lambda T) Ei' Ej' H < marcus_getRate (marcus_new lambda T) Ei Ej H.
Proof. exact rate_monotone. Qed.
Print Assumptions C14_rate_decreases_away_from_peak.

Theorem C14_rate_maximal_exactly_at_minus_lambda :
  forall lambda T Ei Ej Ei' Ej' H, 0 < lambda -> 0 < T -> H <> 0 ->
    Ej - Ei = - lambda ->
    marcus_getRate (marcus_new lambda T) Ei' Ej' H <= marcus_getRate (marcus_new lambda T) Ei Ej H /\
    (marcus_getRate (marcus_new lambda T) Ei' Ej' H = marcus_getRate (marcus_new lambda T) Ei Ej H ->
     Ej' - Ei' = - lambda).
Proof. exact rate_max. Qed.
Print Assumptions C14_rate_maximal_exactly_at_minus_lambda.

Example C14_nonvacuous :
  Rabs ((-1 - 0) + 1) < Rabs ((-3 - 0) + 1) /\ (-1 - 0) = - (1) /\ (1 : R) <> 0.
Proof.
  replace (-1 - 0 + 1) with 0 by lra. replace (-3 - 0 + 1) with (- (2)) by lra.
  rewrite Rabs_R0, Rabs_Ropp, Rabs_pos_eq by lra. lra.
Qed.

(** C52: the rounded constants give the documented prefactor up to 1e-9. *)
Theorem C52_prefactor_documented :
  forall lambda T, 0 < T ->
    Rabs (m_pre_factor (marcus_new lambda T) / (2 * PI_c / h_bar / sqrt (4 * PI_c * k_B * T)) - 1) <= / 10 ^ 9.
Proof. exact prefactor_documented. Qed.
Print Assumptions C52_prefactor_documented.

Example C52_nonvacuous : 0 < 300.
Proof. lra. Qed.
