(** * Model of mythical::charge_transport::Marcus
    src/libmythical/charge_transport/marcus.cpp, include/mythical/constants.hpp

    Simplification: doubles are real numbers (no rounding, no underflow of
    exp); the decimal constants are taken at face value; pow(x,2.0) is x*x and
    pow(T,0.5) is the square root. *)
From Coq Require Import Reals.
Open Scope R_scope.

(** constants.hpp:14 *)
Definition k_B : R := 8617333262145 / 10 ^ 17.
(** constants.hpp:16 *)
Definition SRk_B : R := 9282959260 / 10 ^ 12.
(** constants.hpp:18 *)
Definition h_bar : R := 6582119569 / 10 ^ 25.
(** constants.hpp:20 *)
Definition PI_c : R := 314159265359 / 10 ^ 11.
(** constants.hpp:22 *)
Definition SRPI : R := 177245385091 / 10 ^ 11.

(** marcus.hpp:42-48 *)
Record marcus := mkMarcus { m_lambda : R; m_expon_denom : R; m_pre_factor : R }.

(** marcus.cpp:11-14 *)
Definition marcus_new (lambda T : R) : marcus := {|
  m_lambda := lambda;
  m_expon_denom := 4 * lambda * k_B * T;
  m_pre_factor := 2 * PI_c / h_bar * 1 / (SRPI * 2 * SRk_B * sqrt T)
|}.

(** marcus.cpp:16-19 *)
Definition marcus_getRate (m : marcus) (E_i E_j H_AB : R) : R :=
  m_pre_factor m * H_AB * H_AB *
  exp (-1 * ((m_lambda m + E_j - E_i) * (m_lambda m + E_j - E_i)) / m_expon_denom m).
