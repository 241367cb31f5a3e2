(** * Specification: numbers with 53 bits (C65) *)
From Flocq Require Import Core.
From Coq Require Import ZArith Reals Floats.
From Verif Require Import B53 FloatSpec.
Open Scope R_scope.

(** the value of a finite number *)
Definition bval (x : bf) : R :=
  match x with BF n m e => IZR (bsgn n m) * bpow radix2 e | _ => 0 end.
Definition bfin (x : bf) : Prop := match x with BZ | BF _ _ _ => True | _ => False end.
(** the nearest number with 53 bits, ties to even *)
Definition nearest53 (r : R) : R := round radix2 (FLX_exp 53) ZnearestE r.
(** a result that a double holds without overflow, and without underflow *)
Definition in_range (r : R) : Prop := r = 0 \/ (bpow radix2 (-1022) <= Rabs r /\ Rabs (nearest53 r) < bpow radix2 1024).
(** The double [x] has the same value as the number [b] *)
Definition same_value (x : float) (b : bf) : Prop := fin x /\ bfin b /\ fval x = bval b.
