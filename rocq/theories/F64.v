(** * F64: the [Num] instance with Coq's primitive IEEE 754 binary64 floats *)
From Coq Require Import ZArith List Bool Floats Uint63.
From Verif Require Import Base Num.
Open Scope Z_scope.

(** static_cast<double>(int): exact below 2^53 *)
Definition f_ofZ (z : Z) : float :=
  if z <? 0 then PrimFloat.opp (PrimFloat.of_uint63 (Uint63.of_Z (- z)))
  else PrimFloat.of_uint63 (Uint63.of_Z z).

(** exact value of a finite float as m * 2^e *)
Definition f_parts (x : float) : option (Z * Z) :=
  match Prim2SF x with
  | S754_zero _ => Some (0, 0)
  | S754_finite s m e => Some ((if s then Z.neg m else Z.pos m), e)
  | _ => None
  end.

Definition z_floor (m e : Z) : Z :=
  if e <? 0 then m / 2 ^ (- e) else m * 2 ^ e.
(** round half away from zero of m*2^e *)
Definition z_round (m e : Z) : Z :=
  if m <? 0 then - z_floor (2 * (- m) + (if e <? 0 then 2 ^ (- e) else 0)) (e - 1)
  else z_floor (2 * m + (if e <? 0 then 2 ^ (- e) else 0)) (e - 1).
Definition z_trunc (m e : Z) : Z := if m <? 0 then - z_floor (- m) e else z_floor m e.

(** values with |x| >= 2^52 are integers already *)
Definition f_int (g : Z -> Z -> Z) (x : float) : float :=
  match f_parts x with
  | Some (m, e) => if 0 <=? e then x else f_ofZ (g m e)
  | None => x
  end.

Definition f_trunc (x : float) : option Z :=
  match f_parts x with
  | Some (m, e) => if in_int (z_trunc m e) then Some (z_trunc m e) else None
  | None => None
  end.

(** [ln] is a parameter: the C library's log. *)
Definition F64 (lnf : float -> float) : Num := {|
  num := float;
  nadd := PrimFloat.add; nsub := PrimFloat.sub;
  nmul := PrimFloat.mul; ndiv := PrimFloat.div;
  nltb := PrimFloat.ltb; nleb := PrimFloat.leb; neqb := PrimFloat.eqb;
  nofZ := f_ofZ;
  nlit := fun p q => PrimFloat.div (f_ofZ p) (f_ofZ (Zpos q));
  ndblmin := PrimFloat.ldshiftexp 1%float (Uint63.of_Z (-1022 + FloatOps.shift));
  nsqrt := PrimFloat.sqrt; nlog := lnf;
  nround := f_int z_round; nfloor := f_int z_floor; ntrunc := f_trunc
|}.
