(** * Num: the operations on [double] the library uses

    The models are written over this record, so that bookkeeping theorems
    hold for every arithmetic (in particular IEEE binary64 with all its
    rounding), while theorems about values are stated for the instance [XR]
    (Reals plus infinities and NaN) and rounding-dependent refutations for
    the instance [F64] (Coq's primitive binary64). *)
From Coq Require Import ZArith List Bool Reals Lra Lia.
From Verif Require Import Base.

Class Num := {
  num : Type;
  nadd : num -> num -> num;
  nsub : num -> num -> num;
  nmul : num -> num -> num;
  ndiv : num -> num -> num;
  nltb : num -> num -> bool;       (* x <  y, false on NaN *)
  nleb : num -> num -> bool;       (* x <= y, false on NaN *)
  neqb : num -> num -> bool;       (* x == y, false on NaN *)
  nofZ : Z -> num;                 (* static_cast<double>(int) and integer literals *)
  nlit : Z -> positive -> num;     (* a decimal literal written as a fraction *)
  ndblmin : num;                   (* std::numeric_limits<double>::min() *)
  nsqrt : num -> num;              (* std::pow(x, 0.5) *)
  nlog : num -> num;               (* log *)
  nround : num -> num;             (* std::round *)
  nfloor : num -> num;             (* std::floor *)
  ntrunc : num -> option Z         (* static_cast<int>; None when out of range (UB) *)
}.

Definition n0 `{Num} : num := nofZ 0.
Definition n1 `{Num} : num := nofZ 1.

(** ** Exact arithmetic with infinities and NaN

    IEEE 754 without rounding, overflow and signed zero (the sign of a zero
    denominator is taken as +). *)

Inductive xr := Fin (r : R) | PInf | NInf | XNaN.

Local Open Scope R_scope.

Definition Rltb (x y : R) : bool := if Rlt_dec x y then true else false.
Definition Rleb (x y : R) : bool := if Rle_dec x y then true else false.
Definition Reqb (x y : R) : bool := if Req_EM_T x y then true else false.

Definition xopp (x : xr) : xr :=
  match x with Fin r => Fin (- r) | PInf => NInf | NInf => PInf | XNaN => XNaN end.

Definition xadd (x y : xr) : xr :=
  match x, y with
  | Fin a, Fin b => Fin (a + b)
  | XNaN, _ | _, XNaN => XNaN
  | PInf, NInf | NInf, PInf => XNaN
  | PInf, _ | _, PInf => PInf
  | NInf, _ | _, NInf => NInf
  end.

Definition xsub (x y : xr) : xr := xadd x (xopp y).

(** infinity times a finite value *)
Definition xscale (r : R) (pos : bool) : xr :=
  if Reqb r 0 then XNaN
  else if Bool.eqb (Rltb 0 r) pos then PInf else NInf.

Definition xmul (x y : xr) : xr :=
  match x, y with
  | Fin a, Fin b => Fin (a * b)
  | XNaN, _ | _, XNaN => XNaN
  | Fin a, PInf | PInf, Fin a => xscale a true
  | Fin a, NInf | NInf, Fin a => xscale a false
  | PInf, PInf | NInf, NInf => PInf
  | PInf, NInf | NInf, PInf => NInf
  end.

Definition xdiv (x y : xr) : xr :=
  match x, y with
  | XNaN, _ | _, XNaN => XNaN
  | Fin a, Fin b =>
      if Reqb b 0 then (if Reqb a 0 then XNaN else if Rltb 0 a then PInf else NInf)
      else Fin (a / b)
  | Fin _, _ => Fin 0
  | PInf, Fin b => if Rltb b 0 then NInf else PInf
  | NInf, Fin b => if Rltb b 0 then PInf else NInf
  | _, _ => XNaN
  end.

Definition xltb (x y : xr) : bool :=
  match x, y with
  | XNaN, _ | _, XNaN => false
  | Fin a, Fin b => Rltb a b
  | NInf, NInf => false
  | NInf, _ => true
  | _, NInf => false
  | PInf, _ => false
  | Fin _, PInf => true
  end.

Definition xeqb (x y : xr) : bool :=
  match x, y with
  | Fin a, Fin b => Reqb a b
  | PInf, PInf => true
  | NInf, NInf => true
  | _, _ => false
  end.

Definition xleb (x y : xr) : bool := xltb x y || xeqb x y.

(** Largest integer not above [r]; rounding half away from zero; truncation. *)
Definition Rfloor (r : R) : Z := (up r - 1)%Z.
Definition Rround (r : R) : Z :=
  if Rle_dec 0 r then Rfloor (r + 1 / 2) else (- Rfloor (- r + 1 / 2))%Z.
Definition Rtrunc (r : R) : Z :=
  if Rle_dec 0 r then Rfloor r else (- Rfloor (- r))%Z.

Definition xsqrt (x : xr) : xr :=
  match x with
  | Fin r => if Rltb r 0 then XNaN else Fin (sqrt r)
  | PInf => PInf
  | _ => XNaN
  end.

Definition xlog (x : xr) : xr :=
  match x with
  | Fin r => if Rltb r 0 then XNaN else if Reqb r 0 then NInf else Fin (ln r)
  | PInf => PInf
  | _ => XNaN
  end.

Definition xround (x : xr) : xr :=
  match x with Fin r => Fin (IZR (Rround r)) | _ => x end.
Definition xfloor (x : xr) : xr :=
  match x with Fin r => Fin (IZR (Rfloor r)) | _ => x end.
Definition xtrunc (x : xr) : option Z :=
  match x with
  | Fin r => if in_int (Rtrunc r) then Some (Rtrunc r) else None
  | _ => None
  end.

(** 2^-1022 *)
Definition dbl_min : R := powerRZ 2 (-1022).

Definition XR : Num := {|
  num := xr;
  nadd := xadd; nsub := xsub; nmul := xmul; ndiv := xdiv;
  nltb := xltb; nleb := xleb; neqb := xeqb;
  nofZ := fun z => Fin (IZR z);
  nlit := fun p q => Fin (IZR p / IZR (Zpos q));
  ndblmin := Fin dbl_min;
  nsqrt := xsqrt; nlog := xlog;
  nround := xround; nfloor := xfloor; ntrunc := xtrunc
|}.
