(** * B53: the [Num] instance of doubles without limits on the exponent

    Binary floating point numbers with 53 significant bits, rounded to the
    nearest, ties to even, as doubles are, but with any exponent: no overflow, no
    subnormal numbers.  B53Proofs.v proves that the operations round correctly and
    that doubles do the same wherever they neither overflow nor underflow.  As in
    the instance of real numbers there is one zero, and the sign of a zero
    denominator is taken as +.  The square root and the logarithm of the C library
    are parameters. *)
From Coq Require Import ZArith List Bool.
From Verif Require Import Base Num F64.
Open Scope Z_scope.

(** [BF neg m e] is m * 2^e with a sign *)
Inductive bf := BZ | BF (neg : bool) (m : positive) (e : Z) | BInf (neg : bool) | BNaN.

Definition digits (p : positive) : Z := Zpos (Pos.size p).
(** p / q * 2^e rounded: [s] is the exponent for which p / (q * 2^s) has 53
    digits before the point *)
Definition rnd_q (neg : bool) (p q : positive) (e : Z) : bf :=
  let d := digits p - digits q in
  let top := if (if 0 <=? d then Zpos q * 2 ^ d <=? Zpos p else Zpos q <=? Zpos p * 2 ^ (- d)) then d + 1 else d in
  let s := top - 53 in
  let n := if 0 <=? s then Zpos p else Zpos p * 2 ^ (- s) in
  let k := if 0 <=? s then Zpos q * 2 ^ s else Zpos q in
  let w := n / k in
  let r := n mod k in
  BF neg (Z.to_pos (match 2 * r ?= k with Lt => w | Gt => w + 1 | Eq => if Z.even w then w else w + 1 end)) (e + s).
(** z * 2^e rounded *)
Definition rnd_z (z e : Z) : bf :=
  match z with Z0 => BZ | Zpos p => rnd_q false p 1 e | Zneg p => rnd_q true p 1 e end.

Definition bsgn (neg : bool) (m : positive) : Z := if neg then Zneg m else Zpos m.
Definition bopp (x : bf) : bf :=
  match x with BF n m e => BF (negb n) m e | BInf n => BInf (negb n) | _ => x end.
Definition badd (x y : bf) : bf :=
  match x, y with
  | BNaN, _ | _, BNaN => BNaN
  | BInf a, BInf b => if Bool.eqb a b then BInf a else BNaN
  | BInf a, _ => BInf a
  | _, BInf b => BInf b
  | BZ, BZ => BZ
  | BZ, BF n m e => rnd_z (bsgn n m) e
  | BF n m e, BZ => rnd_z (bsgn n m) e
  | BF n m e, BF n' m' e' =>
      let l := Z.min e e' in rnd_z (bsgn n m * 2 ^ (e - l) + bsgn n' m' * 2 ^ (e' - l)) l
  end.
Definition bsub (x y : bf) : bf := badd x (bopp y).
Definition bmul (x y : bf) : bf :=
  match x, y with
  | BNaN, _ | _, BNaN => BNaN
  | BZ, BInf _ | BInf _, BZ => BNaN
  | BZ, _ | _, BZ => BZ
  | BInf a, BInf b | BInf a, BF b _ _ | BF a _ _, BInf b => BInf (xorb a b)
  | BF a m e, BF b m' e' => rnd_q (xorb a b) (m * m') 1 (e + e')
  end.
Definition bdiv (x y : bf) : bf :=
  match x, y with
  | BNaN, _ | _, BNaN => BNaN
  | BInf _, BInf _ => BNaN
  | BInf a, BF b _ _ => BInf (xorb a b)
  | BInf a, BZ => BInf a
  | _, BInf _ => BZ
  | BZ, BZ => BNaN
  | BZ, BF _ _ _ => BZ
  | BF a _ _, BZ => BInf a
  | BF a m e, BF b m' e' => rnd_q (xorb a b) m m' (e - e')
  end.

(** comparison; none with NaN *)
Definition bcmp (x y : bf) : option comparison :=
  match x, y with
  | BNaN, _ | _, BNaN => None
  | BInf a, BInf b => Some (if Bool.eqb a b then Eq else if a then Lt else Gt)
  | BInf a, _ => Some (if a then Lt else Gt)
  | _, BInf b => Some (if b then Gt else Lt)
  | BZ, BZ => Some Eq
  | BZ, BF n _ _ => Some (if n then Gt else Lt)
  | BF n _ _, BZ => Some (if n then Lt else Gt)
  | BF n m e, BF n' m' e' => let l := Z.min e e' in Some (bsgn n m * 2 ^ (e - l) ?= bsgn n' m' * 2 ^ (e' - l))
  end.
Definition bltb (x y : bf) : bool := match bcmp x y with Some Lt => true | _ => false end.
Definition beqb (x y : bf) : bool := match bcmp x y with Some Eq => true | _ => false end.
Definition bleb (x y : bf) : bool := match bcmp x y with Some Lt | Some Eq => true | _ => false end.

Definition b_int (g : Z -> Z -> Z) (x : bf) : bf :=
  match x with BF n m e => if 0 <=? e then x else rnd_z (g (bsgn n m) e) 0 | _ => x end.
Definition b_trunc (x : bf) : option Z :=
  match x with
  | BZ => Some 0
  | BF n m e => if in_int (z_trunc (bsgn n m) e) then Some (z_trunc (bsgn n m) e) else None
  | _ => None
  end.
Definition b_ofZ (z : Z) : bf := rnd_z z 0.

Definition B53 (sqrtf lnf : bf -> bf) : Num := {|
  num := bf;
  nadd := badd; nsub := bsub; nmul := bmul; ndiv := bdiv;
  nltb := bltb; nleb := bleb; neqb := beqb;
  nofZ := b_ofZ;
  nlit := fun p q => bdiv (b_ofZ p) (b_ofZ (Zpos q));
  ndblmin := BF false (2 ^ 52) (-1074);
  nsqrt := sqrtf; nlog := lnf;
  nround := b_int z_round; nfloor := b_int z_floor; ntrunc := b_trunc
|}.
