(** * Specification vocabulary for double arithmetic: real values and roundings *)
From Coq Require Import ZArith List Bool Reals Floats.
From Flocq Require Core BinarySingleNaN.
From Verif Require Import Base Num F64 RSum SiteModel.
Import ListNotations.
Open Scope R_scope.

(** the real number a double stands for; 0 for infinities and NaN *)
Definition fval (x : float) : R := BinarySingleNaN.SF2R Zaux.radix2 (Prim2SF x).

(** neither infinite nor NaN *)
Definition fin (x : float) : Prop := PrimFloat.is_finite x = true.

(** half a unit in the last place of 1: the largest relative error of one
    rounded operation *)
Definition uround : R := / IZR (2 ^ 53).

(** [y] is [x] up to [k] times the precision of a double, 2^-52, relatively *)
Definition near (k : nat) (x y : R) : Prop := Rabs (y - x) <= INR k * (2 * uround) * Rabs x.

(** a non-empty map with distinct neighbours and finite rates between 2^-400
    and 2^400, of at most 2^40 neighbours *)
Definition good_doubles (h : Z -> float) (rates : umap Z) : Prop :=
  rates <> [] /\ NoDup (ukeys rates) /\ (Z.of_nat (length rates) <= 2 ^ 40)%Z /\
  forall n a, In (n, a) rates ->
    fin (h a) /\ / IZR (2 ^ 400) <= fval (h a) <= IZR (2 ^ 400).

(** the exact sum of the rates of a map *)
Definition exact_total (h : Z -> float) (rates : umap Z) : R :=
  Rsum (fun e => fval (h (snd e))) rates.

(** the exact probability of hopping to the neighbour at [a] *)
Definition exact_prob (h : Z -> float) (rates : umap Z) (a : Z) : R :=
  fval (h a) / exact_total h rates.

(** the C library's log, correct to one unit in the last place at [u] *)
Definition log_correct (lnf : float -> float) (u : float) : Prop :=
  fin (lnf u) /\ near 1 (ln (fval u)) (fval (lnf u)).
