(** * Model of the time of flight example: its rates
    examples/ToF/ToF_example.cpp (line numbers below)

    Simplifications: doubles are real numbers; the literals of the example
    (cutoff, lambda, temperature, alpha, A, field, charge) are parameters; the
    energies are given instead of drawn (24-38); printing is left out. *)
From Coq Require Import ZArith List Bool Reals.
From Verif Require Import Base Num SiteSpec MarcusModel LatticeModel.
Import ListNotations.
Open Scope Z_scope.

(** literals of calculateRates, 44-54 *)
Record recipe := mkRecipe {
  t_cutoff : R; t_lambda : R; t_temp : R; t_alpha : R; t_coupling : R; t_field : R; t_charge : R }.

(** std::vector<double>::at *)
Definition vec_at (l : list R) (i : Z) : res R :=
  if i <? 0 then Err OutOfRange
  else match nth_error l (Z.to_nat i) with Some e => Ok e | None => Err OutOfRange end.

Section Tof.
Context {I : Impl}.
Variable P : recipe.
Variable la : @lattice XR.
Variable energies : list R.

(** body of the inner loop, 63-74 *)
Definition tof_pair (i xi : Z) (ei : R) (m : umap (umap (@num XR))) (v : Z * @num XR) : res (umap (umap (@num XR))) :=
  let j := fst v in
  xj <-! l_getX la j;
  dx <-! chk (xj - xi);
  let x_diff_dist := (IZR dx * realv (l_spacing la))%R in
  e <-! vec_at energies j;
  let ej := (e - t_field P * x_diff_dist * t_charge P)%R in
  let r_ij := realv (snd v) in
  let h_ab := (t_coupling P * exp (-1 * t_alpha P * r_ij))%R in
  let marcus := marcus_new (t_lambda P) (t_temp P) in
  let rate_ij := marcus_getRate marcus ei ej h_ab in
  let rate_ji := marcus_getRate marcus ej ei h_ab in
  Ok (tab_set (tab_set m i j (Fin rate_ij)) j i (Fin rate_ji)).
Fixpoint tof_row (i xi : Z) (ei : R) (m : umap (umap (@num XR))) (l : umap (@num XR)) : res (umap (umap (@num XR))) :=
  match l with
  | [] => Ok m
  | v :: r => m' <-! tof_pair i xi ei m v; tof_row i xi ei m' r
  end.
(** the outer loop, 59-75 *)
Fixpoint tof_rows (m : umap (umap (@num XR))) (t : umap (umap (@num XR))) : res (umap (umap (@num XR))) :=
  match t with
  | [] => Ok m
  | (i, l) :: r =>
      xi <-! l_getX la i;
      ei <-! vec_at energies i;
      m' <-! tof_row i xi ei m l;
      tof_rows m' r
  end.
(** calculateRates, 40-77 *)
Definition tof_rates : res (umap (umap (@num XR))) :=
  distances <-! l_distanceTable la (Fin (t_cutoff P));
  tof_rows [] distances.
End Tof.
