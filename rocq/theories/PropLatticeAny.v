(** * Property theorems C11: getSmallestDistance on lattices of any size *)
From Coq Require Import ZArith List Bool Lia Reals Lra.
From Verif Require Import Base Num LatticeModel LatticeSpec LatticeExact LatticeAny.
Import ListNotations.
Open Scope Z_scope.

(** ** C11 *)
(** Full statement: getSmallestDistance is the smallest distance to any image.
    For every lattice that can be built, every boundary setting and every pair
    of sites: what is answered, and that nothing is if a step count or the sum
    of the squares leaves the range of int. *)
Theorem C11_any_size_partial :
  forall (la : @lattice XR), built la -> forall sp : R, l_spacing la = Fin sp ->
    forall i j x1 y1 z1 x2 y2 z2 nx ny,
      at_pos (l_len la) (l_wid la) (l_hei la) i x1 y1 z1 ->
      at_pos (l_len la) (l_wid la) (l_hei la) j x2 y2 z2 ->
      apart (l_xb la) (l_len la) x1 x2 nx -> apart (l_yb la) (l_wid la) y1 y2 ny ->
      let ux := stand_in (l_xb la) x2 nx in
      let uy := stand_in (l_yb la) y2 ny in
      let uz := stand_in_z (l_zb la) (l_hei la) y1 uy z2 in
      let fits := room (l_xb la) (l_len la) x1 x2 /\ room (l_yb la) (l_wid la) y1 y2 /\ room (l_zb la) (l_hei la) y1 uy /\
                  (x1 - ux) * (x1 - ux) + (y1 - uy) * (y1 - uy) + (z1 - uz) * (z1 - uz) <= INT_MAX in
      (fits -> l_getSmallestDistance la i j = Ok (Fin (euclid sp x1 y1 z1 ux uy uz))) /\
      (~ fits -> l_getSmallestDistance la i j = Bad Undefined).
Proof. exact smallest_any. Qed.
Print Assumptions C11_any_size_partial.

(** exactly when the answer is the smallest distance *)
Theorem C11_any_size_iff_partial :
  forall (la : @lattice XR), built la -> forall sp : R, l_spacing la = Fin sp -> (0 < sp)%R ->
    forall i j x1 y1 z1 x2 y2 z2 nx ny nz,
      at_pos (l_len la) (l_wid la) (l_hei la) i x1 y1 z1 ->
      at_pos (l_len la) (l_wid la) (l_hei la) j x2 y2 z2 ->
      apart (l_xb la) (l_len la) x1 x2 nx -> apart (l_yb la) (l_wid la) y1 y2 ny ->
      apart (l_zb la) (l_hei la) z1 z2 nz ->
      let ux := stand_in (l_xb la) x2 nx in
      let uy := stand_in (l_yb la) y2 ny in
      let uz := stand_in_z (l_zb la) (l_hei la) y1 uy z2 in
      let idist := image_dist (l_len la) (l_wid la) (l_hei la) (l_xb la) (l_yb la) (l_zb la) sp in
      (exists D, l_getSmallestDistance la i j = Ok (Fin D) /\
         idist i j D /\ forall D', idist i j D' -> (D <= D')%R) <->
      room (l_xb la) (l_len la) x1 x2 /\ room (l_yb la) (l_wid la) y1 y2 /\ room (l_zb la) (l_hei la) y1 uy /\
      nx * nx + ny * ny + nz * nz <= INT_MAX /\
      (x1 - ux) * (x1 - ux) + (y1 - uy) * (y1 - uy) + (z1 - uz) * (z1 - uz) = nx * nx + ny * ny + nz * nz.
Proof. exact smallest_any_iff. Qed.
Print Assumptions C11_any_size_iff_partial.

(** On a sheet of 40000 by 40000 sites with Fixed boundaries the distance
    between opposite corners is not answered: the int holding the sum of the
    squares overflows. *)
Definition sheet : @lattice XR :=
  {| l_len := 40000; l_wid := 40000; l_hei := 1; l_total := 1600000000; l_spacing := (Fin 1 : @num XR);
     l_xb := Fixed; l_yb := Fixed; l_zb := Fixed |}.
Lemma fixed_apart s p q : apart Fixed s p q (Z.abs (q - p)).
Proof. split; [exists q; split; reflexivity|]. intros V ->. lia. Qed.
Lemma sheet_built : built sheet.
Proof. unfold built, INT_MAX; simpl; lia. Qed.
Theorem C11_overflow_refuted :
  exists (la : @lattice XR) (i j : Z), built la /\ l_xb la = Fixed /\ l_yb la = Fixed /\ l_zb la = Fixed /\
    0 <= i < l_total la /\ 0 <= j < l_total la /\ l_getSmallestDistance la i j = Bad Undefined.
Proof.
  exists sheet, 0, 1599999999. split; [exact sheet_built|]. split; [reflexivity|]. split; [reflexivity|]. split; [reflexivity|].
  split; [simpl; lia|]. split; [simpl; lia|].
  apply (smallest_any sheet sheet_built 1%R eq_refl 0 1599999999 0 0 0 39999 39999 0 39999 39999).
  - unfold at_pos; simpl; lia.
  - unfold at_pos; simpl; lia.
  - apply (fixed_apart 40000 0 39999).
  - apply (fixed_apart 40000 0 39999).
  - intros (_ & _ & _ & F). unfold INT_MAX in F. simpl in F. lia.
Qed.
Print Assumptions C11_overflow_refuted.
(** on the same sheet, a site nearer: answered, and right *)
Example C11_any_size_nonvacuous :
  built sheet /\ at_pos 40000 40000 1 0 0 0 0 /\ at_pos 40000 40000 1 1000000030 30 25000 0 /\
  l_getSmallestDistance sheet 0 1000000030 = Ok (Fin (euclid 1 0 0 0 30 25000 0)) /\
  exists D, l_getSmallestDistance sheet 0 1000000030 = Ok (Fin D) /\ image_dist 40000 40000 1 Fixed Fixed Fixed 1 0 1000000030 D /\
    forall D', image_dist 40000 40000 1 Fixed Fixed Fixed 1 0 1000000030 D' -> (D <= D')%R.
Proof.
  assert (P : at_pos 40000 40000 1 0 0 0 0) by (unfold at_pos; lia).
  assert (Q : at_pos 40000 40000 1 1000000030 30 25000 0) by (unfold at_pos; lia).
  split; [exact sheet_built|]. split; [exact P|]. split; [exact Q|]. split.
  - apply (smallest_any sheet sheet_built 1%R eq_refl 0 1000000030 0 0 0 30 25000 0 30 25000 P Q (fixed_apart 40000 0 30) (fixed_apart 40000 0 25000)).
    simpl. unfold INT_MAX. lia.
  - apply (smallest_any_iff sheet sheet_built 1%R eq_refl Rlt_0_1 0 1000000030 0 0 0 30 25000 0 30 25000 0 P Q (fixed_apart 40000 0 30) (fixed_apart 40000 0 25000) (fixed_apart 1 0 0)).
    simpl. unfold INT_MAX. lia.
Qed.
