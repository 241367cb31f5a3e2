(** * Property theorems C11: what getSmallestDistance answers on any lattice *)
From Coq Require Import ZArith List Bool Lia Reals Lra.
From Verif Require Import Base Num LatticeModel LatticeSpec LatticeExact.
Import ListNotations.
Open Scope Z_scope.

(** ** C11 *)
(** Full statement: getSmallestDistance is the smallest distance to any image.
    That is false (see the refutations of C11); these theorems say for every
    lattice, boundary setting and pair of sites what is answered instead and
    exactly when it is the smallest distance.  Larger sizes, on which
    the sum of squares can leave the range of int: PropLatticeAny.v. *)
Theorem C11_answer_partial :
  forall (la : @lattice XR), built la -> forall sp : R, l_spacing la = Fin sp ->
    forall i j x1 y1 z1 x2 y2 z2 nx ny,
      at_pos (l_len la) (l_wid la) (l_hei la) i x1 y1 z1 ->
      at_pos (l_len la) (l_wid la) (l_hei la) j x2 y2 z2 ->
      l_len la <= 26000 -> l_wid la <= 26000 -> l_hei la <= 26000 ->
      apart (l_xb la) (l_len la) x1 x2 nx -> apart (l_yb la) (l_wid la) y1 y2 ny ->
      let ux := stand_in (l_xb la) x2 nx in
      let uy := stand_in (l_yb la) y2 ny in
      let uz := stand_in_z (l_zb la) (l_hei la) y1 uy z2 in
      l_getSmallestDistance la i j = Ok (Fin (euclid sp x1 y1 z1 ux uy uz)).
Proof. exact smallest_answer. Qed.
Print Assumptions C11_answer_partial.

(** it is the smallest distance exactly if the squares add up to the same *)
Theorem C11_smallest_iff_partial :
  forall (la : @lattice XR), built la -> forall sp : R, l_spacing la = Fin sp -> (0 < sp)%R ->
    forall i j x1 y1 z1 x2 y2 z2 nx ny nz,
      at_pos (l_len la) (l_wid la) (l_hei la) i x1 y1 z1 ->
      at_pos (l_len la) (l_wid la) (l_hei la) j x2 y2 z2 ->
      l_len la <= 26000 -> l_wid la <= 26000 -> l_hei la <= 26000 ->
      apart (l_xb la) (l_len la) x1 x2 nx -> apart (l_yb la) (l_wid la) y1 y2 ny ->
      apart (l_zb la) (l_hei la) z1 z2 nz ->
      let ux := stand_in (l_xb la) x2 nx in
      let uy := stand_in (l_yb la) y2 ny in
      let uz := stand_in_z (l_zb la) (l_hei la) y1 uy z2 in
      let idist := image_dist (l_len la) (l_wid la) (l_hei la) (l_xb la) (l_yb la) (l_zb la) sp in
      (exists D, l_getSmallestDistance la i j = Ok (Fin D) /\
         idist i j D /\ forall D', idist i j D' -> (D <= D')%R) <->
      (x1 - ux) * (x1 - ux) + (y1 - uy) * (y1 - uy) + (z1 - uz) * (z1 - uz) = nx * nx + ny * ny + nz * nz.
Proof. exact smallest_iff. Qed.
Print Assumptions C11_smallest_iff_partial.

(** periodic in x only: right exactly if the first site is at x = 0 or its x is
    twice the number of steps between the two *)
Theorem C11_periodic_x_partial :
  forall (la : @lattice XR), built la -> forall sp : R, l_spacing la = Fin sp -> (0 < sp)%R ->
    forall i j x1 y1 z1 x2 y2 z2 nx,
      at_pos (l_len la) (l_wid la) (l_hei la) i x1 y1 z1 ->
      at_pos (l_len la) (l_wid la) (l_hei la) j x2 y2 z2 ->
      l_len la <= 26000 -> l_wid la <= 26000 -> l_hei la <= 26000 ->
      l_xb la = Periodic -> l_yb la = Fixed -> l_zb la = Fixed ->
      apart Periodic (l_len la) x1 x2 nx ->
      let idist := image_dist (l_len la) (l_wid la) (l_hei la) (l_xb la) (l_yb la) (l_zb la) sp in
      (exists D, l_getSmallestDistance la i j = Ok (Fin D) /\
         idist i j D /\ forall D', idist i j D' -> (D <= D')%R) <->
      x1 = 0 \/ x1 = 2 * nx.
Proof. exact smallest_x_iff. Qed.
Print Assumptions C11_periodic_x_partial.

(** a site's distance to itself is its distance from the origin of the
    periodic directions, not zero *)
Theorem C11_self_partial :
  forall (la : @lattice XR), built la -> forall sp : R, l_spacing la = Fin sp ->
    forall i x1 y1 z1,
      at_pos (l_len la) (l_wid la) (l_hei la) i x1 y1 z1 ->
      l_len la <= 26000 -> l_wid la <= 26000 -> l_hei la <= 26000 ->
      l_zb la = Fixed ->
      let off b v := match b with Fixed => 0 | Periodic => v end in
      l_getSmallestDistance la i i =
        Ok (Fin (euclid sp (off (l_xb la) x1) (off (l_yb la) y1) 0 0 0 0)).
Proof. exact smallest_self. Qed.
Print Assumptions C11_self_partial.

(** a 10 x 4 x 6 lattice, periodic everywhere; sites (7,3,5) and (2,1,0) *)
Definition la_e (bx by_ bz : boundary) : @lattice XR :=
  {| l_len := 10; l_wid := 4; l_hei := 6; l_total := 240; l_spacing := (Fin 1 : @num XR);
     l_xb := bx; l_yb := by_; l_zb := bz |}.
Example C11_exact_nonvacuous :
  built (la_e Periodic Periodic Periodic) /\ at_pos 10 4 6 237 7 3 5 /\ at_pos 10 4 6 12 2 1 0 /\
  apart Periodic 10 7 2 5 /\ apart Periodic 4 3 1 2 /\ apart Periodic 6 5 0 1 /\
  l_getSmallestDistance (la_e Periodic Periodic Periodic) 237 12 = Ok (Fin (euclid 1 7 3 5 5 2 1)) /\
  sq_dist 7 3 5 5 2 1 <> 5 * 5 + 2 * 2 + 1 * 1.
Proof.
  assert (B : built (la_e Periodic Periodic Periodic)) by (unfold built, INT_MAX; simpl; lia).
  assert (P : at_pos 10 4 6 237 7 3 5) by (unfold at_pos; lia).
  assert (Q : at_pos 10 4 6 12 2 1 0) by (unfold at_pos; lia).
  assert (A : apart Periodic 10 7 2 5) by (apply (apart_exists Periodic 10 7 2); lia).
  assert (A' : apart Periodic 4 3 1 2) by (apply (apart_exists Periodic 4 3 1); lia).
  assert (A'' : apart Periodic 6 5 0 1) by (apply (apart_exists Periodic 6 5 0); lia).
  repeat (split; [assumption|]). split.
  - exact (smallest_answer _ B 1%R eq_refl 237 12 7 3 5 2 1 0 5 2 P Q
      ltac:(simpl; lia) ltac:(simpl; lia) ltac:(simpl; lia) A A').
  - unfold sq_dist. lia.
Qed.
(** away from x = 0 the answer can be right: x = 8 and four steps *)
Example C11_periodic_x_nonvacuous :
  built (la_e Periodic Fixed Fixed) /\ at_pos 10 4 6 8 8 0 0 /\ at_pos 10 4 6 2 2 0 0 /\
  apart Periodic 10 8 2 4 /\ (8 = 0 \/ 8 = 2 * 4).
Proof.
  split; [unfold built, INT_MAX; simpl; lia|]. split; [unfold at_pos; lia|]. split; [unfold at_pos; lia|].
  split; [apply (apart_exists Periodic 10 8 2); lia|lia].
Qed.
