(** * Specification of the cuboid lattice: plain geometry on integer triples *)
From Coq Require Import ZArith List Bool Reals.
From Verif Require Import Base Num LatticeModel.
Import ListNotations.
Open Scope Z_scope.

(** site [i] of an L x W x H lattice sits at (x,y,z) *)
Definition at_pos (L W H i x y z : Z) : Prop :=
  0 <= x < L /\ 0 <= y < W /\ 0 <= z < H /\ i = x + L * (y + W * z).

(** [v] is a periodic image of coordinate [p] (or [p] itself if fixed) *)
Definition image (b : boundary) (size p v : Z) : Prop :=
  match b with
  | Fixed => v = p
  | Periodic => exists k, v = p + k * size
  end.

(** squared distance in units of the spacing *)
Definition sq_dist (x1 y1 z1 x2 y2 z2 : Z) : Z :=
  (x1 - x2) * (x1 - x2) + (y1 - y2) * (y1 - y2) + (z1 - z2) * (z1 - z2).

(** Euclidean distance *)
Definition euclid (sp : R) (x1 y1 z1 x2 y2 z2 : Z) : R :=
  (sqrt (IZR (sq_dist x1 y1 z1 x2 y2 z2)) * sp)%R.

(** [d] is the distance between site [i] and some image of site [j] *)
Definition image_dist (L W H : Z) (bx by_ bz : boundary) (sp : R) (i j : Z) (d : R) : Prop :=
  exists x1 y1 z1 x2 y2 z2 X Y Z,
    at_pos L W H i x1 y1 z1 /\ at_pos L W H j x2 y2 z2 /\
    image bx L x2 X /\ image by_ W y2 Y /\ image bz H z2 Z /\
    d = euclid sp X Y Z x1 y1 z1.

(** a lattice object built by the constructor with positive sizes and a site
    count that fits an int *)
Definition built {N : Num} (la : lattice) : Prop :=
  0 < l_len la /\ 0 < l_wid la /\ 0 < l_hei la /\
  l_len la * l_wid la * l_hei la <= INT_MAX /\
  l_total la = l_len la * l_wid la * l_hei la.

(** number of lattice steps within the cutoff *)
Definition steps (sp c : R) : Z := Rfloor (c / sp).
