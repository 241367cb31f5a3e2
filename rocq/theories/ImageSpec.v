(** * Specification: the images of the sites of a cuboid lattice, one by one *)
From Coq Require Import ZArith Reals.
From Verif Require Import Base Num LatticeModel LatticeSpec.
Open Scope Z_scope.

(** the point [p] is an image of site [j] and lies at distance [d] of site [i] *)
Definition image_at (L W H : Z) (bx by_ bz : boundary) (sp : R) (i j : Z) (p : Z * Z * Z) (d : R) : Prop :=
  let '(X, Y, Z) := p in
  exists x1 y1 z1 x2 y2 z2,
    at_pos L W H i x1 y1 z1 /\ at_pos L W H j x2 y2 z2 /\
    image bx L x2 X /\ image by_ W y2 Y /\ image bz H z2 Z /\
    d = euclid sp X Y Z x1 y1 z1.

(** no more than one period below the lattice in any periodic direction *)
Definition near_below (L W H : Z) (bx by_ bz : boundary) (p : Z * Z * Z) : Prop :=
  let '(X, Y, Z) := p in
  (bx = Periodic -> - L <= X) /\ (by_ = Periodic -> - W <= Y) /\ (bz = Periodic -> - H <= Z).

(** by x, then y, then z *)
Definition before (p q : Z * Z * Z) : Prop :=
  let '(X, Y, Z) := p in let '(X', Y', Z') := q in
  X < X' \/ (X = X' /\ (Y < Y' \/ (Y = Y' /\ Z < Z'))).

(** the image [p] of site [j], at distance [d <= c] of site [i], has no
    coordinate above those of [i] *)
Definition image_below (L W H : Z) (bx by_ bz : boundary) (sp c : R) (i j : Z) (p : Z * Z * Z) (d : R) : Prop :=
  image_at L W H bx by_ bz sp i j p d /\ near_below L W H bx by_ bz p /\ (d <= c)%R /\
  let '(X, Y, Z) := p in exists x y z, at_pos L W H i x y z /\ X <= x /\ Y <= y /\ Z <= z.

(** the last of them in the order of [before] *)
Definition last_below (L W H : Z) (bx by_ bz : boundary) (sp c : R) (i j : Z) (p : Z * Z * Z) (d : R) : Prop :=
  image_below L W H bx by_ bz sp c i j p d /\
  forall q d', image_below L W H bx by_ bz sp c i j q d' -> q = p \/ before q p.
