(** * Property theorems C88: the queries of a lattice agree with one another *)
From Coq Require Import ZArith List Bool Lia.
From Verif Require Import Base Num LatticeModel LatticeSpec OverloadSpec OverloadProofs.
Import ListNotations.
Open Scope Z_scope.

(** ** C88 *)
(** getX, getY and getZ give the coordinates of getPosition, or throw when it
    throws; for every int, in or out of range. *)
Theorem C88_coordinates :
  forall (N : Num) (la : lattice), built la -> forall i, INT_MIN <= i <= INT_MAX ->
    l_getX la i = through (fun p => fst (fst p)) (l_getPosition la i) /\
    l_getY la i = through (fun p => snd (fst p)) (l_getPosition la i) /\
    l_getZ la i = through snd (l_getPosition la i).
Proof. exact @coordinates. Qed.
Print Assumptions C88_coordinates.

(** getNeighborDistances answers the same for a site and for its position:
    the same list, exception or failure, for every cutoff. *)
Theorem C88_by_position :
  forall (N : Num) (la : lattice), built la -> forall i c x y z,
    at_pos (l_len la) (l_wid la) (l_hei la) i x y z ->
    l_getPosition la i = Ok (x, y, z) /\ l_getIndex la x y z = Ok i /\
    l_getNeighborDistances_pos la [x; y; z] c = l_getNeighborDistances la i c.
Proof. exact @by_position. Qed.
Print Assumptions C88_by_position.

(** getNeighbors is the list of getNeighborDistances without the distances, in
    the same order and with the same repetitions, for every index and cutoff. *)
Theorem C88_sites_of_distances :
  forall (N : Num) (la : lattice), built la -> forall i c,
    l_getNeighbors la i c = through (map fst) (l_getNeighborDistances la i c).
Proof. exact @sites_of_distances. Qed.
Print Assumptions C88_sites_of_distances.

(** A position that is not one of the lattice is rejected, also in periodic
    directions, where getIndex would wrap it. *)
Theorem C88_bad_position :
  forall (N : Num) (la : lattice) pos c,
    (forall x y z, pos = [x; y; z] -> ~ (0 <= x < l_len la /\ 0 <= y < l_wid la /\ 0 <= z < l_hei la)) ->
    l_getNeighborDistances_pos la pos c = Err InvalidArgument.
Proof. exact @bad_position. Qed.
Print Assumptions C88_bad_position.

(** a periodic 5 x 4 x 3 lattice: site 33 is at (3,2,1); (-2,2,1) is the same
    site for getIndex and an error for getNeighborDistances; a negative index is
    taken apart alike by all four queries *)
Example C88_nonvacuous : forall N : Num,
  let la := mkLat 5 4 3 60 n1 Periodic Periodic Periodic in
  built la /\ at_pos 5 4 3 33 3 2 1 /\ l_getPosition la 33 = Ok (3, 2, 1) /\
  l_getIndex la (-2) 2 1 = Ok 33 /\ (forall c, l_getNeighborDistances_pos la [-2; 2; 1] c = Err InvalidArgument) /\
  l_getPosition la (-7) = Ok (-2, -1, 0) /\ l_getX la (-7) = Ok (-2) /\ l_getX la 60 = Err InvalidArgument.
Proof.
  intros N la. split; [unfold built, INT_MAX; simpl; lia|]. split; [unfold at_pos; lia|].
  do 2 (split; [reflexivity|]). split; [intros c; reflexivity|]. do 2 (split; [reflexivity|]). reflexivity.
Qed.
