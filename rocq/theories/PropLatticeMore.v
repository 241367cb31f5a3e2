(** * Property theorems C06 and C12: exactly when getIndex and getRandomSite are right *)
From Coq Require Import ZArith List Bool Lia.
From Verif Require Import Base Num LatticeModel LatticeSpec LatticeMore.
Import ListNotations.
Open Scope Z_scope.

(** ** C06 *)
(** Full statement: see C06_getIndex_partial.  Whenever getIndex answers at all,
    the answer is the index of the wrapped position exactly if no periodic
    coordinate is below minus the size: errors in several directions never make
    up for each other. *)
Theorem C06_right_iff_partial :
  forall (N : Num) (la : lattice), built la -> forall x y z i, l_getIndex la x y z = Ok i ->
    (at_pos (l_len la) (l_wid la) (l_hei la) i (x mod l_len la) (y mod l_wid la) (z mod l_hei la) <->
     (l_xb la = Periodic -> - l_len la <= x) /\ (l_yb la = Periodic -> - l_wid la <= y) /\ (l_zb la = Periodic -> - l_hei la <= z)).
Proof. exact @index_right_iff. Qed.
Print Assumptions C06_right_iff_partial.
(** x far below, y wrapped from above: the answer 4 is another site's index *)
Example C06_right_iff_nonvacuous : forall N : Num,
  let la := mkLat 5 5 5 125 n1 Periodic Periodic Periodic in
  built la /\ l_getIndex la (-6) 6 0 = Ok 4 /\ at_pos 5 5 5 9 ((-6) mod 5) (6 mod 5) (0 mod 5) /\
  l_getIndex la (-5) 6 0 = Ok 5.
Proof. intros N la. split; [unfold built, INT_MAX; simpl; lia|]. split; [reflexivity|]. split; [unfold at_pos; vm_compute; intuition congruence|reflexivity]. Qed.

(** ** C12 *)
(** Full statement: getRandomSite returns a site of the plane for every k in
    range, and every site of the plane can be returned.  For the plane XY the
    code draws y below the height; so: *)
Theorem C12_xy_answer_partial :
  forall (N : Num) (la : lattice), built la -> forall p raw1 raw2, 0 <= p < l_hei la ->
    let y := raw2 mod l_hei la in
    (l_wid la <= y -> l_yb la = Fixed -> l_getRandomSite la XY p raw1 raw2 = Err InvalidArgument) /\
    (y < l_wid la \/ l_yb la = Periodic ->
       exists i, l_getRandomSite la XY p raw1 raw2 = Ok i /\
         at_pos (l_len la) (l_wid la) (l_hei la) i (raw1 mod l_len la) (y mod l_wid la) p).
Proof. exact @random_xy. Qed.
Print Assumptions C12_xy_answer_partial.
(** exactly when it always returns a site of the plane *)
Theorem C12_xy_safe_iff_partial :
  forall (N : Num) (la : lattice), built la -> forall p, 0 <= p < l_hei la ->
    (forall raw1 raw2, exists i x y, l_getRandomSite la XY p raw1 raw2 = Ok i /\ at_pos (l_len la) (l_wid la) (l_hei la) i x y p) <->
    l_hei la <= l_wid la \/ l_yb la = Periodic.
Proof. exact @random_xy_safe. Qed.
Print Assumptions C12_xy_safe_iff_partial.
(** exactly which sites of the plane can be returned *)
Theorem C12_xy_reach_iff_partial :
  forall (N : Num) (la : lattice), built la -> forall p i x y, at_pos (l_len la) (l_wid la) (l_hei la) i x y p ->
    (exists raw1 raw2, l_getRandomSite la XY p raw1 raw2 = Ok i) <-> y < l_hei la.
Proof. exact @random_xy_reach. Qed.
Print Assumptions C12_xy_reach_iff_partial.
(** a number of a plane across a periodic direction is wrapped, not rejected *)
Theorem C12_wrapped_plane_partial :
  forall (N : Num) (la : lattice), built la -> forall pl p raw1 raw2,
    match pl with YZ => l_xb la | XZ => l_yb la | XY => l_zb la end = Periodic ->
    (pl = XY -> l_hei la <= l_wid la) ->
    let size := match pl with YZ => l_len la | XZ => l_wid la | XY => l_hei la end in
    - size <= p <= INT_MAX ->
    exists i, l_getRandomSite la pl p raw1 raw2 = Ok i /\
      exists x y z, at_pos (l_len la) (l_wid la) (l_hei la) i x y z /\ match pl with YZ => x | XZ => y | XY => z end = p mod size.
Proof. exact @random_wrapped. Qed.
Print Assumptions C12_wrapped_plane_partial.
(** 3 x 2 x 4: y is drawn from 0..3, half of the draws throw if y is Fixed *)
Example C12_xy_nonvacuous : forall N : Num,
  let la b := mkLat 3 2 4 24 n1 Fixed b Periodic in
  built (la Fixed) /\ built (la Periodic) /\ l_getRandomSite (la Fixed) XY 1 5 3 = Err InvalidArgument /\
  l_getRandomSite (la Fixed) XY 1 5 1 = Ok 11 /\ l_getRandomSite (la Periodic) XY 1 5 3 = Ok 11 /\
  at_pos 3 2 4 11 2 1 1.
Proof.
  intros N la. split; [unfold built, INT_MAX; simpl; lia|]. split; [unfold built, INT_MAX; simpl; lia|].
  split; [reflexivity|]. split; [reflexivity|]. split; [reflexivity|]. unfold at_pos; simpl; lia.
Qed.
(** 3 x 4 x 2, periodic in z: plane 7 is plane 1; sites with y = 2 are never returned *)
Example C12_wrapped_nonvacuous : forall N : Num,
  let la := mkLat 3 4 2 24 n1 Fixed Fixed Periodic in
  built la /\ l_getRandomSite la XY 7 5 3 = Ok 17 /\ at_pos 3 4 2 17 2 1 1 /\ at_pos 3 4 2 18 0 2 1 /\ ~ 2 < l_hei la.
Proof.
  intros N la. split; [unfold built, INT_MAX; simpl; lia|]. split; [reflexivity|].
  split; [unfold at_pos; simpl; lia|]. split; [unfold at_pos; simpl; lia|]. simpl. lia.
Qed.
