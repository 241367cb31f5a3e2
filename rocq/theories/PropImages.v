(** * Property theorems C09: one entry per image, and exactly when a site is listed twice *)
From Coq Require Import ZArith List Bool Reals Lia Lra Sorted.
From Verif Require Import Base Num LatticeModel LatticeSpec ImageSpec LatticeReal LatticeImages PropLattice.
Import ListNotations.
Open Scope Z_scope.

(** ** C09 *)
(** Full statement: see C09_neighbors_exact_set.  What the list holds, entry by
    entry, on every lattice: one entry for each image of another site within
    the cutoff, with the distance of that image, in the order x, y, z of the
    images.  Missing: the images more than one period below the lattice, which
    are skipped (those beyond the upper end are not). *)
Theorem C09_one_entry_per_image_partial :
  forall (la : @lattice XR), built la -> forall sp : R, l_spacing la = Fin sp -> (0 < sp)%R ->
    forall i c r, l_getNeighborDistances la i (Fin c) = Ok r ->
      let imageat := image_at (l_len la) (l_wid la) (l_hei la) (l_xb la) (l_yb la) (l_zb la) sp in
      exists ps, StronglySorted before ps /\
        Forall2 (fun p e => exists D, snd e = Fin D /\ imageat i (fst e) p D) ps r /\
        forall p, In p ps <->
          near_below (l_len la) (l_wid la) (l_hei la) (l_xb la) (l_yb la) (l_zb la) p /\
          exists j D, j <> i /\ (D <= c)%R /\ imageat i j p D.
Proof. exact nd_images. Qed.
Print Assumptions C09_one_entry_per_image_partial.

(** Exactly when every site is listed once: when no site has two such images
    within the cutoff. *)
Theorem C09_each_once_iff_partial :
  forall (la : @lattice XR), built la -> forall sp : R, l_spacing la = Fin sp -> (0 < sp)%R ->
    forall i c l, l_getNeighbors la i (Fin c) = Ok l ->
      let imageat := image_at (l_len la) (l_wid la) (l_hei la) (l_xb la) (l_yb la) (l_zb la) sp in
      let near := near_below (l_len la) (l_wid la) (l_hei la) (l_xb la) (l_yb la) (l_zb la) in
      (NoDup l <-> forall j p q D D', j <> i -> near p -> near q -> (D <= c)%R -> (D' <= c)%R ->
         imageat i j p D -> imageat i j q D' -> p = q).
Proof. exact neighbors_NoDup_iff. Qed.
Print Assumptions C09_each_once_iff_partial.

(** on a 5 x 4 x 3 lattice, periodic in x and z, with cutoff 3 from site 0,
    site 2 is listed for its images at x = 2 and x = -3 *)
Definition la_images : @lattice XR := mkLat (N := XR) 5 4 3 60 (Fin 1) Periodic Fixed Periodic.
Lemma la_images_built : built la_images.
Proof. unfold built, INT_MAX; simpl; lia. Qed.
Lemma euclid_axis a : euclid 1 a 0 0 0 0 0 = IZR (Z.abs a).
Proof.
  unfold euclid. rewrite Rmult_1_r. replace (sq_dist a 0 0 0 0 0) with (Z.abs a * Z.abs a).
  - rewrite mult_IZR. apply sqrt_square. apply IZR_le. lia.
  - unfold sq_dist. rewrite Z.abs_square. ring.
Qed.
Example C09_images_nonvacuous : exists r,
  l_getNeighborDistances la_images 0 (Fin 3) = Ok r /\ l_getNeighbors la_images 0 (Fin 3) = Ok (map fst r) /\
  ~ NoDup (map fst r) /\ In 2 (map fst r).
Proof.
  destruct (C08_neighbors_return la_images 1 0 3 la_images_built eq_refl Rlt_0_1) as (r & E1 & E2);
    try (simpl; unfold INT_MAX; lia); try lra.
  assert (I1 : image_at 5 4 3 Periodic Fixed Periodic 1 0 2 (2, 0, 0) 2).
  { exists 0, 0, 0, 2, 0, 0. split; [unfold at_pos; lia|]. split; [unfold at_pos; lia|].
    split; [exists 0; lia|]. split; [reflexivity|]. split; [exists 0; lia|]. rewrite euclid_axis. reflexivity. }
  assert (I2 : image_at 5 4 3 Periodic Fixed Periodic 1 0 2 (-3, 0, 0) 3).
  { exists 0, 0, 0, 2, 0, 0. split; [unfold at_pos; lia|]. split; [unfold at_pos; lia|].
    split; [exists (-1); lia|]. split; [reflexivity|]. split; [exists 0; lia|]. rewrite euclid_axis. reflexivity. }
  exists r. split; [exact E1|]. split; [exact E2|]. split.
  - rewrite (C09_each_once_iff_partial la_images la_images_built 1 eq_refl Rlt_0_1 0 3 _ E2). intros Hq.
    assert (Q : (2, 0, 0) = (-3, 0, 0)); [|discriminate].
    apply (Hq 2 _ _ 2%R 3%R); try assumption; try lra; try lia; unfold near_below; simpl; lia.
  - apply (C09_neighbors_exact_set la_images la_images_built 1 eq_refl Rlt_0_1 0 3 _ 2 E2).
    split; [lia|]. exists 2%R. split; [lra|]. destruct I1 as (x1 & y1 & z1 & x2 & y2 & z2 & I1).
    exists x1, y1, z1, x2, y2, z2, 2, 0, 0. exact I1.
Qed.
