(** * C05 to C12 and C53: the cuboid lattice *)
From Coq Require Import ZArith List Bool Reals Lra Lia.
From Verif Require Import Base BaseProofs Num F64 OrdLaws LatticeModel LatticeSpec LatticeProofs LatticeReal LatticeTable.
Import ListNotations.
Open Scope Z_scope.

Local Definition fn : Num := F64 (fun x => x).
(** 4 x 3 x 2, periodic in y *)
Local Definition la1 : @lattice XR := mkLat (N := XR) 4 3 2 24 (Fin 1) Fixed Periodic Fixed.
Local Definition la2 : @lattice XR := mkLat (N := XR) 4 3 2 24 (Fin 1) Fixed Fixed Fixed.
Example la1_built : built la1.
Proof. unfold built, INT_MAX; simpl; lia. Qed.
Example la2_built : built la2.
Proof. unfold built, INT_MAX; simpl; lia. Qed.

(** ** C05 *)
(** getIndex and getPosition are inverse bijections, getX/Y/Z agree, nothing overflows. *)
Theorem C05_index_position_inverse :
  forall (N : Num) (L W H : Z) (sp : num) (xb yb zb : boundary),
    0 < L -> 0 < W -> 0 < H -> L * W * H <= INT_MAX ->
    exists la, l_new L W H sp xb yb zb = Ok la /\
      (forall x y z, 0 <= x < L -> 0 <= y < W -> 0 <= z < H ->
         exists i, l_getIndex la x y z = Ok i /\ 0 <= i < L * W * H /\ l_getPosition la i = Ok (x, y, z)) /\
      (forall i, 0 <= i < L * W * H ->
         exists x y z, 0 <= x < L /\ 0 <= y < W /\ 0 <= z < H /\
           l_getPosition la i = Ok (x, y, z) /\ l_getIndex la x y z = Ok i /\
           l_getX la i = Ok x /\ l_getY la i = Ok y /\ l_getZ la i = Ok z).
Proof. exact @index_position_inverse. Qed.
Print Assumptions C05_index_position_inverse.
(** the largest cube that fits an int *)
Example C05_nonvacuous : 0 < 1290 /\ 1290 * 1290 * 1290 <= INT_MAX.
Proof. unfold INT_MAX; lia. Qed.

(** Every lattice the constructor returns with positive sizes is [built]; this
    is the only hypothesis on the object in the theorems below. *)
Theorem C05_constructor_builds :
  forall (N : Num) (L W H : Z) (sp : num) (xb yb zb : boundary),
    0 < L -> 0 < W -> 0 < H -> L * W * H <= INT_MAX ->
    exists la, l_new L W H sp xb yb zb = Ok la /\ built la /\
      l_len la = L /\ l_wid la = W /\ l_hei la = H /\ l_spacing la = sp /\
      l_xb la = xb /\ l_yb la = yb /\ l_zb la = zb.
Proof. exact @new_built. Qed.
Print Assumptions C05_constructor_builds.

(** ** C06 *)
(** Full statement: getIndex throws exactly when some Fixed coordinate is out
    of range and otherwise returns an index in range.  Proved for Periodic
    coordinates not below minus the size; missing: the others, for which it is
    false (C06_index_in_range_refuted). *)
Theorem C06_getIndex_partial :
  forall (N : Num) (la : lattice) (x y z : Z), built la ->
    INT_MIN <= x <= INT_MAX -> INT_MIN <= y <= INT_MAX -> INT_MIN <= z <= INT_MAX ->
    (l_xb la = Periodic -> - l_len la <= x) -> (l_yb la = Periodic -> - l_wid la <= y) ->
    (l_zb la = Periodic -> - l_hei la <= z) ->
    let bad b v size := b = Fixed /\ ~ 0 <= v < size in
    ((bad (l_xb la) x (l_len la) \/ bad (l_yb la) y (l_wid la) \/ bad (l_zb la) z (l_hei la)) ->
       l_getIndex la x y z = Err InvalidArgument) /\
    (~ (bad (l_xb la) x (l_len la) \/ bad (l_yb la) y (l_wid la) \/ bad (l_zb la) z (l_hei la)) ->
       exists i, l_getIndex la x y z = Ok i /\
         at_pos (l_len la) (l_wid la) (l_hei la) i (x mod l_len la) (y mod l_wid la) (z mod l_hei la)).
Proof. exact @getIndex_partial. Qed.
Print Assumptions C06_getIndex_partial.
Example C06_nonvacuous : l_getIndex la1 3 7 1 = Ok (3 + 4 * (1 + 3 * 1)) /\
  l_getIndex la1 3 (-2) 1 = Ok (3 + 4 * (1 + 3 * 1)) /\ l_getIndex la1 4 0 0 = Err InvalidArgument.
Proof. repeat split; reflexivity. Qed.

(** Coordinates that differ by a multiple of a periodic size give the same index
    (both not below minus the size). *)
Theorem C06_periodic_x_partial :
  forall (N : Num) (la : lattice) (x y z k : Z), built la -> l_xb la = Periodic ->
    INT_MIN <= x + k * l_len la <= INT_MAX -> INT_MIN <= x <= INT_MAX ->
    - l_len la <= x -> - l_len la <= x + k * l_len la ->
    l_getIndex la (x + k * l_len la) y z = l_getIndex la x y z.
Proof. exact @getIndex_periodic. Qed.
Print Assumptions C06_periodic_x_partial.
Theorem C06_periodic_y_partial :
  forall (N : Num) (la : lattice) (x y z k : Z), built la -> l_yb la = Periodic ->
    INT_MIN <= y + k * l_wid la <= INT_MAX -> INT_MIN <= y <= INT_MAX ->
    - l_wid la <= y -> - l_wid la <= y + k * l_wid la ->
    l_getIndex la x (y + k * l_wid la) z = l_getIndex la x y z.
Proof. exact @getIndex_periodic_y. Qed.
Print Assumptions C06_periodic_y_partial.
Theorem C06_periodic_z_partial :
  forall (N : Num) (la : lattice) (x y z k : Z), built la -> l_zb la = Periodic ->
    INT_MIN <= z + k * l_hei la <= INT_MAX -> INT_MIN <= z <= INT_MAX ->
    - l_hei la <= z -> - l_hei la <= z + k * l_hei la ->
    l_getIndex la x y (z + k * l_hei la) = l_getIndex la x y z.
Proof. exact @getIndex_periodic_z. Qed.
Print Assumptions C06_periodic_z_partial.

(** A periodic coordinate further below than one period gives a negative index. *)
Theorem C06_index_in_range_refuted :
  forall N : Num, exists (la : lattice) (x y z i : Z), built la /\
    l_xb la = Periodic /\ l_yb la = Periodic /\ l_zb la = Periodic /\
    l_getIndex la x y z = Ok i /\ ~ 0 <= i < l_total la.
Proof.
  intros N. exists (mkLat 5 5 5 125 n1 Periodic Periodic Periodic), (-6), 0, 0, (-1).
  repeat split; try reflexivity; unfold INT_MAX; simpl; lia.
Qed.
Print Assumptions C06_index_in_range_refuted.

(** ** C07 *)
Theorem C07_neighbour_queries_reject :
  forall (N : Num) (la : lattice) (i j : Z) (c : num), built la ->
    ~ 0 <= i < l_len la * l_wid la * l_hei la ->
    l_getNeighbors la i c = Err InvalidArgument /\
    l_getNeighborDistances la i c = Err InvalidArgument /\
    l_getSmallestDistance la i j = Err InvalidArgument /\
    (0 <= j < l_len la * l_wid la * l_hei la -> l_getSmallestDistance la j i = Err InvalidArgument).
Proof. exact @neighbour_queries_reject. Qed.
Print Assumptions C07_neighbour_queries_reject.
Example C07_nonvacuous : ~ 0 <= -1 < l_len la1 * l_wid la1 * l_hei la1.
Proof. simpl; lia. Qed.

(** Full statement: getPosition, getX, getY, getZ throw for an index not in
    0..total-1.  Proved: for an index >= total.  Missing: negative indices,
    which are never rejected (next theorem). *)
Theorem C07_position_queries_reject_partial :
  forall (N : Num) (la : lattice) (i : Z), built la -> l_len la * l_wid la * l_hei la <= i ->
    l_getPosition la i = Err InvalidArgument /\ l_getX la i = Err InvalidArgument /\
    l_getY la i = Err InvalidArgument /\ l_getZ la i = Err InvalidArgument.
Proof. exact @position_queries_reject_large. Qed.
Print Assumptions C07_position_queries_reject_partial.
Theorem C07_negative_index_refuted :
  forall (N : Num) (la : lattice) (i : Z) (e : exn), built la -> INT_MIN <= i < 0 ->
    l_getPosition la i <> Err e /\ l_getX la i <> Err e /\ l_getY la i <> Err e /\ l_getZ la i <> Err e.
Proof. exact @position_queries_accept_negative. Qed.
Print Assumptions C07_negative_index_refuted.
Example C07_negative_nonvacuous : l_getPosition la1 (-1) = Ok (-1, 0, 0) /\ l_getX la1 (-5) = Ok (-1).
Proof. split; reflexivity. Qed.

(** ** C08 *)
(** Fixed boundaries: getNeighbors lists exactly the sites within the cutoff. *)
Theorem C08_fixed_neighbors_exact :
  forall (la : @lattice XR), built la -> forall sp : R, l_spacing la = Fin sp -> (0 < sp)%R ->
    l_xb la = Fixed -> l_yb la = Fixed -> l_zb la = Fixed ->
    forall i c l, l_getNeighbors la i (Fin c) = Ok l ->
      NoDup l /\ ~ In i l /\
      (forall j, In j l <-> j <> i /\ exists D,
         (exists x1 y1 z1 x2 y2 z2,
            at_pos (l_len la) (l_wid la) (l_hei la) i x1 y1 z1 /\
            at_pos (l_len la) (l_wid la) (l_hei la) j x2 y2 z2 /\ D = euclid sp x1 y1 z1 x2 y2 z2) /\
         (D <= c)%R).
Proof. exact fixed_neighbors. Qed.
Print Assumptions C08_fixed_neighbors_exact.

(** getNeighborDistances lists the same sites with their distances. *)
Theorem C08_fixed_distances_exact :
  forall (la : @lattice XR), built la -> forall sp : R, l_spacing la = Fin sp -> (0 < sp)%R ->
    l_xb la = Fixed -> l_yb la = Fixed -> l_zb la = Fixed ->
    forall i c r, l_getNeighborDistances la i (Fin c) = Ok r ->
      l_getNeighbors la i (Fin c) = Ok (map fst r) /\
      forall j d, In (j, d) r <-> j <> i /\ exists D, d = Fin D /\
         (exists x1 y1 z1 x2 y2 z2,
            at_pos (l_len la) (l_wid la) (l_hei la) i x1 y1 z1 /\
            at_pos (l_len la) (l_wid la) (l_hei la) j x2 y2 z2 /\ D = euclid sp x1 y1 z1 x2 y2 z2) /\
         (D <= c)%R.
Proof. exact fixed_distances. Qed.
Print Assumptions C08_fixed_distances_exact.

(** The relation is symmetric (any boundaries). *)
Theorem C08_neighbors_symmetric :
  forall (la : @lattice XR), built la -> forall sp : R, l_spacing la = Fin sp -> (0 < sp)%R ->
    forall i j c li lj, l_getNeighbors la i (Fin c) = Ok li -> l_getNeighbors la j (Fin c) = Ok lj ->
      In j li -> In i lj.
Proof. exact neighbors_sym. Qed.
Print Assumptions C08_neighbors_symmetric.

(** The call returns for cutoffs from 0 up to (not including) 646 spacings. *)
Theorem C08_neighbors_return :
  forall (la : @lattice XR) (sp : R) (i : Z) (c : R), built la -> l_spacing la = Fin sp -> (0 < sp)%R ->
    0 <= i < l_len la * l_wid la * l_hei la -> (0 <= c)%R -> (c < 646 * sp)%R ->
    l_len la <= INT_MAX - 645 -> l_wid la <= INT_MAX - 645 -> l_hei la <= INT_MAX - 645 ->
    exists r, l_getNeighborDistances la i (Fin c) = Ok r /\ l_getNeighbors la i (Fin c) = Ok (map fst r).
Proof. exact neighbors_returns. Qed.
Print Assumptions C08_neighbors_return.
Example C08_nonvacuous : exists r, l_getNeighborDistances la2 5 (Fin 1) = Ok r /\
  l_getNeighbors la2 5 (Fin 1) = Ok (map fst r) /\ In 4 (map fst r) /\ ~ In 10 (map fst r).
Proof.
  destruct (C08_neighbors_return la2 1 5 1 la2_built eq_refl Rlt_0_1) as (r & E1 & E2);
    try (simpl; unfold INT_MAX; lia); try lra.
  exists r. split; [exact E1|split; [exact E2|]].
  destruct (C08_fixed_neighbors_exact la2 la2_built 1 eq_refl Rlt_0_1 eq_refl eq_refl eq_refl 5 1 _ E2) as (_ & _ & A).
  split.
  - apply A. split; [lia|]. exists (euclid 1 1 1 0 0 1 0). split.
    + exists 1, 1, 0, 0, 1, 0. repeat split; simpl; lia.
    + unfold euclid, sq_dist; simpl. rewrite sqrt_1; lra.
  - intros Hin. apply A in Hin. destruct Hin as (_ & D & (x1 & y1 & z1 & x2 & y2 & z2 & P1 & P2 & ->) & Hle).
    assert (Q1 : at_pos 4 3 2 5 1 1 0) by (repeat split; lia).
    assert (Q2 : at_pos 4 3 2 10 2 2 0) by (repeat split; lia).
    destruct (at_pos_unique la2 _ _ _ _ _ _ _ P1 Q1) as (-> & -> & ->).
    destruct (at_pos_unique la2 _ _ _ _ _ _ _ P2 Q2) as (-> & -> & ->).
    unfold euclid, sq_dist in Hle; simpl in Hle.
    assert (sqrt 1 < sqrt 2)%R by (apply sqrt_lt_1_alt; lra). rewrite sqrt_1 in *. lra.
Qed.

(** ** C53 *)
(** Neighbour queries do not accept every cutoff: above 646 spacings the size
    passed to reserve overflows, and a negative cutoff is not "no neighbours". *)
Theorem C53_large_cutoff_refuted :
  forall (la : @lattice XR), built la -> forall sp : R, l_spacing la = Fin sp -> (0 < sp)%R ->
    forall i c, (646 * sp <= c)%R -> forall l, l_getNeighbors la i (Fin c) <> Ok l.
Proof. exact neighbors_large. Qed.
Print Assumptions C53_large_cutoff_refuted.
Theorem C53_negative_cutoff_refuted :
  forall (la : @lattice XR) (sp : R) (i : Z) (c : R), built la -> l_spacing la = Fin sp -> (0 < sp)%R ->
    (c < 0)%R -> forall l, l_getNeighbors la i (Fin c) <> Ok l.
Proof. exact neighbors_negative. Qed.
Print Assumptions C53_negative_cutoff_refuted.

(** ** C09 *)
(** Any boundaries: exactly the sites that have an image within the cutoff. *)
Theorem C09_neighbors_exact_set :
  forall (la : @lattice XR), built la -> forall sp : R, l_spacing la = Fin sp -> (0 < sp)%R ->
    forall i c l j, l_getNeighbors la i (Fin c) = Ok l ->
      (In j l <-> j <> i /\ exists D, (D <= c)%R /\
         image_dist (l_len la) (l_wid la) (l_hei la) (l_xb la) (l_yb la) (l_zb la) sp i j D).
Proof. exact neighbors_In. Qed.
Print Assumptions C09_neighbors_exact_set.

(** The list with distances contains, for each such site, the distance of its
    nearest image. *)
Theorem C09_nearest_image_listed :
  forall (la : @lattice XR), built la -> forall sp : R, l_spacing la = Fin sp -> (0 < sp)%R ->
    forall i c r j D, l_getNeighborDistances la i (Fin c) = Ok r -> j <> i ->
      let idist := image_dist (l_len la) (l_wid la) (l_hei la) (l_xb la) (l_yb la) (l_zb la) sp in
      idist i j D -> (D <= c)%R ->
      exists D', In (j, Fin D') r /\ idist i j D' /\ forall D'', idist i j D'' -> (D' <= D'')%R.
Proof. exact nd_complete. Qed.
Print Assumptions C09_nearest_image_listed.

(** Full statement: each site once.  Proved when the box of the search is no
    wider than the lattice in the periodic directions; missing: smaller
    lattices, for which it is false (next theorem). *)
Theorem C09_no_repetition_partial :
  forall (la : @lattice XR), built la -> forall sp : R, l_spacing la = Fin sp -> (0 < sp)%R ->
    forall i c l, l_getNeighbors la i (Fin c) = Ok l ->
      (l_xb la = Periodic -> 2 * steps sp c < l_len la) -> (l_yb la = Periodic -> 2 * steps sp c < l_wid la) ->
      (l_zb la = Periodic -> 2 * steps sp c < l_hei la) -> NoDup l.
Proof. exact neighbors_NoDup. Qed.
Print Assumptions C09_no_repetition_partial.
Example C09_nonvacuous : exists l, l_getNeighbors la1 5 (Fin 1) = Ok l /\ In 9 l /\
  (l_yb la1 = Periodic -> 2 * steps 1 1 < l_wid la1).
Proof.
  destruct (C08_neighbors_return la1 1 5 1 la1_built eq_refl Rlt_0_1) as (r & _ & E2);
    try (simpl; unfold INT_MAX; lia); try lra.
  exists (map fst r). split; [exact E2|]. split.
  - apply (C09_neighbors_exact_set la1 la1_built 1 eq_refl Rlt_0_1 5 1 _ 9 E2).
    split; [lia|]. exists (euclid 1 1 2 0 1 1 0). split.
    + unfold euclid, sq_dist; simpl. rewrite sqrt_1; lra.
    + exists 1, 1, 0, 1, 2, 0, 1, 2, 0. repeat split; simpl; try lia. exists 0; reflexivity.
  - intros _. unfold steps. replace (1 / 1)%R with (IZR 1) by (simpl; field). rewrite Rfloor_IZR. simpl; lia.
Qed.

(** two sites in a periodic direction: the other site is listed twice (binary64) *)
Theorem C09_repeated_neighbor_refuted :
  exists (la : @lattice fn) (l : list Z), built la /\ l_xb la = Periodic /\
    l_getNeighbors la 0 (nofZ 1) = Ok l /\ ~ NoDup l.
Proof.
  exists (mkLat (N := fn) 2 1 1 2 (nofZ 1) Periodic Fixed Fixed), [1; 1].
  split; [unfold built, INT_MAX; simpl; lia|]. split; [reflexivity|]. split; [reflexivity|].
  intros ND. inversion ND; subst. simpl in *. tauto.
Qed.
Print Assumptions C09_repeated_neighbor_refuted.

(** ** C10 *)
(** Full statement: an entry for (i,j), with their smallest distance, iff they
    are distinct sites within the cutoff; symmetric.  Proved: symmetric; every
    entry is the distance of an image within the cutoff; and, with Fixed
    boundaries, exactly the pairs comparable in every coordinate are present.
    Missing: the other pairs, which are absent. *)
Theorem C10_table_symmetric :
  forall (I : Impl) (N : Num) (la : lattice) (c : num) t i j,
    l_distanceTable la c = Ok t -> tab_get t i j = tab_get t j i.
Proof. exact @table_symmetric. Qed.
Print Assumptions C10_table_symmetric.
Theorem C10_table_sound_partial :
  forall (I : Impl) (la : @lattice XR), built la -> forall sp : R, l_spacing la = Fin sp -> (0 < sp)%R ->
    forall c t i j d, l_distanceTable la (Fin c) = Ok t -> tab_get t i j = Some d ->
      i <> j /\ exists D, d = Fin D /\ (D <= c)%R /\
        image_dist (l_len la) (l_wid la) (l_hei la) (l_xb la) (l_yb la) (l_zb la) sp i j D.
Proof. exact @table_sound. Qed.
Print Assumptions C10_table_sound_partial.
Theorem C10_table_exact_fixed_partial :
  forall (I : Impl) (la : @lattice XR), built la -> forall sp : R, l_spacing la = Fin sp -> (0 < sp)%R ->
    forall c t i j x1 y1 z1 x2 y2 z2,
      l_xb la = Fixed -> l_yb la = Fixed -> l_zb la = Fixed ->
      l_distanceTable la (Fin c) = Ok t ->
      at_pos (l_len la) (l_wid la) (l_hei la) i x1 y1 z1 ->
      at_pos (l_len la) (l_wid la) (l_hei la) j x2 y2 z2 -> i <> j ->
      tab_get t i j =
        if Rle_dec (euclid sp x1 y1 z1 x2 y2 z2) c
        then if ((x1 <=? x2) && (y1 <=? y2) && (z1 <=? z2)) || ((x2 <=? x1) && (y2 <=? y1) && (z2 <=? z1))
             then Some (Fin (euclid sp x1 y1 z1 x2 y2 z2)) else None
        else None.
Proof. exact @table_exact. Qed.
Print Assumptions C10_table_exact_fixed_partial.
Theorem C10_table_returns :
  forall (I : Impl) (la : @lattice XR), built la -> forall sp : R, l_spacing la = Fin sp -> (0 < sp)%R ->
    forall c, (0 <= c)%R -> (c < 646 * sp)%R ->
      l_len la <= INT_MAX - 645 -> l_wid la <= INT_MAX - 645 -> l_hei la <= INT_MAX - 645 ->
      exists t, l_distanceTable la (Fin c) = Ok t.
Proof. exact @table_def. Qed.
Print Assumptions C10_table_returns.
Example C10_nonvacuous : exists t, l_distanceTable (I := impl0) la2 (Fin 1) = Ok t.
Proof.
  apply (C10_table_returns impl0 la2 la2_built 1 eq_refl Rlt_0_1); simpl; unfold INT_MAX; try lia; lra.
Qed.
(** The diagonal pair (1,0)-(0,1) is within the cutoff and listed by
    getNeighborDistances(index), but absent from the table. *)
Theorem C10_table_incomplete_refuted :
  forall I : Impl, exists (la : @lattice XR) (c : R) t l, built la /\
    l_xb la = Fixed /\ l_yb la = Fixed /\ l_zb la = Fixed /\
    l_distanceTable la (Fin c) = Ok t /\ l_getNeighbors la 1 (Fin c) = Ok l /\
    In 2 l /\ tab_get t 1 2 = None.
Proof. exact @table_incomplete. Qed.
Print Assumptions C10_table_incomplete_refuted.

(** ** C11 *)
(** Full statement: getSmallestDistance is the smallest distance to any image.
    Proved: z Fixed and, in each periodic direction x, y, the first site at
    coordinate 0 (so in particular on all-Fixed lattices).  Missing: the other
    cases, for which it is false. *)
Theorem C11_smallest_distance_partial :
  forall (la : @lattice XR), built la -> forall sp : R, l_spacing la = Fin sp -> (0 < sp)%R ->
    forall i j x1 y1 z1 x2 y2 z2,
      at_pos (l_len la) (l_wid la) (l_hei la) i x1 y1 z1 ->
      at_pos (l_len la) (l_wid la) (l_hei la) j x2 y2 z2 ->
      l_len la <= 26000 -> l_wid la <= 26000 -> l_hei la <= 26000 ->
      l_zb la = Fixed -> (l_xb la = Periodic -> x1 = 0) -> (l_yb la = Periodic -> y1 = 0) ->
      let idist := image_dist (l_len la) (l_wid la) (l_hei la) (l_xb la) (l_yb la) (l_zb la) sp in
      exists D, l_getSmallestDistance la i j = Ok (Fin D) /\
        (idist i j D /\ forall D', idist i j D' -> (D <= D')%R).
Proof. exact smallest_partial. Qed.
Print Assumptions C11_smallest_distance_partial.
Example C11_nonvacuous : at_pos (l_len la1) (l_wid la1) (l_hei la1) 2 2 0 0 /\
  at_pos (l_len la1) (l_wid la1) (l_hei la1) 20 0 2 1.
Proof. repeat split; simpl; lia. Qed.
(** a site at positive distance from itself *)
Theorem C11_self_distance_refuted :
  exists (la : @lattice XR) i D, built la /\ l_spacing la = Fin 1 /\
    0 <= i < l_total la /\ l_getSmallestDistance la i i = Ok (Fin D) /\ (0 < D)%R.
Proof. exact smallest_self_wrong. Qed.
Print Assumptions C11_self_distance_refuted.
(** two distinct sites at distance 0 *)
Theorem C11_distinct_at_zero_refuted :
  exists (la : @lattice XR) i j D, built la /\ l_spacing la = Fin 1 /\
    i <> j /\ 0 <= i < l_total la /\ 0 <= j < l_total la /\
    l_getSmallestDistance la i j = Ok (Fin D) /\ D = 0%R.
Proof. exact smallest_z_wrong. Qed.
Print Assumptions C11_distinct_at_zero_refuted.

(** ** C12 *)
(** Full statement: every outcome lies on the requested plane, every site of
    the plane is a possible outcome, k out of range throws.  Proved: for planes
    YZ and XZ all of it when the direction across is Fixed; for XY the first
    part when H <= W and the second when W <= H.  Missing: the rest is false. *)
Theorem C12_random_on_plane_partial :
  forall (N : Num) (la : lattice), built la -> forall pl p raw1 raw2,
    (pl = XY -> l_hei la <= l_wid la) ->
    0 <= p < match pl with YZ => l_len la | XZ => l_wid la | XY => l_hei la end ->
    exists i, l_getRandomSite la pl p raw1 raw2 = Ok i /\
      exists x y z, at_pos (l_len la) (l_wid la) (l_hei la) i x y z /\
        match pl with YZ => x = p | XZ => y = p | XY => z = p end.
Proof. exact @random_on_plane. Qed.
Print Assumptions C12_random_on_plane_partial.
Theorem C12_random_covers_plane_partial :
  forall (N : Num) (la : lattice), built la -> forall pl p i,
    (pl = XY -> l_wid la <= l_hei la) ->
    (exists x y z, at_pos (l_len la) (l_wid la) (l_hei la) i x y z /\
        match pl with YZ => x = p | XZ => y = p | XY => z = p end) ->
    exists raw1 raw2, l_getRandomSite la pl p raw1 raw2 = Ok i.
Proof. exact @random_covers. Qed.
Print Assumptions C12_random_covers_plane_partial.
Theorem C12_random_throws_partial :
  forall (N : Num) (la : lattice), built la -> forall pl p raw1 raw2,
    match pl with YZ => l_xb la | XZ => l_yb la | XY => l_zb la end = Fixed ->
    INT_MIN <= p <= INT_MAX ->
    ~ 0 <= p < match pl with YZ => l_len la | XZ => l_wid la | XY => l_hei la end ->
    l_getRandomSite la pl p raw1 raw2 = Err InvalidArgument.
Proof. exact @random_throws. Qed.
Print Assumptions C12_random_throws_partial.
Example C12_nonvacuous : l_getRandomSite la1 YZ 3 17 9 = Ok 23 /\ l_getRandomSite la1 XY 1 6 3 = Ok 18 /\
  l_getRandomSite la1 YZ 4 17 9 = Err InvalidArgument.
Proof. repeat split; reflexivity. Qed.

(** plane XY, k in range, and the call throws for some draws *)
Theorem C12_xy_throws_refuted :
  forall N : Num, exists (la : lattice) raw1 raw2, built la /\ 0 <= 0 < l_hei la /\
    l_getRandomSite la XY 0 raw1 raw2 = Err InvalidArgument.
Proof.
  intros N. exists (mkLat 2 1 2 4 n1 Fixed Fixed Fixed), 0, 1.
  split; [unfold built, INT_MAX; simpl; lia|]. split; [simpl; lia|reflexivity].
Qed.
Print Assumptions C12_xy_throws_refuted.
(** plane XY, a site that no draw can return *)
Theorem C12_xy_unreachable_refuted :
  forall N : Num, exists (la : lattice) i, built la /\
    (exists x y z, at_pos (l_len la) (l_wid la) (l_hei la) i x y z /\ z = 0) /\
    forall raw1 raw2, l_getRandomSite la XY 0 raw1 raw2 <> Ok i.
Proof.
  intros N. exists (mkLat 1 2 1 2 n1 Fixed Fixed Fixed), 1.
  split; [unfold built, INT_MAX; simpl; lia|]. split.
  - exists 0, 1, 0. repeat split; simpl; lia.
  - intros raw1 raw2. unfold l_getRandomSite, draw_int. simpl. rewrite !Z.mod_1_r. discriminate.
Qed.
Print Assumptions C12_xy_unreachable_refuted.
(** periodic across: k out of range does not throw *)
Theorem C12_out_of_range_refuted :
  forall N : Num, exists (la : lattice) p i, built la /\ ~ 0 <= p < l_len la /\
    l_getRandomSite la YZ p 0 0 = Ok i.
Proof.
  intros N. exists (mkLat 2 2 2 8 n1 Periodic Fixed Fixed), 7, 1.
  split; [unfold built, INT_MAX; simpl; lia|]. split; [simpl; lia|reflexivity].
Qed.
Print Assumptions C12_out_of_range_refuted.
