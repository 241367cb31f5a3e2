(** * Property theorems C10: the table of distances on any lattice *)
From Coq Require Import ZArith List Bool Reals Lia Lra.
From Verif Require Import Base BaseProofs Num LatticeModel LatticeSpec LatticeProofs LatticeReal LatticeTable ImageSpec LatticeImages TableImages TableListed PropLattice PropImages.
Import ListNotations.
Open Scope Z_scope.

(** ** C10 *)
(** Full statement: see C10_table_sound_partial.  Which pairs are in the table,
    for every boundary combination: those where one site has an image within the
    cutoff that lies nowhere above the other one.  Missing: the other pairs
    within the cutoff (C10_table_incomplete_refuted). *)
Theorem C10_present_iff_partial :
  forall (I : Impl) (la : @lattice XR), built la -> forall sp : R, l_spacing la = Fin sp -> (0 < sp)%R ->
    forall c t i j, l_distanceTable la (Fin c) = Ok t ->
      0 <= i < l_len la * l_wid la * l_hei la -> 0 <= j < l_len la * l_wid la * l_hei la -> i <> j ->
      let below := image_below (l_len la) (l_wid la) (l_hei la) (l_xb la) (l_yb la) (l_zb la) sp c in
      (tab_get t i j <> None <-> exists p D, below i j p D \/ below j i p D).
Proof. exact @table_present. Qed.
Print Assumptions C10_present_iff_partial.

(** And which distance is found there ([i < j]; for [i > j] by
    C10_table_symmetric): that of the last such image of the first site, seen
    from the second one, in the order x, y, z; if there is none, that of the last
    such image of the second site. *)
Theorem C10_table_any_partial :
  forall (I : Impl) (la : @lattice XR), built la -> forall sp : R, l_spacing la = Fin sp -> (0 < sp)%R ->
    forall c t i j, l_distanceTable la (Fin c) = Ok t ->
      0 <= i -> i < j -> j < l_len la * l_wid la * l_hei la ->
      let below := image_below (l_len la) (l_wid la) (l_hei la) (l_xb la) (l_yb la) (l_zb la) sp c in
      let last := last_below (l_len la) (l_wid la) (l_hei la) (l_xb la) (l_yb la) (l_zb la) sp c in
      forall d, tab_get t i j = Some d <-> exists p D, d = Fin D /\
        (last j i p D \/ ((forall q D', ~ below j i q D') /\ last i j p D)).
Proof. exact @table_any. Qed.
Print Assumptions C10_table_any_partial.

(** Whatever the table says about two sites, the neighbour list of either one
    says too: the distance found is one of the distances listed. *)
Theorem C10_entries_listed_partial :
  forall (I : Impl) (la : @lattice XR), built la -> forall sp : R, l_spacing la = Fin sp -> (0 < sp)%R ->
    forall c t i j d r, l_distanceTable la (Fin c) = Ok t ->
      0 <= i < l_len la * l_wid la * l_hei la -> 0 <= j < l_len la * l_wid la * l_hei la ->
      tab_get t i j = Some d -> l_getNeighborDistances la i (Fin c) = Ok r -> In (j, d) r.
Proof. exact @table_listed. Qed.
Print Assumptions C10_entries_listed_partial.

Definition la_ring : @lattice XR := mkLat (N := XR) 5 1 1 5 (Fin 1) Periodic Fixed Fixed.
Lemma la_ring_built : built la_ring.
Proof. unfold built, INT_MAX; simpl; lia. Qed.

Lemma ring_entry I t : l_distanceTable (I := I) la_ring (Fin 3) = Ok t -> tab_get t 0 3 = Some (Fin 3).
Proof.
  intros E. apply (C10_table_any_partial I la_ring la_ring_built 1 eq_refl Rlt_0_1 3 t 0 3 E); [lia|lia|simpl; lia|].
  exists (0, 0, 0), 3%R. split; [reflexivity|]. left. simpl.
  assert (Eu : forall a, euclid 1 a 0 0 3 0 0 = IZR (Z.abs (a - 3))).
  { intros a. rewrite <- euclid_axis. unfold euclid, sq_dist. do 2 f_equal. f_equal. ring. }
  split.
  - split.
    + exists 3, 0, 0, 0, 0, 0. split; [unfold at_pos; lia|]. split; [unfold at_pos; lia|].
      split; [exists 0; lia|]. split; [reflexivity|]. split; [reflexivity|]. rewrite Eu. reflexivity.
    + split; [unfold near_below; split; [lia|split; discriminate]|]. split; [lra|].
      exists 3, 0, 0. split; [unfold at_pos; lia|lia].
  - intros [[X Y] Z] D' ((x1 & y1 & z1 & x2 & y2 & z2 & P1 & P2 & IX & IY & IZ & ->) & _ & Hle & x & y & z & P3 & Q1 & _ & _).
    simpl in IX, IY, IZ. destruct IX as [k ->]. subst Y Z.
    unfold at_pos in P1, P2, P3. assert (x1 = 3 /\ y1 = 0 /\ z1 = 0) as (-> & -> & ->) by lia.
    assert (x2 = 0 /\ y2 = 0 /\ z2 = 0) as (-> & -> & ->) by lia.
    rewrite Eu in Hle. apply le_IZR in Hle. left. assert (k = 0) by lia. subst. reflexivity.
Qed.

(** On a ring of 5 sites with cutoff 3 the table says that sites 0 and 3 are 3
    apart, but they are 2 apart. *)
Theorem C10_not_smallest_refuted :
  forall I : Impl, exists (la : @lattice XR) (c : R) t, built la /\ l_distanceTable la (Fin c) = Ok t /\
    tab_get t 0 3 = Some (Fin 3) /\
    image_dist (l_len la) (l_wid la) (l_hei la) (l_xb la) (l_yb la) (l_zb la) 1 0 3 2.
Proof.
  intros I. destruct (C10_table_returns I la_ring la_ring_built 1 eq_refl Rlt_0_1 3) as [t E];
    try (simpl; unfold INT_MAX; lia); try lra.
  exists la_ring, 3%R, t. split; [exact la_ring_built|]. split; [exact E|]. split; [exact (ring_entry I t E)|].
  exists 0, 0, 0, 3, 0, 0, (-2), 0, 0. split; [unfold at_pos; simpl; lia|]. split; [unfold at_pos; simpl; lia|].
  split; [exists (-1); simpl; lia|]. split; [reflexivity|]. split; [reflexivity|].
  rewrite euclid_axis. reflexivity.
Qed.
Print Assumptions C10_not_smallest_refuted.

Example C10_any_nonvacuous : exists t r, l_distanceTable (I := impl0) la_ring (Fin 3) = Ok t /\ tab_get t 0 3 <> None /\
  l_getNeighborDistances la_ring 0 (Fin 3) = Ok r /\ In (3, Fin 3) r.
Proof.
  destruct (C10_table_returns impl0 la_ring la_ring_built 1 eq_refl Rlt_0_1 3) as [t E];
    try (simpl; unfold INT_MAX; lia); try lra.
  destruct (C08_neighbors_return la_ring 1 0 3 la_ring_built eq_refl Rlt_0_1) as (r & E1 & _);
    try (simpl; unfold INT_MAX; lia); try lra.
  exists t, r. split; [exact E|]. split; [rewrite (ring_entry _ t E); discriminate|]. split; [exact E1|].
  apply (C10_entries_listed_partial impl0 la_ring la_ring_built 1 eq_refl Rlt_0_1 3 t 0 3 _ r E); try (simpl; lia); auto.
  apply (ring_entry _ t E).
Qed.
