(** * Proofs about the cuboid lattice: distances, in exact arithmetic *)
From Coq Require Import ZArith List Bool Lia Reals Lra Permutation.
From Verif Require Import Base BaseProofs Num OrdLaws LatticeModel LatticeSpec LatticeProofs.
Import ListNotations.
Open Scope Z_scope.

Local Notation lattice := (@lattice XR).

(** ** Floor *)
Lemma Rfloor_spec r : (IZR (Rfloor r) <= r < IZR (Rfloor r) + 1)%R.
Proof.
  unfold Rfloor. destruct (archimed r) as [A1 A2]. rewrite minus_IZR. lra.
Qed.
Lemma Rfloor_unique r z : (IZR z <= r < IZR z + 1)%R -> Rfloor r = z.
Proof.
  intros [A1 A2]. destruct (Rfloor_spec r) as [B1 B2].
  assert (Rfloor r < z + 1)%Z by (apply lt_IZR; rewrite plus_IZR; lra).
  assert (z < Rfloor r + 1)%Z by (apply lt_IZR; rewrite plus_IZR; lra). lia.
Qed.
Lemma Rfloor_IZR z : Rfloor (IZR z) = z.
Proof. apply Rfloor_unique. lra. Qed.
Lemma Rfloor_ge r z : (IZR z <= r)%R -> z <= Rfloor r.
Proof.
  intros A. destruct (Rfloor_spec r) as [_ B2].
  assert (z < Rfloor r + 1)%Z by (apply lt_IZR; rewrite plus_IZR; lra). lia.
Qed.
Lemma Rtrunc_IZR z : Rtrunc (IZR z) = z.
Proof.
  unfold Rtrunc. destruct (Rle_dec 0 (IZR z)); [apply Rfloor_IZR|].
  rewrite <- opp_IZR, Rfloor_IZR. lia.
Qed.

Lemma xleb_Fin a b : xleb (Fin a) (Fin b) = true <-> (a <= b)%R.
Proof.
  unfold xleb; simpl. rewrite orb_true_iff, Rltb_true, Reqb_true. lra.
Qed.

(** ** Nearest images *)

Lemma nearest L D : 0 < L -> exists k, Z.abs (D + k * L) <= Z.abs D /\ 2 * Z.abs (D + k * L) <= L /\
  (forall k', Z.abs (D + k * L) <= Z.abs (D + k' * L)).
Proof.
  intros HL. pose proof (Z.mod_pos_bound D L HL) as R. pose proof (Z.div_mod D L ltac:(lia)) as E.
  set (r := D mod L) in *. set (q := D / L) in *.
  assert (C : forall k', Z.abs (D + k' * L) >= Z.min r (L - r)).
  { intros k'. assert (D + k' * L = r + (q + k') * L) as -> by lia.
    destruct (Z.le_gt_cases 0 (q + k')); nia. }
  destruct (Z.le_gt_cases (2 * r) L).
  - exists (- q). replace (D + - q * L) with r by lia.
    repeat split; try lia.
    + specialize (C 0). rewrite Z.mul_0_l, Z.add_0_r in C. lia.
    + intros k'. specialize (C k'). lia.
  - exists (- q - 1). replace (D + (- q - 1) * L) with (r - L) by lia.
    repeat split; try lia.
    + specialize (C 0). rewrite Z.mul_0_l, Z.add_0_r in C. lia.
    + intros k'. specialize (C k'). lia.
Qed.

Lemma image_trans b size p v k : image b size p v -> (b = Periodic \/ k = 0) -> image b size p (v + k * size).
Proof.
  destruct b; simpl; intros Hi Hk.
  - destruct Hk as [Hk|Hk]; [discriminate|]. subst. lia.
  - destruct Hi as [k0 ->]. exists (k0 + k). ring.
Qed.

(** the image of [p] nearest to [x], no further than a given one *)
Lemma nearest_image b size p x V : 0 < size -> 0 <= p < size -> 0 <= x < size -> image b size p V ->
  exists V', image b size p V' /\ Z.abs (V' - x) <= Z.abs (V - x) /\ - size <= V' <= 2 * size /\
    (forall V'', image b size p V'' -> Z.abs (V' - x) <= Z.abs (V'' - x)).
Proof.
  intros Hs Hp Hx Hi. destruct b.
  - simpl in Hi. subst V. exists p. split; [reflexivity|]. split; [lia|]. split; [lia|]. intros V'' ->. lia.
  - destruct (nearest size (V - x) Hs) as (k & A1 & A2 & A3).
    exists (V + k * size). replace (V + k * size - x) with (V - x + k * size) by ring.
    split; [apply image_trans; auto|]. split; [lia|]. split; [lia|].
    { intros V'' Hi''. destruct Hi as [k1 ->], Hi'' as [k2 ->].
      specialize (A3 (k2 - k1)). replace (p + k2 * size - x) with (p + k1 * size - x + (k2 - k1) * size) by ring.
      exact A3. }
Qed.

(** ** Euclidean distances *)

Lemma sq_dist_nonneg x1 y1 z1 x2 y2 z2 : 0 <= sq_dist x1 y1 z1 x2 y2 z2.
Proof.
  unfold sq_dist. pose proof (Z.square_nonneg (x1 - x2)). pose proof (Z.square_nonneg (y1 - y2)).
  pose proof (Z.square_nonneg (z1 - z2)). lia.
Qed.
Lemma sq_dist_sym x1 y1 z1 x2 y2 z2 : sq_dist x1 y1 z1 x2 y2 z2 = sq_dist x2 y2 z2 x1 y1 z1.
Proof. unfold sq_dist. ring. Qed.
Lemma euclid_mono sp x1 y1 z1 x2 y2 z2 X1 Y1 Z1 X2 Y2 Z2 : (0 <= sp)%R ->
  sq_dist x1 y1 z1 x2 y2 z2 <= sq_dist X1 Y1 Z1 X2 Y2 Z2 ->
  (euclid sp x1 y1 z1 x2 y2 z2 <= euclid sp X1 Y1 Z1 X2 Y2 Z2)%R.
Proof.
  intros Hsp Hle. unfold euclid. apply Rmult_le_compat_r; [exact Hsp|].
  apply sqrt_le_1_alt. apply IZR_le. exact Hle.
Qed.
Lemma sq_abs_mono a b : Z.abs a <= Z.abs b -> a * a <= b * b.
Proof. intros. rewrite <- (Z.abs_square a), <- (Z.abs_square b). nia. Qed.

(** a distance within the cutoff bounds every coordinate difference *)
Lemma euclid_coord sp c x1 y1 z1 x2 y2 z2 : (0 < sp)%R ->
  (euclid sp x1 y1 z1 x2 y2 z2 <= c)%R ->
  Z.abs (x1 - x2) <= steps sp c /\ Z.abs (y1 - y2) <= steps sp c /\ Z.abs (z1 - z2) <= steps sp c.
Proof.
  intros Hsp Hle.
  assert (C : forall a, a * a <= sq_dist x1 y1 z1 x2 y2 z2 -> Z.abs a <= steps sp c).
  { intros a Ha. unfold steps. apply Rfloor_ge.
    apply Rmult_le_reg_r with sp; [exact Hsp|].
    replace (c / sp * sp)%R with c by (field; lra).
    eapply Rle_trans; [|exact Hle]. unfold euclid. apply Rmult_le_compat_r; [lra|].
    rewrite <- (sqrt_square (IZR (Z.abs a))) by (apply IZR_le; lia).
    apply sqrt_le_1_alt. rewrite <- mult_IZR. apply IZR_le. rewrite Z.abs_square. exact Ha. }
  unfold sq_dist in C. pose proof (Z.square_nonneg (x1 - x2)). pose proof (Z.square_nonneg (y1 - y2)).
  pose proof (Z.square_nonneg (z1 - z2)). repeat split; apply C; lia.
Qed.

Lemma reserve_ok n : 0 <= n <= 645 -> l_reserve n = Ok tt.
Proof.
  intros Hn. unfold l_reserve.
  assert (Q2 : 0 <= n * n <= 645 * 645) by nia.
  assert (Q3 : 0 <= n * n * n <= 645 * 645 * 645) by nia.
  do 2 (rewrite chk_ok by (apply in_int_iff; unfold INT_MIN, INT_MAX; lia); cbn [rbind]).
  replace (2 * n * 2) with (4 * n) by ring.
  replace (4 * n * n) with (4 * (n * n)) by ring.
  do 1 (rewrite chk_ok by (apply in_int_iff; unfold INT_MIN, INT_MAX; lia); cbn [rbind]).
  replace (4 * (n * n) * 2) with (8 * (n * n)) by ring.
  do 1 (rewrite chk_ok by (apply in_int_iff; unfold INT_MIN, INT_MAX; lia); cbn [rbind]).
  replace (8 * (n * n) * n) with (8 * (n * n * n)) by ring.
  do 1 (rewrite chk_ok by (apply in_int_iff; unfold INT_MIN, INT_MAX; lia); cbn [rbind]).
  destruct (Z.ltb_spec (8 * (n * n * n)) 0); [lia|reflexivity].
Qed.

Section P.
Variable la : lattice.
Hypothesis B : built la.
Variable sp : R.
Hypothesis Sp : l_spacing la = Fin sp.
Hypothesis Hsp : (0 < sp)%R.
Notation L := (l_len la).
Notation W := (l_wid la).
Notation Ht := (l_hei la).
Notation T := (L * W * Ht).
Notation idist := (image_dist L W Ht (l_xb la) (l_yb la) (l_zb la) sp).

Lemma num_sites_ok c n : l_num_sites la (Fin c) = Ok n -> n = steps sp c /\ in_int n = true.
Proof.
  unfold l_num_sites. rewrite Sp. simpl. destruct (Reqb sp 0) eqn:E.
  { apply Reqb_true in E. lra. }
  unfold xfloor, xtrunc. rewrite Rtrunc_IZR.
  destruct (in_int (Rfloor (c / sp))) eqn:Ei; intros Q; inversion Q; subst. auto.
Qed.
Lemma num_sites_def c : in_int (steps sp c) = true -> l_num_sites la (Fin c) = Ok (steps sp c).
Proof.
  intros Hi. unfold l_num_sites. rewrite Sp. simpl. destruct (Reqb sp 0) eqn:E.
  { apply Reqb_true in E. lra. }
  unfold xfloor, xtrunc. rewrite Rtrunc_IZR. unfold steps in *. rewrite Hi. reflexivity.
Qed.

Lemma getDistance_ok x1 y1 z1 x2 y2 z2 d : l_getDistance_ la x1 y1 z1 x2 y2 z2 = Ok d ->
  d = Fin (euclid sp x1 y1 z1 x2 y2 z2).
Proof.
  unfold l_getDistance_. intros E.
  apply rbind_ok_inv in E. destruct E as (dx & E1 & E). apply chk_inv in E1. destruct E1 as [<- _].
  apply rbind_ok_inv in E. destruct E as (dy & E1 & E). apply chk_inv in E1. destruct E1 as [<- _].
  apply rbind_ok_inv in E. destruct E as (dz & E1 & E). apply chk_inv in E1. destruct E1 as [<- _].
  apply rbind_ok_inv in E. destruct E as (xx & E1 & E). apply chk_inv in E1. destruct E1 as [<- _].
  apply rbind_ok_inv in E. destruct E as (yy & E1 & E). apply chk_inv in E1. destruct E1 as [<- _].
  apply rbind_ok_inv in E. destruct E as (zz & E1 & E). apply chk_inv in E1. destruct E1 as [<- _].
  apply rbind_ok_inv in E. destruct E as (s & E1 & E). apply chk_inv in E1. destruct E1 as [<- _].
  apply rbind_ok_inv in E. destruct E as (t & E1 & E). apply chk_inv in E1. destruct E1 as [<- _].
  change ((x1 - x2) * (x1 - x2) + (y1 - y2) * (y1 - y2) + (z1 - z2) * (z1 - z2)) with (sq_dist x1 y1 z1 x2 y2 z2) in E.
  inversion E. simpl. rewrite Sp.
  destruct (Rltb (IZR (sq_dist x1 y1 z1 x2 y2 z2)) 0) eqn:Eq.
  - apply Rltb_true in Eq. pose proof (sq_dist_nonneg x1 y1 z1 x2 y2 z2) as Hn. apply IZR_le in Hn. lra.
  - reflexivity.
Qed.

Lemma getDistance_def x1 y1 z1 x2 y2 z2 :
  Z.abs (x1 - x2) <= 26000 -> Z.abs (y1 - y2) <= 26000 -> Z.abs (z1 - z2) <= 26000 ->
  l_getDistance_ la x1 y1 z1 x2 y2 z2 = Ok (Fin (euclid sp x1 y1 z1 x2 y2 z2)).
Proof.
  intros A1 A2 A3.
  assert (S1 : 0 <= (x1 - x2) * (x1 - x2) <= 676000000) by nia.
  assert (S2 : 0 <= (y1 - y2) * (y1 - y2) <= 676000000) by nia.
  assert (S3 : 0 <= (z1 - z2) * (z1 - z2) <= 676000000) by nia.
  destruct (l_getDistance_ la x1 y1 z1 x2 y2 z2) eqn:E.
  - rewrite (getDistance_ok _ _ _ _ _ _ _ E). reflexivity.
  - exfalso. unfold l_getDistance_ in E.
    repeat (rewrite chk_ok in E by (apply in_int_iff; unfold INT_MIN, INT_MAX; lia); cbn [rbind] in E).
    discriminate.
  - exfalso. unfold l_getDistance_ in E.
    repeat (rewrite chk_ok in E by (apply in_int_iff; unfold INT_MIN, INT_MAX; lia); cbn [rbind] in E).
    discriminate.
Qed.

(** ** Neighbour lists *)

(** what has to have happened for the call to return *)
Lemma nd_inv i c r : l_getNeighborDistances la i (Fin c) = Ok r ->
  exists x y z n, at_pos L W Ht i x y z /\ n = steps sp c /\ 0 <= n /\
    INT_MIN <= x - n /\ x + n <= INT_MAX /\ INT_MIN <= y - n /\ y + n <= INT_MAX /\
    INT_MIN <= z - n /\ z + n <= INT_MAX /\
    l_box la i x y z (x - n) (x + n) (y - n) (y + n) (z - n) (z + n) (Fin c) = Ok r /\
    l_getNeighbors la i (Fin c) = Ok (map fst r).
Proof.
  unfold l_getNeighborDistances, l_getNeighbors. intros E.
  destruct (check_index la i) as [[]| |] eqn:Ec; simpl in E; try discriminate.
  apply (check_index_iff la B) in Ec. destruct (at_pos_exists la B i Ec) as (x & y & z & P).
  rewrite (getPosition_ok la B _ _ _ _ P) in E |- *. cbn [rbind] in *. cbv iota beta in *.
  unfold l_getNeighborDistances_ in E.
  apply rbind_ok_inv in E. destruct E as (n & En & E). rewrite En. cbn [rbind].
  apply num_sites_ok in En. destruct En as [En Hn].
  assert (Ei : l_getIndex_ la x y z = Ok i).
  { destruct P as (P1 & P2 & P3 & P4). rewrite P4. apply (index_ok la B x y z P1 P2 P3). }
  rewrite Ei in E. cbn [rbind] in E.
  apply rbind_ok_inv in E. destruct E as (xlo & E1 & E). rewrite E1. cbn [rbind]. apply chk_inv in E1. destruct E1 as [<- R1].
  apply rbind_ok_inv in E. destruct E as (xhi & E1 & E). rewrite E1. cbn [rbind]. apply chk_inv in E1. destruct E1 as [<- R2].
  apply rbind_ok_inv in E. destruct E as (ylo & E1 & E). rewrite E1. cbn [rbind]. apply chk_inv in E1. destruct E1 as [<- R3].
  apply rbind_ok_inv in E. destruct E as (yhi & E1 & E). rewrite E1. cbn [rbind]. apply chk_inv in E1. destruct E1 as [<- R4].
  apply rbind_ok_inv in E. destruct E as (zlo & E1 & E). rewrite E1. cbn [rbind]. apply chk_inv in E1. destruct E1 as [<- R5].
  apply rbind_ok_inv in E. destruct E as (zhi & E1 & E). rewrite E1. cbn [rbind]. apply chk_inv in E1. destruct E1 as [<- R6].
  apply rbind_ok_inv in E. destruct E as (u & E1 & E). rewrite E1. cbn [rbind]. rewrite E. cbn [rbind].
  apply in_int_iff in R1, R2, R3, R4, R5, R6.
  assert (0 <= n).
  { unfold l_reserve in E1.
    apply rbind_ok_inv in E1. destruct E1 as (q1 & F & E1). apply chk_inv in F. destruct F as [<- _].
    apply rbind_ok_inv in E1. destruct E1 as (q2 & F & E1). apply chk_inv in F. destruct F as [<- _].
    apply rbind_ok_inv in E1. destruct E1 as (q3 & F & E1). apply chk_inv in F. destruct F as [<- _].
    apply rbind_ok_inv in E1. destruct E1 as (q4 & F & E1). apply chk_inv in F. destruct F as [<- _].
    apply rbind_ok_inv in E1. destruct E1 as (q5 & F & E1). apply chk_inv in F. destruct F as [<- _].
    destruct (Z.ltb_spec (2 * n * 2 * n * 2 * n) 0) as [Q|Q]; [discriminate|]. nia. }
  exists x, y, z, n. repeat split; try lia; try exact E; try reflexivity; apply P.
Qed.

Lemma nd_of_neighbors i c l : l_getNeighbors la i (Fin c) = Ok l ->
  exists r, l_getNeighborDistances la i (Fin c) = Ok r /\ l = map fst r.
Proof.
  unfold l_getNeighborDistances, l_getNeighbors. intros E.
  destruct (check_index la i) as [[]| |] eqn:Ec; simpl in E |- *; try discriminate.
  apply (check_index_iff la B) in Ec. destruct (at_pos_exists la B i Ec) as (x & y & z & P).
  rewrite (getPosition_ok la B _ _ _ _ P) in E |- *. cbn [rbind] in *. cbv iota beta in *.
  unfold l_getNeighborDistances_.
  apply rbind_ok_inv in E. destruct E as (n & En & E). rewrite En. cbn [rbind].
  assert (Ei : l_getIndex_ la x y z = Ok i).
  { destruct P as (P1 & P2 & P3 & P4). rewrite P4. apply (index_ok la B x y z P1 P2 P3). }
  rewrite Ei. cbn [rbind].
  do 7 (apply rbind_ok_inv in E; destruct E as (? & E1 & E); rewrite E1; cbn [rbind]; clear E1).
  apply rbind_ok_inv in E. destruct E as (r & E1 & E). rewrite E1. inversion E. eauto.
Qed.

(** every listed entry is a site with an image at that distance *)
Theorem nd_sound i c r j d : l_getNeighborDistances la i (Fin c) = Ok r -> In (j, d) r ->
  j <> i /\ exists D, d = Fin D /\ (D <= c)%R /\ idist i j D.
Proof.
  intros E Hin. destruct (nd_inv _ _ _ E) as (x & y & z & n & P & Hn & Hn0 & _ & _ & _ & _ & _ & _ & Eb & _).
  destruct (sizes la B) as (SL & SW & SH & _).
  apply (box_In la B _ _ _ _ _ _ _ _ _ _ _ _ _ _ Eb) in Hin.
  destruct Hin as (xi & yi & zi & Hx & Hy & Hz & (xp & yp & zp & W1 & R1 & W2 & R2 & W3 & R3 & Ed & Ele & En & Ene)).
  split; [exact Ene|]. apply getDistance_ok in Ed. subst d. eexists; split; [reflexivity|].
  split; [apply xleb_Fin; exact Ele|].
  exists x, y, z, xp, yp, zp, xi, yi, zi.
  apply wrap_image in W1, W2, W3; try assumption.
  split; [exact P|]. split; [repeat split; try lia; exact En|]. auto.
Qed.

(** every site with an image within the cutoff is listed, at a distance that is
    no larger than that of any image *)
Theorem nd_complete i c r j D : l_getNeighborDistances la i (Fin c) = Ok r ->
  j <> i -> idist i j D -> (D <= c)%R ->
  exists D', In (j, Fin D') r /\ idist i j D' /\ forall D'', idist i j D'' -> (D' <= D'')%R.
Proof.
  intros E Hne Hd Hle.
  destruct (nd_inv _ _ _ E) as (x & y & z & n & P & Hn & Hn0 & I1 & I2 & I3 & I4 & I5 & I6 & Eb & _).
  destruct Hd as (x1 & y1 & z1 & x2 & y2 & z2 & X & Y & Z & P1 & P2 & IX & IY & IZ & ->).
  destruct (at_pos_unique la _ _ _ _ _ _ _ P P1) as (<- & <- & <-).
  destruct (sizes la B) as (SL & SW & SH & S1 & S2 & S3 & S4 & S5 & S6).
  assert (P' := P). destruct P' as (Px & Py & Pz & _). assert (P2' := P2). destruct P2' as (Qx & Qy & Qz & Qj).
  destruct (nearest_image _ L x2 x X SL Qx Px IX) as (X' & IX' & LX & RX & MX).
  destruct (nearest_image _ W y2 y Y SW Qy Py IY) as (Y' & IY' & LY & RY & MY).
  destruct (nearest_image _ Ht z2 z Z SH Qz Pz IZ) as (Z' & IZ' & LZ & RZ & MZ).
  assert (Hle' : (euclid sp X' Y' Z' x y z <= c)%R).
  { eapply Rle_trans; [|exact Hle]. apply euclid_mono; [lra|]. unfold sq_dist.
    pose proof (sq_abs_mono _ _ LX). pose proof (sq_abs_mono _ _ LY). pose proof (sq_abs_mono _ _ LZ). lia. }
  assert (Hid : idist i j (euclid sp X' Y' Z' x y z)).
  { exists x, y, z, x2, y2, z2, X', Y', Z'. repeat (split; [assumption|]). reflexivity. }
  exists (euclid sp X' Y' Z' x y z). split; [|split; [exact Hid|]].
  - destruct (euclid_coord sp c _ _ _ _ _ _ Hsp Hle') as (C1 & C2 & C3). rewrite <- Hn in *.
    assert (VX : x - n <= X' <= x + n) by lia.
    assert (VY : y - n <= Y' <= y + n) by lia.
    assert (VZ : z - n <= Z' <= z + n) by lia.
    assert (WX : l_wrap (l_xb la) X' L = Ok x2) by (apply image_wrap; auto; lia).
    assert (WY : l_wrap (l_yb la) Y' W = Ok y2) by (apply image_wrap; auto; lia).
    assert (WZ : l_wrap (l_zb la) Z' Ht = Ok z2) by (apply image_wrap; auto; lia).
    apply (box_In la B _ _ _ _ _ _ _ _ _ _ _ _ _ _ Eb).
    exists X', Y', Z'. split; [exact VX|split; [exact VY|split; [exact VZ|]]].
    exists x2, y2, z2.
    assert (Ed : l_getDistance_ la X' Y' Z' x y z = Ok (Fin (euclid sp X' Y' Z' x y z))).
    { (* the loop body ran for this visit without overflow *)
      unfold l_box in Eb. destruct (rloop_ok _ _ _ _ Eb) as [A1 _]. destruct (A1 X' VX) as [b1 E1].
      rewrite WX in E1. cbn [rbind] in E1. rewrite (proj2 (in_size_iff x2 L) Qx) in E1.
      destruct (rloop_ok _ _ _ _ E1) as [A2 _]. destruct (A2 Y' VY) as [b2 E2].
      rewrite WY in E2. cbn [rbind] in E2. rewrite (proj2 (in_size_iff y2 W) Qy) in E2.
      destruct (rloop_ok _ _ _ _ E2) as [A3 _]. destruct (A3 Z' VZ) as [b3 E3].
      rewrite WZ in E3. cbn [rbind] in E3. rewrite (proj2 (in_size_iff z2 Ht) Qz) in E3.
      apply rbind_ok_inv in E3. destruct E3 as (d & Ed & _). rewrite Ed. f_equal.
      apply getDistance_ok; exact Ed. }
    repeat (split; [assumption|]). split; [apply xleb_Fin; exact Hle'|]. auto.
  - intros D'' (a1 & b1 & c1 & a2 & b2 & c2 & U & V & Q & P3 & P4 & J1 & J2 & J3 & ->).
    destruct (at_pos_unique la _ _ _ _ _ _ _ P P3) as (<- & <- & <-).
    destruct (at_pos_unique la _ _ _ _ _ _ _ P2 P4) as (<- & <- & <-).
    apply euclid_mono; [lra|]. unfold sq_dist.
    pose proof (sq_abs_mono _ _ (MX _ J1)). pose proof (sq_abs_mono _ _ (MY _ J2)). pose proof (sq_abs_mono _ _ (MZ _ J3)). lia.
Qed.

(** the relation "has an image within the cutoff" is symmetric *)
Lemma image_flip b size p q v : image b size p v -> exists w, image b size q w /\ w - p = - (v - q).
Proof.
  destruct b; simpl.
  - intros ->. exists q; split; [reflexivity|ring].
  - intros [k ->]. exists (q + (- k) * size). split; [eexists; reflexivity|ring].
Qed.
Lemma idist_sym i j D : idist i j D -> idist j i D.
Proof.
  intros (x1 & y1 & z1 & x2 & y2 & z2 & X & Y & Z & P1 & P2 & IX & IY & IZ & ->).
  destruct (image_flip _ _ _ x1 _ IX) as (X' & JX & EX).
  destruct (image_flip _ _ _ y1 _ IY) as (Y' & JY & EY).
  destruct (image_flip _ _ _ z1 _ IZ) as (Z' & JZ & EZ).
  exists x2, y2, z2, x1, y1, z1, X', Y', Z'. repeat (split; [assumption|]).
  unfold euclid, sq_dist. rewrite EX, EY, EZ. do 3 f_equal. ring.
Qed.

Theorem neighbors_In i c l j : l_getNeighbors la i (Fin c) = Ok l ->
  In j l <-> j <> i /\ exists D, (D <= c)%R /\ idist i j D.
Proof.
  intros E. destruct (nd_of_neighbors _ _ _ E) as (r & Er & ->). split.
  - intros Hin. apply in_map_iff in Hin. destruct Hin as ([j' d] & <- & Hin). simpl.
    destruct (nd_sound _ _ _ _ _ Er Hin) as (A1 & D & _ & A2 & A3). eauto.
  - intros (Hne & D & Hle & Hd). destruct (nd_complete _ _ _ _ _ Er Hne Hd Hle) as (D' & Hin & _).
    apply in_map_iff. eexists; split; [|exact Hin]. reflexivity.
Qed.

Theorem neighbors_NoDup i c l : l_getNeighbors la i (Fin c) = Ok l ->
  (l_xb la = Periodic -> 2 * steps sp c < L) -> (l_yb la = Periodic -> 2 * steps sp c < W) ->
  (l_zb la = Periodic -> 2 * steps sp c < Ht) -> NoDup l.
Proof.
  intros E C1 C2 C3. destruct (nd_of_neighbors _ _ _ E) as (r & Er & ->).
  destruct (nd_inv _ _ _ Er) as (x & y & z & n & P & Hn & Hn0 & _ & _ & _ & _ & _ & _ & Eb & _).
  rewrite <- Hn in *.
  apply (box_NoDup la B _ _ _ _ _ _ _ _ _ _ _ _ Eb); intros Hp;
    [specialize (C1 Hp)|specialize (C2 Hp)|specialize (C3 Hp)]; lia.
Qed.

Theorem neighbors_sym i j c li lj :
  l_getNeighbors la i (Fin c) = Ok li -> l_getNeighbors la j (Fin c) = Ok lj -> In j li -> In i lj.
Proof.
  intros Ei Ej Hin. apply (neighbors_In _ _ _ _ Ei) in Hin. destruct Hin as (Hne & D & Hle & Hd).
  apply (neighbors_In _ _ _ _ Ej). split; [auto|]. exists D; split; [exact Hle|]. apply idist_sym; exact Hd.
Qed.

(** definedness *)
Lemma box_def i x y z n c : at_pos L W Ht i x y z -> 0 <= n <= 645 ->
  L <= INT_MAX - 645 -> W <= INT_MAX - 645 -> Ht <= INT_MAX - 645 ->
  exists r, l_box la i x y z (x - n) (x + n) (y - n) (y + n) (z - n) (z + n) c = Ok r.
Proof.
  intros P Hn CL CW CH. destruct (sizes la B) as (SL & SW & SH & S1 & S2 & S3 & S4 & S5 & S6).
  destruct P as (P1 & P2 & P3 & P4). unfold INT_MAX in *.
  assert (Wr : forall b v size, 0 < size <= INT_MAX - 645 -> -645 <= v <= size + 645 ->
    exists p, l_wrap b v size = Ok p).
  { intros b v size Hs Hv. destruct b; simpl; [eauto|]. apply periodic_noerr; unfold INT_MIN, INT_MAX in *; lia. }
  unfold INT_MAX in Wr. unfold l_box. apply rloop_exists; [unfold INT_MIN, INT_MAX; lia|]. intros xi Hx.
  destruct (Wr (l_xb la) xi L) as [xp ->]; [lia..|]. cbn [rbind].
  destruct (in_size xp L) eqn:Ex; [|eauto]. apply in_size_iff in Ex.
  apply rloop_exists; [unfold INT_MIN, INT_MAX; lia|]. intros yi Hy.
  destruct (Wr (l_yb la) yi W) as [yp ->]; [lia..|]. cbn [rbind].
  destruct (in_size yp W) eqn:Ey; [|eauto]. apply in_size_iff in Ey.
  apply rloop_exists; [unfold INT_MIN, INT_MAX; lia|]. intros zi Hz.
  destruct (Wr (l_zb la) zi Ht) as [zp ->]; [lia..|]. cbn [rbind].
  destruct (in_size zp Ht) eqn:Ez; [|eauto]. apply in_size_iff in Ez.
  rewrite getDistance_def by lia. cbn [rbind].
  match goal with |- exists r, (if ?t then _ else _) = _ => destruct t; [|eauto] end.
  destruct (index_ok la B _ _ _ Ex Ey Ez) as [-> _]. cbn [rbind].
  match goal with |- exists r, (if ?t then _ else _) = _ => destruct t; eauto end.
Qed.

Theorem neighbors_def i c : 0 <= i < T -> (0 <= c)%R -> (c < 646 * sp)%R ->
  L <= INT_MAX - 645 -> W <= INT_MAX - 645 -> Ht <= INT_MAX - 645 ->
  exists r, l_getNeighborDistances la i (Fin c) = Ok r /\ l_getNeighbors la i (Fin c) = Ok (map fst r).
Proof.
  intros Hi Hc Hc' CL CW CH. destruct (at_pos_exists la B i Hi) as (x & y & z & P).
  assert (Hn : 0 <= steps sp c <= 645).
  { unfold steps. split.
    - apply Rfloor_ge. apply Rmult_le_reg_r with sp; [exact Hsp|].
      replace (c / sp * sp)%R with c by (field; lra). lra.
    - destruct (Rfloor_spec (c / sp)) as [F _].
      assert (Rfloor (c / sp) < 646)%Z; [|lia]. apply lt_IZR. eapply Rle_lt_trans; [exact F|].
      apply Rmult_lt_reg_r with sp; [exact Hsp|].
      replace (c / sp * sp)%R with c by (field; lra). lra. }
  assert (E : exists r, l_getNeighborDistances la i (Fin c) = Ok r).
  { unfold l_getNeighborDistances. rewrite (proj2 (check_index_iff la B i) Hi). cbn [rbind].
    rewrite (getPosition_ok la B _ _ _ _ P). cbn [rbind]. cbv iota beta.
    unfold l_getNeighborDistances_. rewrite num_sites_def by (apply in_int_iff; unfold INT_MIN, INT_MAX; lia).
    cbn [rbind].
    assert (Ei : l_getIndex_ la x y z = Ok i).
    { destruct P as (P1 & P2 & P3 & P4). rewrite P4. apply (index_ok la B x y z P1 P2 P3). }
    rewrite Ei. cbn [rbind]. assert (P' := P). destruct P' as (P1 & P2 & P3 & P4).
    do 6 (rewrite chk_ok by (apply in_int_iff; unfold INT_MIN, INT_MAX in *; lia); cbn [rbind]).
    set (n := steps sp c) in *.
    rewrite (reserve_ok n Hn). cbn [rbind]. apply box_def; auto. }
  destruct E as [r E]. exists r. split; [exact E|]. destruct (nd_inv _ _ _ E) as (? & ? & ? & ? & E').
  apply E'.
Qed.

(** large and negative cutoffs *)
Lemma reserve_neg n : INT_MIN <= n < 0 -> l_reserve n = Err LengthError \/ l_reserve n = Bad Undefined.
Proof.
  assert (C : forall z, chk z = Ok z \/ chk z = Bad Undefined) by (intros z; unfold chk; destruct (in_int z); auto).
  intros Hn. unfold l_reserve.
  destruct (C (2 * n)) as [->| ->]; cbn [rbind]; [|auto].
  destruct (C (2 * n * 2)) as [->| ->]; cbn [rbind]; [|auto].
  destruct (C (2 * n * 2 * n)) as [->| ->]; cbn [rbind]; [|auto].
  destruct (C (2 * n * 2 * n * 2)) as [->| ->]; cbn [rbind]; [|auto].
  destruct (C (2 * n * 2 * n * 2 * n)) as [->| ->]; cbn [rbind]; [|auto].
  destruct (Z.ltb_spec (2 * n * 2 * n * 2 * n) 0); [auto|nia].
Qed.

Theorem neighbors_large i c : (646 * sp <= c)%R -> forall l, l_getNeighbors la i (Fin c) <> Ok l.
Proof.
  intros Hc l E. destruct (nd_of_neighbors _ _ _ E) as (r & Er & _).
  unfold l_getNeighborDistances in Er.
  apply rbind_ok_inv in Er. destruct Er as (u & _ & Er).
  apply rbind_ok_inv in Er. destruct Er as ([[x y] z] & _ & Er). unfold l_getNeighborDistances_ in Er.
  apply rbind_ok_inv in Er. destruct Er as (n & En & Er).
  apply num_sites_ok in En. destruct En as [-> Hi]. apply in_int_iff in Hi.
  assert (646 <= steps sp c).
  { unfold steps. apply Rfloor_ge. apply Rmult_le_reg_r with sp; [exact Hsp|].
    replace (c / sp * sp)%R with c by (field; lra). exact Hc. }
  apply rbind_ok_inv in Er. destruct Er as (ix & _ & Er).
  do 6 (apply rbind_ok_inv in Er; destruct Er as (? & _ & Er)).
  apply rbind_ok_inv in Er. destruct Er as (u' & E1 & _).
  unfold l_reserve in E1. set (n := steps sp c) in *.
  apply rbind_ok_inv in E1. destruct E1 as (q1 & F & E1). apply chk_inv in F. destruct F as [<- _].
  apply rbind_ok_inv in E1. destruct E1 as (q2 & F & E1). apply chk_inv in F. destruct F as [<- _].
  apply rbind_ok_inv in E1. destruct E1 as (q3 & F & E1). apply chk_inv in F. destruct F as [<- _].
  apply rbind_ok_inv in E1. destruct E1 as (q4 & F & E1). apply chk_inv in F. destruct F as [<- _].
  apply rbind_ok_inv in E1. destruct E1 as (q5 & F & E1). apply chk_inv in F. destruct F as [<- F].
  apply in_int_iff in F. unfold INT_MAX in F.
  assert (646 * 646 <= n * n) by nia. assert (646 * 646 * 646 <= n * n * n) by nia. nia.
Qed.

(** ** getSmallestDistance *)

(** the smallest distance to any image *)
Definition least_image (i j : Z) (D : R) : Prop := idist i j D /\ forall D', idist i j D' -> (D <= D')%R.

Lemma min_image_fixed v1 v2 size : l_min_image Fixed v1 v2 size v2 = Ok v2.
Proof. reflexivity. Qed.

Lemma min_image_ok b v1 v2 size old : 0 < size -> size <= 1000000000 -> 0 <= v1 < size -> 0 <= v2 < size ->
  (b = Fixed -> old = v2) ->
  (b = Periodic -> v1 = 0) ->
  exists v, l_min_image b v1 v2 size old = Ok v /\
    exists V, image b size v2 V /\ Z.abs (v1 - v) = Z.abs (V - v1) /\
      forall V', image b size v2 V' -> Z.abs (V - v1) <= Z.abs (V' - v1).
Proof.
  intros Hs Hm H1 H2 Ho Hz. destruct b.
  - rewrite (Ho eq_refl). exists v2. split; [reflexivity|]. exists v2. split; [reflexivity|]. split; [lia|].
    intros V' ->. lia.
  - rewrite (Hz eq_refl) in *. unfold l_min_image.

    do 6 (rewrite chk_ok by (apply in_int_iff; unfold INT_MIN, INT_MAX; lia); cbn [rbind]).
    eexists; split; [reflexivity|].
    destruct (Z.le_gt_cases (2 * v2) size).
    + exists v2. split; [exists 0; ring|]. split; [lia|]. intros V' [k ->].
      destruct (Z.le_gt_cases 0 k); nia.
    + exists (v2 - size). split; [exists (-1); ring|]. split; [lia|]. intros V' [k ->].
      destruct (Z.le_gt_cases 0 k); nia.
Qed.

Theorem smallest_partial i j x1 y1 z1 x2 y2 z2 :
  at_pos L W Ht i x1 y1 z1 -> at_pos L W Ht j x2 y2 z2 ->
  L <= 26000 -> W <= 26000 -> Ht <= 26000 ->
  l_zb la = Fixed -> (l_xb la = Periodic -> x1 = 0) -> (l_yb la = Periodic -> y1 = 0) ->
  exists D, l_getSmallestDistance la i j = Ok (Fin D) /\ least_image i j D.
Proof.
  intros P1 P2 CL CW CH Fz Cx Cy.
  destruct (sizes la B) as (SL & SW & SH & S1 & S2 & S3 & S4 & S5 & S6).
  assert (P1' := P1). destruct P1' as (A1 & A2 & A3 & A4). assert (P2' := P2). destruct P2' as (B1 & B2 & B3 & B4).
  destruct (min_image_ok (l_xb la) x1 x2 L x2 SL) as (vx & Ex & VX & IX & DX & MX); auto;
    [lia|].
  destruct (min_image_ok (l_yb la) y1 y2 W y2 SW) as (vy & Ey & VY & IY & DY & MY); auto;
    [lia|].
  unfold l_getSmallestDistance.
  rewrite (proj2 (check_index_iff la B i) (at_pos_range la B _ _ _ _ P1)). cbn [rbind].
  rewrite (proj2 (check_index_iff la B j) (at_pos_range la B _ _ _ _ P2)). cbn [rbind].
  rewrite (getPos_ok la B _ _ _ _ P1). cbn [rbind]. rewrite (getPos_ok la B _ _ _ _ P2). cbn [rbind].
  cbv iota beta. rewrite Ex. cbn [rbind]. rewrite Ey. cbn [rbind]. rewrite Fz. cbn [l_min_image rbind].
  assert (Bx : Z.abs (x1 - vx) <= 26000).
  { rewrite DX. assert (Hi : image (l_xb la) L x2 x2) by (destruct (l_xb la); simpl; [reflexivity|exists 0; ring]).
    specialize (MX _ Hi). lia. }
  assert (By : Z.abs (y1 - vy) <= 26000).
  { rewrite DY. assert (Hi : image (l_yb la) W y2 y2) by (destruct (l_yb la); simpl; [reflexivity|exists 0; ring]).
    specialize (MY _ Hi). lia. }
  rewrite getDistance_def by lia. eexists; split; [reflexivity|]. split.
  - exists x1, y1, z1, x2, y2, z2, VX, VY, z2. repeat (split; [assumption|]).
    split; [rewrite Fz; reflexivity|]. unfold euclid. do 3 f_equal. unfold sq_dist.
    pose proof (Z.abs_square (x1 - vx)) as Qx. pose proof (Z.abs_square (VX - x1)) as Qx'. rewrite DX in Qx.
    pose proof (Z.abs_square (y1 - vy)) as Qy. pose proof (Z.abs_square (VY - y1)) as Qy'. rewrite DY in Qy.
    rewrite <- Qx, <- Qy, Qx', Qy'. ring.
  - intros D' (a1 & b1 & c1 & a2 & b2 & c2 & U & V & Q & P3 & P4 & J1 & J2 & J3 & ->).
    destruct (at_pos_unique la _ _ _ _ _ _ _ P1 P3) as (<- & <- & <-).
    destruct (at_pos_unique la _ _ _ _ _ _ _ P2 P4) as (<- & <- & <-).
    rewrite Fz in J3. simpl in J3. subst Q.
    apply euclid_mono; [lra|]. unfold sq_dist.
    pose proof (MX _ J1) as M1. rewrite <- DX in M1. pose proof (MY _ J2) as M2. rewrite <- DY in M2.
    apply sq_abs_mono in M1, M2. nia.
Qed.

End P.
