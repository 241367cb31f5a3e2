(** * getSmallestDistance on every lattice: what it answers, and when that is
      the smallest distance to an image *)
From Coq Require Import ZArith List Bool Lia Reals Lra.
From Verif Require Import Base BaseProofs Num OrdLaws LatticeModel LatticeSpec LatticeProofs LatticeReal.
Import ListNotations.
Open Scope Z_scope.

Local Notation lattice := (@lattice XR).

(** ** Specification *)

(** [n] steps along one direction lead from coordinate [p] to the nearest image
    of coordinate [q] *)
Definition apart (b : boundary) (size p q n : Z) : Prop :=
  (exists V, image b size q V /\ n = Z.abs (V - p)) /\
  forall V, image b size q V -> n <= Z.abs (V - p).

(** the number standing in for the second site's coordinate: along a periodic
    direction the step count itself is used as if it were a coordinate *)
Definition stand_in (b : boundary) (q n : Z) : Z :=
  match b with Fixed => q | Periodic => n end.

(** in z the step count is that from [y1] to the number standing in for the
    second site's y, wrapped at most once around the height *)
Definition stand_in_z (b : boundary) (H y1 uy z2 : Z) : Z :=
  match b with
  | Fixed => z2
  | Periodic => Z.min (Z.abs (uy - y1)) (Z.min (Z.abs (uy - y1 + H)) (Z.abs (uy - y1 - H)))
  end.

(** ** Proofs *)
Lemma apart_exists b size p q : 0 < size -> 0 <= p < size -> 0 <= q < size ->
  apart b size p q (match b with
                    | Fixed => Z.abs (q - p)
                    | Periodic => Z.min (Z.min (Z.abs (q - p + size)) (Z.abs (q - p - size))) (Z.abs (q - p))
                    end).
Proof.
  intros Hs Hp Hq. destruct b; unfold apart; simpl.
  - split; [exists q; auto|]. intros V ->. lia.
  - split.
    + destruct (Z.min_spec (Z.abs (q - p + size)) (Z.abs (q - p - size))) as [[_ E]|[_ E]]; rewrite E;
        match goal with |- context [Z.min ?a ?b] => destruct (Z.min_spec a b) as [[_ F]|[_ F]]; rewrite F end.
      * exists (q + size). split; [exists 1; ring|]. f_equal. ring.
      * exists q. split; [exists 0; ring|]. reflexivity.
      * exists (q - size). split; [exists (-1); ring|]. f_equal. ring.
      * exists q. split; [exists 0; ring|]. reflexivity.
    + intros V [k ->].
      destruct (Z.eq_dec k 0) as [->|K0]; [lia|].
      destruct (Z.lt_ge_cases 0 k).
      * assert (size <= k * size) by nia. lia.
      * assert (k * size <= - size) by nia. lia.
Qed.

Lemma apart_unique b size p q n m : apart b size p q n -> apart b size p q m -> n = m.
Proof.
  intros [(V & I & E) M] [(V' & I' & E') M']. specialize (M _ I'). specialize (M' _ I). lia.
Qed.

Lemma apart_bound b size p q n : 0 < size -> 0 <= p < size -> 0 <= q < size -> apart b size p q n -> 0 <= n < size.
Proof.
  intros Hs Hp Hq [(V & I & E) M].
  assert (Hi : image b size q q) by (destruct b; simpl; [reflexivity|exists 0; ring]).
  specialize (M _ Hi). lia.
Qed.

Lemma min_image_apart b p q size n : 0 < size -> size <= 26000 -> 0 <= p < size -> 0 <= q < size ->
  apart b size p q n -> l_min_image b p q size q = Ok (stand_in b q n).
Proof.
  intros Hs Hm Hp Hq Ha. rewrite (apart_unique _ _ _ _ _ _ Ha (apart_exists b size p q Hs Hp Hq)).
  destruct b; [reflexivity|]. unfold l_min_image, stand_in.
  do 6 (rewrite chk_ok by (apply in_int_iff; unfold INT_MIN, INT_MAX; lia); cbn [rbind]). reflexivity.
Qed.

Lemma min_image_z b y1 uy H z2 : 0 < H <= 26000 -> 0 <= y1 < 26000 -> 0 <= uy < 26000 ->
  l_min_image b y1 uy H z2 = Ok (stand_in_z b H y1 uy z2).
Proof.
  intros HH Hy Hu. destruct b; [reflexivity|]. unfold l_min_image, stand_in_z.
  do 6 (rewrite chk_ok by (apply in_int_iff; unfold INT_MIN, INT_MAX; lia); cbn [rbind]). f_equal. lia.
Qed.

Section E.
Variable la : lattice.
Hypothesis B : built la.
Variable sp : R.
Hypothesis Sp : l_spacing la = Fin sp.
Hypothesis Hsp : (0 < sp)%R.
Notation L := (l_len la).
Notation W := (l_wid la).
Notation Ht := (l_hei la).
Notation idist := (image_dist L W Ht (l_xb la) (l_yb la) (l_zb la) sp).

Theorem smallest_answer i j x1 y1 z1 x2 y2 z2 nx ny :
  at_pos L W Ht i x1 y1 z1 -> at_pos L W Ht j x2 y2 z2 ->
  L <= 26000 -> W <= 26000 -> Ht <= 26000 ->
  apart (l_xb la) L x1 x2 nx -> apart (l_yb la) W y1 y2 ny ->
  let ux := stand_in (l_xb la) x2 nx in
  let uy := stand_in (l_yb la) y2 ny in
  let uz := stand_in_z (l_zb la) Ht y1 uy z2 in
  l_getSmallestDistance la i j = Ok (Fin (euclid sp x1 y1 z1 ux uy uz)).
Proof.
  intros P1 P2 CL CW CH Ax Ay ux uy uz.
  destruct (sizes la B) as (SL & SW & SH & _).
  assert (P1' := P1). destruct P1' as (A1 & A2 & A3 & A4). assert (P2' := P2). destruct P2' as (B1 & B2 & B3 & B4).
  assert (Ux : 0 <= ux < L).
  { pose proof (apart_bound _ _ _ _ _ SL A1 B1 Ax). unfold ux, stand_in. destruct (l_xb la); assumption. }
  assert (Uy : 0 <= uy < W).
  { pose proof (apart_bound _ _ _ _ _ SW A2 B2 Ay). unfold uy, stand_in. destruct (l_yb la); assumption. }
  unfold l_getSmallestDistance.
  rewrite (proj2 (check_index_iff la B i) (at_pos_range la B _ _ _ _ P1)). cbn [rbind].
  rewrite (proj2 (check_index_iff la B j) (at_pos_range la B _ _ _ _ P2)). cbn [rbind].
  rewrite (getPos_ok la B _ _ _ _ P1). cbn [rbind]. rewrite (getPos_ok la B _ _ _ _ P2). cbn [rbind].
  cbv iota beta.
  rewrite (min_image_apart (l_xb la) x1 x2 L nx) by assumption. cbn [rbind].
  rewrite (min_image_apart (l_yb la) y1 y2 W ny) by assumption. cbn [rbind].
  fold ux uy. rewrite (min_image_z (l_zb la) y1 uy Ht z2) by lia. cbn [rbind]. fold uz.
  assert (Uz : Z.abs (z1 - uz) <= 26000).
  { unfold uz, stand_in_z. destruct (l_zb la); lia. }
  apply getDistance_def; [exact Sp|lia|lia|exact Uz].
Qed.

Lemma least_is i j x1 y1 z1 x2 y2 z2 nx ny nz :
  at_pos L W Ht i x1 y1 z1 -> at_pos L W Ht j x2 y2 z2 ->
  apart (l_xb la) L x1 x2 nx -> apart (l_yb la) W y1 y2 ny -> apart (l_zb la) Ht z1 z2 nz ->
  idist i j (euclid sp nx ny nz 0 0 0) /\
  forall D', idist i j D' -> (euclid sp nx ny nz 0 0 0 <= D')%R.
Proof.
  intros P1 P2 [(VX & IX & DX) MX] [(VY & IY & DY) MY] [(VZ & IZ & DZ) MZ]. split.
  - exists x1, y1, z1, x2, y2, z2, VX, VY, VZ. repeat (split; [assumption|]).
    unfold euclid. do 3 f_equal. unfold sq_dist. rewrite DX, DY, DZ, !Z.sub_0_r, !Z.abs_square. reflexivity.
  - intros D' (a1 & b1 & c1 & a2 & b2 & c2 & U & V & Q & P3 & P4 & J1 & J2 & J3 & ->).
    destruct (at_pos_unique la _ _ _ _ _ _ _ P1 P3) as (<- & <- & <-).
    destruct (at_pos_unique la _ _ _ _ _ _ _ P2 P4) as (<- & <- & <-).
    apply euclid_mono; [lra|]. unfold sq_dist. rewrite !Z.sub_0_r.
    assert (Z.abs nx <= Z.abs (U - x1)) as M1 by (pose proof (MX _ J1); lia).
    assert (Z.abs ny <= Z.abs (V - y1)) as M2 by (pose proof (MY _ J2); lia).
    assert (Z.abs nz <= Z.abs (Q - z1)) as M3 by (pose proof (MZ _ J3); lia).
    apply sq_abs_mono in M1, M2, M3. lia.
Qed.

Lemma sq_dist_nonneg a b c a' b' c' : 0 <= sq_dist a b c a' b' c'.
Proof.
  unfold sq_dist.
  pose proof (Z.square_nonneg (a - a')). pose proof (Z.square_nonneg (b - b')). pose proof (Z.square_nonneg (c - c')). lia.
Qed.

Lemma euclid_inj a b c a' b' c' p q r p' q' r' :
  euclid sp a b c a' b' c' = euclid sp p q r p' q' r' -> sq_dist a b c a' b' c' = sq_dist p q r p' q' r'.
Proof.
  unfold euclid. intros E. apply Rmult_eq_reg_r in E; [|lra].
  apply sqrt_inj in E; [apply eq_IZR; exact E| |]; apply IZR_le, sq_dist_nonneg.
Qed.

Theorem smallest_iff i j x1 y1 z1 x2 y2 z2 nx ny nz :
  at_pos L W Ht i x1 y1 z1 -> at_pos L W Ht j x2 y2 z2 ->
  L <= 26000 -> W <= 26000 -> Ht <= 26000 ->
  apart (l_xb la) L x1 x2 nx -> apart (l_yb la) W y1 y2 ny -> apart (l_zb la) Ht z1 z2 nz ->
  let ux := stand_in (l_xb la) x2 nx in
  let uy := stand_in (l_yb la) y2 ny in
  let uz := stand_in_z (l_zb la) Ht y1 uy z2 in
  (exists D, l_getSmallestDistance la i j = Ok (Fin D) /\
     idist i j D /\ forall D', idist i j D' -> (D <= D')%R) <->
  (x1 - ux) * (x1 - ux) + (y1 - uy) * (y1 - uy) + (z1 - uz) * (z1 - uz) = nx * nx + ny * ny + nz * nz.
Proof.
  intros P1 P2 CL CW CH Ax Ay Az ux uy uz.
  pose proof (smallest_answer i j _ _ _ _ _ _ nx ny P1 P2 CL CW CH Ax Ay) as E. cbv zeta in E. fold ux uy uz in E.
  destruct (least_is i j _ _ _ _ _ _ _ _ _ P1 P2 Ax Ay Az) as [I M].
  assert (S : sq_dist nx ny nz 0 0 0 = nx * nx + ny * ny + nz * nz) by (unfold sq_dist; ring).
  split.
  - intros (D & ED & ID & MD). rewrite E in ED.
    assert (D = euclid sp x1 y1 z1 ux uy uz) as -> by congruence.
    assert (Q : euclid sp x1 y1 z1 ux uy uz = euclid sp nx ny nz 0 0 0) by (apply Rle_antisym; auto).
    apply euclid_inj in Q. rewrite S in Q. exact Q.
  - intros Q. exists (euclid sp nx ny nz 0 0 0). split; [|split; assumption].
    rewrite E. unfold euclid. rewrite S, <- Q. reflexivity.
Qed.

(** one periodic direction *)
Theorem smallest_x_iff i j x1 y1 z1 x2 y2 z2 nx :
  at_pos L W Ht i x1 y1 z1 -> at_pos L W Ht j x2 y2 z2 ->
  L <= 26000 -> W <= 26000 -> Ht <= 26000 ->
  l_xb la = Periodic -> l_yb la = Fixed -> l_zb la = Fixed -> apart Periodic L x1 x2 nx ->
  (exists D, l_getSmallestDistance la i j = Ok (Fin D) /\
     idist i j D /\ forall D', idist i j D' -> (D <= D')%R) <->
  x1 = 0 \/ x1 = 2 * nx.
Proof.
  intros P1 P2 CL CW CH Fx Fy Fz Ax.
  assert (Ay : apart (l_yb la) W y1 y2 (Z.abs (y2 - y1))).
  { rewrite Fy. split; [exists y2; split; reflexivity|]. intros V ->. lia. }
  assert (Az : apart (l_zb la) Ht z1 z2 (Z.abs (z2 - z1))).
  { rewrite Fz. split; [exists z2; split; reflexivity|]. intros V ->. lia. }
  rewrite <- Fx in Ax.
  rewrite (smallest_iff i j _ _ _ _ _ _ _ _ _ P1 P2 CL CW CH Ax Ay Az). rewrite Fx, Fy, Fz.
  unfold stand_in, stand_in_z. rewrite !Z.abs_square. split; intros Q.
  - assert (x1 * (x1 - 2 * nx) = 0) as Q' by lia. apply Z.mul_eq_0 in Q'. lia.
  - destruct Q as [-> | ->]; lia.
Qed.

Theorem smallest_self i x1 y1 z1 :
  at_pos L W Ht i x1 y1 z1 -> L <= 26000 -> W <= 26000 -> Ht <= 26000 ->
  l_zb la = Fixed ->
  let off b v := match b with Fixed => 0 | Periodic => v end in
  l_getSmallestDistance la i i = Ok (Fin (euclid sp (off (l_xb la) x1) (off (l_yb la) y1) 0 0 0 0)).
Proof.
  intros P1 CL CW CH Fz off.
  assert (A0 : forall b s v, apart b s v v 0).
  { intros b s v. split; [|intros; lia].
    exists v. split; [destruct b; [reflexivity|exists 0; ring]|lia]. }
  rewrite (smallest_answer i i _ _ _ _ _ _ 0 0 P1 P1 CL CW CH (A0 _ _ _) (A0 _ _ _)). rewrite Fz.
  do 2 f_equal. unfold euclid. do 3 f_equal. unfold sq_dist, stand_in_z, off.
  destruct (l_xb la), (l_yb la); simpl stand_in; ring.
Qed.
End E.
