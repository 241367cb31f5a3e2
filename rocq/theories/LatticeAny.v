(** * getSmallestDistance on lattices of any size *)
From Coq Require Import ZArith List Bool Lia Reals Lra.
From Verif Require Import Base BaseProofs Num OrdLaws LatticeModel LatticeSpec LatticeProofs LatticeReal LatticeExact.
Import ListNotations.
Open Scope Z_scope.

(** ** Specification *)
(** the steps from [p] to [q] and once around the lattice fit in an int, if
    the direction is periodic *)
Definition room (b : boundary) (size p q : Z) : Prop :=
  match b with Fixed => True | Periodic => Z.abs (q - p) + size <= INT_MAX end.

(** ** Proofs *)
Lemma chk_bad z : z < INT_MIN \/ INT_MAX < z -> chk z = Bad Undefined.
Proof. intros H. unfold chk. destruct (in_int z) eqn:E; [|reflexivity]. apply in_int_iff in E. lia. Qed.
Lemma chk_nice z : INT_MIN <= z <= INT_MAX -> chk z = Ok z.
Proof. intros H. apply chk_ok, in_int_iff. exact H. Qed.
Ltac nice := rewrite chk_nice by (unfold INT_MIN, INT_MAX in *; lia); cbn [rbind].
Lemma min_image_room b p q size old : 0 < size <= INT_MAX -> 0 <= p <= INT_MAX -> 0 <= q <= INT_MAX ->
  room b size p q -> l_min_image b p q size old =
    Ok (match b with Fixed => old | Periodic => Z.min (Z.min (Z.abs (q - p + size)) (Z.abs (q - p - size))) (Z.abs (q - p)) end).
Proof. intros Hs Hp Hq Hr. destruct b; [reflexivity|]. unfold room in Hr. unfold l_min_image. do 6 nice. reflexivity. Qed.
Lemma min_image_none b p q size old : 0 < size <= INT_MAX -> 0 <= p <= INT_MAX -> 0 <= q <= INT_MAX ->
  ~ room b size p q -> l_min_image b p q size old = Bad Undefined.
Proof.
  intros Hs Hp Hq Hr. destruct b; [destruct Hr; exact Logic.I|]. unfold room in Hr. unfold l_min_image. nice.
  destruct (Z.lt_ge_cases INT_MAX (q - p + size)) as [H|H]; [rewrite chk_bad by (right; exact H); reflexivity|]. do 2 nice.
  destruct (Z.lt_ge_cases (q - p - size) INT_MIN) as [H'|H']; [rewrite chk_bad by (left; exact H'); reflexivity|]. nice.
  rewrite chk_bad by (unfold INT_MIN, INT_MAX in *; lia). reflexivity.
Qed.
Lemma distance_fits {N : Num} (la : lattice) x1 y1 z1 x2 y2 z2 : Z.abs (x1 - x2) <= INT_MAX -> Z.abs (y1 - y2) <= INT_MAX -> Z.abs (z1 - z2) <= INT_MAX ->
  (sq_dist x1 y1 z1 x2 y2 z2 <= INT_MAX -> l_getDistance_ la x1 y1 z1 x2 y2 z2 = Ok (nmul (nsqrt (nofZ (sq_dist x1 y1 z1 x2 y2 z2))) (l_spacing la))) /\
  (INT_MAX < sq_dist x1 y1 z1 x2 y2 z2 -> l_getDistance_ la x1 y1 z1 x2 y2 z2 = Bad Undefined).
Proof.
  intros A1 A2 A3. unfold sq_dist.
  pose proof (Z.square_nonneg (x1 - x2)) as Q1. pose proof (Z.square_nonneg (y1 - y2)) as Q2. pose proof (Z.square_nonneg (z1 - z2)) as Q3.
  unfold l_getDistance_. do 3 nice. split; intros H.
  - do 5 nice. reflexivity.
  - remember ((x1 - x2) * (x1 - x2)) as a. remember ((y1 - y2) * (y1 - y2)) as b. remember ((z1 - z2) * (z1 - z2)) as c.
    destruct (Z.lt_ge_cases INT_MAX a); [rewrite chk_bad by auto; reflexivity|]. nice.
    destruct (Z.lt_ge_cases INT_MAX b); [rewrite chk_bad by auto; reflexivity|]. nice.
    destruct (Z.lt_ge_cases INT_MAX c); [rewrite chk_bad by auto; reflexivity|]. nice.
    destruct (Z.lt_ge_cases INT_MAX (a + b)); [rewrite chk_bad by auto; reflexivity|]. nice.
    rewrite chk_bad by lia. reflexivity.
Qed.

Section E.
Variable la : @lattice XR.
Hypothesis B : built la.
Variable sp : R.
Hypothesis Sp : l_spacing la = Fin sp.
Notation L := (l_len la).
Notation W := (l_wid la).
Notation Ht := (l_hei la).
Lemma size_max : L <= INT_MAX /\ W <= INT_MAX /\ Ht <= INT_MAX.
Proof. destruct B as (H1 & H2 & H3 & H4 & _). assert (1 <= L * W) by nia. split; [|split]; nia. Qed.
Theorem smallest_any i j x1 y1 z1 x2 y2 z2 nx ny :
  at_pos L W Ht i x1 y1 z1 -> at_pos L W Ht j x2 y2 z2 ->
  apart (l_xb la) L x1 x2 nx -> apart (l_yb la) W y1 y2 ny ->
  let ux := stand_in (l_xb la) x2 nx in
  let uy := stand_in (l_yb la) y2 ny in
  let uz := stand_in_z (l_zb la) Ht y1 uy z2 in
  let fits := room (l_xb la) L x1 x2 /\ room (l_yb la) W y1 y2 /\ room (l_zb la) Ht y1 uy /\
              (x1 - ux) * (x1 - ux) + (y1 - uy) * (y1 - uy) + (z1 - uz) * (z1 - uz) <= INT_MAX in
  (fits -> l_getSmallestDistance la i j = Ok (Fin (euclid sp x1 y1 z1 ux uy uz))) /\
  (~ fits -> l_getSmallestDistance la i j = Bad Undefined).
Proof.
  intros P1 P2 Ax Ay ux uy uz fits.
  destruct (sizes la B) as (SL & SW & SH & _). destruct size_max as (ML & MW & MH).
  assert (P1' := P1). destruct P1' as (A1 & A2 & A3 & A4). assert (P2' := P2). destruct P2' as (B1 & B2 & B3 & B4).
  assert (Ux : 0 <= ux < L).
  { pose proof (apart_bound _ _ _ _ _ SL A1 B1 Ax). unfold ux, stand_in. destruct (l_xb la); assumption. }
  assert (Uy : 0 <= uy < W).
  { pose proof (apart_bound _ _ _ _ _ SW A2 B2 Ay). unfold uy, stand_in. destruct (l_yb la); assumption. }
  assert (Ex : room (l_xb la) L x1 x2 -> l_min_image (l_xb la) x1 x2 L x2 = Ok ux).
  { intros R. rewrite min_image_room by (auto; lia). unfold ux, stand_in. pose proof (apart_unique _ _ _ _ _ _ Ax (apart_exists (l_xb la) L x1 x2 SL A1 B1)) as ->.
    destruct (l_xb la); reflexivity. }
  assert (Ey : room (l_yb la) W y1 y2 -> l_min_image (l_yb la) y1 y2 W y2 = Ok uy).
  { intros R. rewrite min_image_room by (auto; lia). unfold uy, stand_in. pose proof (apart_unique _ _ _ _ _ _ Ay (apart_exists (l_yb la) W y1 y2 SW A2 B2)) as ->.
    destruct (l_yb la); reflexivity. }
  assert (Ez : room (l_zb la) Ht y1 uy -> l_min_image (l_zb la) y1 uy Ht z2 = Ok uz).
  { intros R. rewrite min_image_room by (auto; lia). unfold uz, stand_in_z. destruct (l_zb la); [reflexivity|f_equal; lia]. }
  unfold l_getSmallestDistance.
  rewrite (proj2 (check_index_iff la B i) (at_pos_range la B _ _ _ _ P1)). cbn [rbind].
  rewrite (proj2 (check_index_iff la B j) (at_pos_range la B _ _ _ _ P2)). cbn [rbind].
  rewrite (getPos_ok la B _ _ _ _ P1). cbn [rbind]. rewrite (getPos_ok la B _ _ _ _ P2). cbn [rbind].
  cbv iota beta.
  assert (Dr : forall b s p q, {room b s p q} + {~ room b s p q}) by (intros [] s p q; [left; exact Logic.I|apply Z_le_dec]).
  destruct (Dr (l_xb la) L x1 x2) as [Rx|Rx]; [|rewrite (min_image_none (l_xb la) x1 x2) by (auto; lia); split; [intros F; destruct Rx; apply F|reflexivity]].
  rewrite (Ex Rx). cbn [rbind].
  destruct (Dr (l_yb la) W y1 y2) as [Ry|Ry]; [|rewrite (min_image_none (l_yb la) y1 y2) by (auto; lia); split; [intros F; destruct Ry; apply F|reflexivity]].
  rewrite (Ey Ry). cbn [rbind].
  destruct (Dr (l_zb la) Ht y1 uy) as [Rz|Rz]; [|rewrite (min_image_none (l_zb la) y1 uy) by (auto; lia); split; [intros F; destruct Rz; apply F|reflexivity]].
  rewrite (Ez Rz). cbn [rbind].
  assert (Uz : 0 <= uz <= INT_MAX).
  { unfold uz, stand_in_z. unfold room in Rz. destruct (l_zb la); lia. }
  destruct (distance_fits la x1 y1 z1 ux uy uz) as [D1 D2]; [lia|lia|lia|]. unfold sq_dist in D2 at 1.
  split.
  - intros (_ & _ & _ & F). specialize (D1 F). rewrite (getDistance_ok la sp Sp _ _ _ _ _ _ _ D1) in D1. exact D1.
  - intros F. apply D2. apply Z.nle_gt. intros X. apply F. unfold fits. auto.
Qed.
Hypothesis Hsp : (0 < sp)%R.
Theorem smallest_any_iff i j x1 y1 z1 x2 y2 z2 nx ny nz :
  at_pos L W Ht i x1 y1 z1 -> at_pos L W Ht j x2 y2 z2 ->
  apart (l_xb la) L x1 x2 nx -> apart (l_yb la) W y1 y2 ny -> apart (l_zb la) Ht z1 z2 nz ->
  let ux := stand_in (l_xb la) x2 nx in
  let uy := stand_in (l_yb la) y2 ny in
  let uz := stand_in_z (l_zb la) Ht y1 uy z2 in
  let idist := image_dist L W Ht (l_xb la) (l_yb la) (l_zb la) sp in
  (exists D, l_getSmallestDistance la i j = Ok (Fin D) /\
     idist i j D /\ forall D', idist i j D' -> (D <= D')%R) <->
  room (l_xb la) L x1 x2 /\ room (l_yb la) W y1 y2 /\ room (l_zb la) Ht y1 uy /\
  nx * nx + ny * ny + nz * nz <= INT_MAX /\
  (x1 - ux) * (x1 - ux) + (y1 - uy) * (y1 - uy) + (z1 - uz) * (z1 - uz) = nx * nx + ny * ny + nz * nz.
Proof.
  intros P1 P2 Ax Ay Az ux uy uz idist.
  destruct (smallest_any i j _ _ _ _ _ _ nx ny P1 P2 Ax Ay) as [E1 E2]. fold ux uy uz in E1, E2.
  destruct (least_is la sp Hsp i j _ _ _ _ _ _ _ _ _ P1 P2 Ax Ay Az) as [I M]. fold idist in I, M.
  assert (S : sq_dist nx ny nz 0 0 0 = nx * nx + ny * ny + nz * nz) by (unfold sq_dist; ring).
  assert (Dr : forall b s p q, {room b s p q} + {~ room b s p q}) by (intros [] s p q; [left; exact Logic.I|apply Z_le_dec]).
  split.
  - intros (D & ED & ID & MD).
    destruct (Dr (l_xb la) L x1 x2) as [Rx|Rx]; [|rewrite E2 in ED by tauto; discriminate].
    destruct (Dr (l_yb la) W y1 y2) as [Ry|Ry]; [|rewrite E2 in ED by tauto; discriminate].
    destruct (Dr (l_zb la) Ht y1 uy) as [Rz|Rz]; [|rewrite E2 in ED by tauto; discriminate].
    match type of E1 with _ /\ _ /\ _ /\ ?s <= _ -> _ => destruct (Z_le_dec s INT_MAX) as [F|F] end; [|rewrite E2 in ED by tauto; discriminate].
    rewrite E1 in ED by tauto. assert (D = euclid sp x1 y1 z1 ux uy uz) as -> by congruence.
    assert (Q : euclid sp x1 y1 z1 ux uy uz = euclid sp nx ny nz 0 0 0) by (apply Rle_antisym; auto).
    apply (euclid_inj sp Hsp) in Q. rewrite S in Q. unfold sq_dist in Q. rewrite <- Q. tauto.
  - intros (Rx & Ry & Rz & F & Q). exists (euclid sp nx ny nz 0 0 0). split; [|split; assumption].
    rewrite E1 by (rewrite Q; tauto). unfold euclid. rewrite S, <- Q. reflexivity.
Qed.
End E.
