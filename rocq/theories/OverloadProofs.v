(** * The queries of a lattice agree with one another *)
From Coq Require Import ZArith List Bool Lia.
From Verif Require Import Base BaseProofs Num LatticeModel LatticeSpec LatticeProofs OverloadSpec.
Import ListNotations.
Open Scope Z_scope.

Section L.
Context {N : Num}.
Variable la : lattice.
Hypothesis B : built la.
Notation T := (l_len la * l_wid la * l_hei la).

Lemma coordinates i : INT_MIN <= i <= INT_MAX ->
  l_getX la i = through (fun p => fst (fst p)) (l_getPosition la i) /\
  l_getY la i = through (fun p => snd (fst p)) (l_getPosition la i) /\
  l_getZ la i = through snd (l_getPosition la i).
Proof.
  intros Hi. destruct (sizes la B) as (SL & SW & SH & S1 & S2 & S3 & S4 & S5 & S6).
  unfold l_getX, l_getY, l_getZ, l_getPosition, l_getPos_.
  destruct (check_upper la i) as [[]| |]; cbn [rbind through]; [|auto|auto].
  rewrite chk_ok by (apply in_int_iff; unfold INT_MIN, INT_MAX in *; lia). cbn [rbind].
  unfold idiv, imod. destruct (Z.eqb_spec (l_len la * l_wid la) 0); [lia|]. destruct (Z.eqb_spec (l_len la) 0); [lia|].
  cbn [rbind]. set (lw := l_len la * l_wid la) in *.
  pose proof (Z.quot_rem' i lw) as Q.
  assert (R : INT_MIN <= lw * Z.quot i lw <= INT_MAX /\ INT_MIN <= i - lw * Z.quot i lw <= INT_MAX).
  { destruct (Z_lt_le_dec i 0).
    - pose proof (Z.rem_nonpos i lw ltac:(lia) ltac:(lia)).
      assert (i <= lw * Z.quot i lw) by lia.
      assert (Z.quot i lw <= 0) by (pose proof (Z.quot_opp_l i lw ltac:(lia)); pose proof (Z.quot_pos (- i) lw ltac:(lia) ltac:(lia)); lia).
      assert (lw * Z.quot i lw <= 0) by nia. unfold INT_MIN, INT_MAX in *. lia.
    - pose proof (Z.rem_bound_pos i lw ltac:(lia) ltac:(lia)). pose proof (Z.quot_pos i lw ltac:(lia) ltac:(lia)).
      assert (0 <= lw * Z.quot i lw) by nia. unfold INT_MIN, INT_MAX in *. lia. }
  rewrite chk_ok by (apply in_int_iff; lia). cbn [rbind].
  rewrite chk_ok by (apply in_int_iff; lia). cbn [rbind through fst snd]. auto.
Qed.

Lemma by_position i c x y z : at_pos (l_len la) (l_wid la) (l_hei la) i x y z ->
  l_getPosition la i = Ok (x, y, z) /\ l_getIndex la x y z = Ok i /\
  l_getNeighborDistances_pos la [x; y; z] c = l_getNeighborDistances la i c.
Proof.
  intros P. pose proof (getPosition_ok la B _ _ _ _ P) as E. split; [exact E|].
  pose proof (at_pos_range la B _ _ _ _ P) as R.
  destruct (sizes la B) as (SL & SW & SH & S1 & S2 & S3 & S4 & S5 & S6).
  destruct P as (P1 & P2 & P3 & P4). split.
  - assert (C : forall b v size, 0 < size <= INT_MAX -> 0 <= v < size -> l_coord b v size = Ok v).
    { intros [] v size Hs Hv; simpl.
      - unfold check_pos. destruct (Z.ltb_spec v 0); [lia|]. destruct (Z.geb_spec v size); [lia|]. reflexivity.
      - unfold l_periodic, imod. destruct (Z.ltb_spec v 0); [lia|]. destruct (Z.eqb_spec size 0); [lia|].
        rewrite Z.rem_small by lia. reflexivity. }
    unfold l_getIndex. rewrite !C by lia. cbn [rbind]. rewrite P4. apply (index_ok la B x y z P1 P2 P3).
  - unfold l_getNeighborDistances_pos, l_getNeighborDistances.
    rewrite (proj2 (check_index_iff la B i)) by lia. rewrite E. cbn [rbind].
    unfold check_pos. destruct (Z.ltb_spec x 0); [lia|]. destruct (Z.geb_spec x (l_len la)); [lia|].
    destruct (Z.ltb_spec y 0); [lia|]. destruct (Z.geb_spec y (l_wid la)); [lia|].
    destruct (Z.ltb_spec z 0); [lia|]. destruct (Z.geb_spec z (l_hei la)); [lia|]. reflexivity.
Qed.

Lemma sites_of_distances i c : l_getNeighbors la i c = through (map fst) (l_getNeighborDistances la i c).
Proof.
  unfold l_getNeighbors, l_getNeighborDistances, l_getNeighborDistances_.
  destruct (check_index la i) as [[]| |] eqn:Ec; cbn [rbind through]; [|auto|auto].
  apply (check_index_iff la B) in Ec. destruct (at_pos_exists la B i Ec) as (x & y & z & P).
  rewrite (getPosition_ok la B _ _ _ _ P). cbn [rbind]. cbv iota beta.
  assert (Ei : l_getIndex_ la x y z = Ok i).
  { destruct P as (P1 & P2 & P3 & P4). rewrite P4. apply (index_ok la B x y z P1 P2 P3). }
  destruct (l_num_sites la c) as [n| |]; cbn [rbind through]; [|auto|auto].
  rewrite Ei. cbn [rbind].
  do 6 (match goal with |- context [rbind (chk ?v) _] => destruct (chk v); cbn [rbind through]; [|reflexivity|reflexivity] end).
  destruct (l_reserve n); cbn [rbind through]; [|auto|auto].
  match goal with |- rbind ?b _ = _ => destruct b end; reflexivity.
Qed.

Lemma bad_position pos c : (forall x y z, pos = [x; y; z] ->
    ~ (0 <= x < l_len la /\ 0 <= y < l_wid la /\ 0 <= z < l_hei la)) ->
  l_getNeighborDistances_pos la pos c = Err InvalidArgument.
Proof.
  intros Hb. destruct pos as [|x [|y [|z [|w pos]]]]; try reflexivity. specialize (Hb x y z eq_refl). simpl.
  unfold check_pos.
  destruct (Z.ltb_spec x 0); [reflexivity|]. destruct (Z.geb_spec x (l_len la)); [reflexivity|].
  destruct (Z.ltb_spec y 0); [reflexivity|]. destruct (Z.geb_spec y (l_wid la)); [reflexivity|].
  destruct (Z.ltb_spec z 0); [reflexivity|]. destruct (Z.geb_spec z (l_hei la)); [reflexivity|].
  exfalso. apply Hb. lia.
Qed.
End L.
