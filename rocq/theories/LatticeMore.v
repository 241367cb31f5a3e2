(** * getIndex far outside of the lattice, and getRandomSite on any plane *)
From Coq Require Import ZArith List Bool Lia.
From Verif Require Import Base BaseProofs Num LatticeModel LatticeSpec LatticeProofs LatticeTable.
Import ListNotations.
Open Scope Z_scope.

Section More.
Context {N : Num}.
Variable la : lattice.
Hypothesis B : built la.
Notation L := (l_len la).
Notation W := (l_wid la).
Notation Ht := (l_hei la).

(** ** getIndex *)
Lemma coord_cases b v s v' : 0 < s -> l_coord b v s = Ok v' ->
  v' <= v mod s /\ (v' = v mod s <-> (b = Periodic -> - s <= v)).
Proof.
  intros Hs E. pose proof (Z.mod_pos_bound v s Hs) as Hm. destruct b; cbn [l_coord] in E.
  - unfold check_pos in E. assert (E' : v' = v /\ 0 <= v < s).
    { destruct (v <? 0) eqn:E1; [discriminate|]. destruct (v >=? s) eqn:E2; [discriminate|]. cbn in E. inversion E. lia. }
    destruct E' as [-> Hv]. rewrite Z.mod_small by exact Hv. split; [lia|]. split; [intros _ X; discriminate|reflexivity].
  - unfold l_periodic in E. destruct (v <? 0) eqn:E1.
    + apply chk_inv in E. destruct E as [<- _].
      destruct (Z.le_gt_cases (- s) v) as [Hv|Hv].
      * assert (X : v mod s = v + s) by (replace v with (v + s + (-1) * s) at 1 by ring; rewrite Z.mod_add by lia; apply Z.mod_small; lia).
        rewrite X. split; [lia|]. split; auto.
      * split; [lia|]. split; [lia|]. intros X. specialize (X eq_refl). lia.
    + unfold imod in E. destruct (s =? 0) eqn:E2; [lia|]. inversion E. rewrite Z.rem_mod_nonneg by lia. split; [lia|]. split; [intros _ _; lia|reflexivity].
Qed.
Theorem index_right_iff x y z i : l_getIndex la x y z = Ok i ->
  (at_pos L W Ht i (x mod L) (y mod W) (z mod Ht) <->
   (l_xb la = Periodic -> - L <= x) /\ (l_yb la = Periodic -> - W <= y) /\ (l_zb la = Periodic -> - Ht <= z)).
Proof.
  intros E. destruct B as (SL & SW & SH & _). unfold l_getIndex in E.
  apply rbind_ok_inv in E. destruct E as (x' & Ex & E). apply rbind_ok_inv in E. destruct E as (y' & Ey & E). apply rbind_ok_inv in E. destruct E as (z' & Ez & E).
  apply (coord_cases _ _ _ _ SL) in Ex. apply (coord_cases _ _ _ _ SW) in Ey. apply (coord_cases _ _ _ _ SH) in Ez.
  unfold l_getIndex_ in E.
  apply rbind_ok_inv in E. destruct E as (a & E1 & E). apply chk_inv in E1. destruct E1 as [<- _].
  apply rbind_ok_inv in E. destruct E as (b & E1 & E). apply chk_inv in E1. destruct E1 as [<- _].
  apply rbind_ok_inv in E. destruct E as (c & E1 & E). apply chk_inv in E1. destruct E1 as [<- _].
  apply rbind_ok_inv in E. destruct E as (d & E1 & E). apply chk_inv in E1. destruct E1 as [<- _].
  apply chk_inv in E. destruct E as [<- _].
  pose proof (Z.mod_pos_bound x L SL). pose proof (Z.mod_pos_bound y W SW). pose proof (Z.mod_pos_bound z Ht SH).
  destruct Ex as [Lx Ex], Ey as [Ly Ey], Ez as [Lz Ez]. rewrite <- Ex, <- Ey, <- Ez. unfold at_pos.
  remember (x mod L) as mx. remember (y mod W) as my. remember (z mod Ht) as mz. split.
  - intros (_ & _ & _ & Q).
    assert (P1 : 0 <= (my - y') * L) by (apply Z.mul_nonneg_nonneg; lia).
    assert (P2 : 0 <= (mz - z') * (L * W)) by (apply Z.mul_nonneg_nonneg; [lia|apply Z.mul_nonneg_nonneg; lia]).
    assert (S : (mx - x') + (my - y') * L + (mz - z') * (L * W) = 0) by lia.
    assert (Q1 : (my - y') * L = 0) by lia. assert (Q2 : (mz - z') * (L * W) = 0) by lia.
    apply Z.mul_eq_0 in Q1. apply Z.mul_eq_0 in Q2. assert (L * W <> 0) by (apply Z.neq_mul_0; lia). lia.
  - intros (-> & -> & ->). repeat split; try lia.
Qed.

(** ** getRandomSite *)
Lemma draw_is s raw : 0 < s -> draw_int s raw = Ok (raw mod s).
Proof. intros Hs. unfold draw_int. destruct (s <=? 0) eqn:E; [lia|reflexivity]. Qed.
Lemma never_is p s : 0 < s -> never_out p s = Ok tt.
Proof. intros Hs. unfold never_out. destruct (p <? 0) eqn:E, (p >=? s) eqn:E2; try reflexivity. lia. Qed.
Lemma bigs : L <= INT_MAX /\ W <= INT_MAX /\ Ht <= INT_MAX.
Proof. destruct B as (H1 & H2 & H3 & H4 & _). assert (1 <= L * W) by nia. split; [|split]; nia. Qed.
Theorem random_xy p raw1 raw2 : 0 <= p < Ht ->
  let y := raw2 mod Ht in
  (W <= y -> l_yb la = Fixed -> l_getRandomSite la XY p raw1 raw2 = Err InvalidArgument) /\
  (y < W \/ l_yb la = Periodic -> exists i, l_getRandomSite la XY p raw1 raw2 = Ok i /\ at_pos L W Ht i (raw1 mod L) (y mod W) p).
Proof.
  intros Hp y. destruct B as (SL & SW & SH & _). destruct bigs as (ML & MW & MH).
  assert (Hx : 0 <= raw1 mod L < L) by (apply Z.mod_pos_bound, SL). assert (Hy : 0 <= y < Ht) by (apply Z.mod_pos_bound, SH).
  assert (E : l_getRandomSite la XY p raw1 raw2 = l_getIndex la (raw1 mod L) y p).
  { unfold l_getRandomSite. rewrite never_is by exact SH. cbn [rbind]. rewrite draw_is by exact SL. cbn [rbind]. rewrite draw_is by exact SH. reflexivity. }
  destruct (getIndex_partial la (raw1 mod L) y p B) as [G1 G2]; try (unfold INT_MIN, INT_MAX in *; lia). rewrite E. split.
  - intros Hw Hf. apply G1. right; left. split; [exact Hf|lia].
  - intros Hok. destruct G2 as (i & Ei & Pi).
    { intros [[_ X]|[[Fy X]|[_ X]]]; [lia| |lia]. destruct Hok as [Hok|Hok]; [lia|congruence]. }
    exists i. split; [exact Ei|]. rewrite (Z.mod_small (raw1 mod L) L) in Pi by exact Hx. rewrite (Z.mod_small p Ht) in Pi by exact Hp. exact Pi.
Qed.
Theorem random_xy_safe p : 0 <= p < Ht ->
  (forall raw1 raw2, exists i x y, l_getRandomSite la XY p raw1 raw2 = Ok i /\ at_pos L W Ht i x y p) <-> Ht <= W \/ l_yb la = Periodic.
Proof.
  intros Hp. destruct B as (SL & SW & SH & _). split.
  - intros A. destruct (Z.le_gt_cases Ht W) as [X|X]; [left; exact X|right]. destruct (l_yb la) eqn:Ey; [|reflexivity].
    destruct (A 0 W) as (i & x & y & E & _). destruct (random_xy p 0 W Hp) as [R _].
    rewrite R in E; [discriminate| |exact Ey]. rewrite Z.mod_small; lia.
  - intros Ok raw1 raw2. destruct (random_xy p raw1 raw2 Hp) as [_ R].
    destruct R as (i & E & P); [|exists i, (raw1 mod L), ((raw2 mod Ht) mod W); auto].
    pose proof (Z.mod_pos_bound raw2 Ht SH). destruct Ok; [left; lia|right; assumption].
Qed.
Theorem random_xy_reach p i x y : at_pos L W Ht i x y p ->
  (exists raw1 raw2, l_getRandomSite la XY p raw1 raw2 = Ok i) <-> y < Ht.
Proof.
  intros Pi. assert (Pi' := Pi). destruct Pi' as (Hx & Hy & Hp & Hi). destruct B as (SL & SW & SH & _). split.
  - intros (raw1 & raw2 & E). destruct (random_xy p raw1 raw2 Hp) as [R1 R2]. pose proof (Z.mod_pos_bound raw2 Ht SH) as Hm.
    assert (Ok : raw2 mod Ht < W \/ l_yb la = Periodic).
    { destruct (Z.lt_ge_cases (raw2 mod Ht) W); [left; assumption|right]. destruct (l_yb la) eqn:Ey; [|reflexivity].
      rewrite R1 in E; [discriminate|lia|reflexivity]. }
    destruct (R2 Ok) as (i' & E' & P'). rewrite E in E'. inversion E'; subst i'.
    destruct (at_pos_unique la _ _ _ _ _ _ _ Pi P') as (_ & -> & _). pose proof (Z.mod_le (raw2 mod Ht) W). lia.
  - intros Hh. exists x, y. destruct (random_xy p x y Hp) as [_ R].
    rewrite (Z.mod_small y Ht) in R by lia. destruct R as (i' & E & P'); [left; lia|].
    rewrite (Z.mod_small x L), (Z.mod_small y W) in P' by lia. rewrite E. f_equal.
    destruct Pi as (_ & _ & _ & ->), P' as (_ & _ & _ & ->). reflexivity.
Qed.
(** a plane given by a periodic coordinate: any number not below minus the size
    names the plane it wraps to *)
Theorem random_wrapped pl p raw1 raw2 :
  match pl with YZ => l_xb la | XZ => l_yb la | XY => l_zb la end = Periodic ->
  (pl = XY -> Ht <= W) ->
  let size := match pl with YZ => L | XZ => W | XY => Ht end in
  - size <= p <= INT_MAX ->
  exists i, l_getRandomSite la pl p raw1 raw2 = Ok i /\
    exists x y z, at_pos L W Ht i x y z /\ match pl with YZ => x | XZ => y | XY => z end = p mod size.
Proof.
  intros Hb Hxy size Hp. destruct B as (SL & SW & SH & _). destruct bigs as (ML & MW & MH).
  pose proof (Z.mod_pos_bound raw1 L SL). pose proof (Z.mod_pos_bound raw1 W SW). pose proof (Z.mod_pos_bound raw2 Ht SH).
  destruct pl; unfold size in *; unfold l_getRandomSite; rewrite never_is, !draw_is by assumption; cbn [rbind];
    rewrite ?draw_is by assumption; cbn [rbind];
    match goal with |- context [l_getIndex la ?a ?b ?c] => destruct (getIndex_partial la a b c B) as [_ G2];
      try (unfold INT_MIN, INT_MAX in *; lia) end;
    try specialize (Hxy eq_refl);
    (destruct G2 as (i & Ei & Pi); [intros [[X1 X2]|[[X1 X2]|[X1 X2]]]; first [congruence|lia]|]);
    exists i; (split; [exact Ei|]); eexists; eexists; eexists; (split; [exact Pi|reflexivity]).
Qed.
End More.
