(** * The numbers of B53 round as doubles do *)
From Flocq Require Import Core BinarySingleNaN PrimFloat.
From Coq Require Import ZArith List Bool Reals Lra Lia Floats.
From Verif Require Import Base Num F64 B53 FloatSpec FloatProofs B53Spec.
Open Scope R_scope.

(** ** Rounding a quotient *)
Lemma digits_bounds p : bpow radix2 (digits p - 1) <= IZR (Zpos p) < bpow radix2 (digits p).
Proof.
  pose proof (Pos.size_le p) as H1. pose proof (Pos.size_gt p) as H2.
  assert (E : forall n, IZR (Zpos (2 ^ n)) = bpow radix2 (Zpos n)).
  { intros n. rewrite Pos2Z.inj_pow. change 2%Z with (radix_val radix2). apply IZR_Zpower. lia. }
  unfold digits. split.
  - replace (Zpos (Pos.size p)) with (Zpos (Pos.size p) - 1 + 1)%Z in * by lia.
    assert (H : (Zpos (2 ^ Pos.size p) <= 2 * Zpos p)%Z) by (rewrite <- Pos2Z.inj_mul; apply Pos2Z.pos_le_pos; exact H1).
    apply IZR_le in H. rewrite E, mult_IZR in H.
    replace (Zpos (Pos.size p)) with (Zpos (Pos.size p) - 1 + 1)%Z in H by lia. rewrite bpow_plus in H. cbn [bpow] in H. 
    change (IZR (Z.pow_pos radix2 1)) with 2 in H.
    replace (Zpos (Pos.size p) - 1 + 1 - 1)%Z with (Zpos (Pos.size p) - 1)%Z by lia. lra.
  - rewrite <- E. apply IZR_lt. apply Pos2Z.pos_lt_pos. exact H2.
Qed.
Lemma nearest_div n k : (0 < k)%Z ->
  ZnearestE (IZR n / IZR k) = (match 2 * (n mod k) ?= k with Lt => n / k | Gt => n / k + 1 | Eq => if Z.even (n / k) then n / k else n / k + 1 end)%Z.
Proof.
  intros Hk. assert (Hk' : 0 < IZR k) by (apply IZR_lt; exact Hk).
  assert (F : Zfloor (IZR n / IZR k) = (n / k)%Z) by (apply Zfloor_div; lia).
  assert (D : IZR n = IZR k * IZR (n / k) + IZR (n mod k)) by (rewrite <- mult_IZR, <- plus_IZR, <- Z.div_mod by lia; reflexivity).
  assert (E : IZR n / IZR k - IZR (Zfloor (IZR n / IZR k)) = IZR (n mod k) / IZR k).
  { rewrite F, D. field. lra. }
  unfold Znearest. rewrite E, F.
  assert (C : Rcompare (IZR (n mod k) / IZR k) (/ 2) = (2 * (n mod k) ?= k)%Z).
  { rewrite <- (Rcompare_mult_r (2 * IZR k)) by lra. replace (IZR (n mod k) / IZR k * (2 * IZR k)) with (2 * IZR (n mod k)) by (field; lra).
    replace (/ 2 * (2 * IZR k)) with (IZR k) by lra. rewrite <- mult_IZR. apply Rcompare_IZR. }
  rewrite C. pose proof (Z.compare_spec (2 * (n mod k)) k) as S. destruct S as [S|S|S].
  - assert (N : IZR (Zfloor (IZR n / IZR k)) <> IZR n / IZR k).
    { intros H. rewrite <- H in E at 1. rewrite Rminus_diag_eq in E by reflexivity. symmetry in E.
      apply Rmult_integral in E. destruct E as [E|E]; [apply eq_IZR in E; lia|]. apply Rinv_neq_0_compat in E; [exact E|lra]. }
    rewrite (Zceil_floor_neq _ N), F. destruct (Z.even (n / k)); reflexivity.
  - reflexivity.
  - assert (N : IZR (Zfloor (IZR n / IZR k)) <> IZR n / IZR k).
    { intros H. rewrite <- H in E at 1. rewrite Rminus_diag_eq in E by reflexivity. symmetry in E.
      apply Rmult_integral in E. destruct E as [E|E]; [apply eq_IZR in E; lia|]. apply Rinv_neq_0_compat in E; [exact E|lra]. }
    rewrite (Zceil_floor_neq _ N), F. reflexivity.
Qed.
Lemma pow2 e : (0 <= e)%Z -> IZR (2 ^ e) = bpow radix2 e.
Proof. intros H. apply (IZR_Zpower radix2). exact H. Qed.
Lemma rnd_pos p q e : bval (rnd_q false p q e) = nearest53 (IZR (Zpos p) / IZR (Zpos q) * bpow radix2 e).
Proof.
  set (x := IZR (Zpos p) / IZR (Zpos q)). pose proof (digits_bounds p) as [P1 P2]. pose proof (digits_bounds q) as [Q1 Q2].
  assert (Hp : 0 < IZR (Zpos p)) by (apply IZR_lt; lia). assert (Hq : 0 < IZR (Zpos q)) by (apply IZR_lt; lia).
  set (d := (digits p - digits q)%Z).
  assert (Ex : x * IZR (Zpos q) = IZR (Zpos p)) by (unfold x; field; lra).
  assert (Hx : 0 < x) by (apply Rdiv_lt_0_compat; assumption).
  assert (L : bpow radix2 (d - 1) <= x).
  { apply Rmult_le_reg_r with (IZR (Zpos q)); [exact Hq|]. rewrite Ex. apply Rle_trans with (bpow radix2 (d - 1) * bpow radix2 (digits q)).
    - apply Rmult_le_compat_l; [apply bpow_ge_0|lra].
    - rewrite <- bpow_plus. eapply Rle_trans; [|exact P1]. apply bpow_le. unfold d. lia. }
  assert (H : x < bpow radix2 (d + 1)).
  { apply Rmult_lt_reg_r with (IZR (Zpos q)); [exact Hq|]. rewrite Ex. apply Rlt_le_trans with (bpow radix2 (d + 1) * bpow radix2 (digits q - 1)).
    - rewrite <- bpow_plus. eapply Rlt_le_trans; [exact P2|]. apply bpow_le. unfold d. lia.
    - apply Rmult_le_compat_l; [apply bpow_ge_0|exact Q1]. }
  set (b := if (0 <=? d)%Z then (Zpos q * 2 ^ d <=? Zpos p)%Z else (Zpos q <=? Zpos p * 2 ^ (- d))%Z).
  assert (B : b = true <-> bpow radix2 d <= x).
  { unfold b. destruct (Z.leb_spec 0 d) as [Hd|Hd]; rewrite Z.leb_le.
    - split; intros Y.
      + apply IZR_le in Y. rewrite mult_IZR, pow2 in Y by exact Hd. apply Rmult_le_reg_r with (IZR (Zpos q)); [exact Hq|]. lra.
      + apply le_IZR. rewrite mult_IZR, pow2 by exact Hd. nra.
    - assert (Z0 : bpow radix2 d * bpow radix2 (- d) = 1) by (rewrite <- bpow_plus, Z.add_opp_diag_r; reflexivity).
      pose proof (bpow_gt_0 radix2 d) as B1. pose proof (bpow_gt_0 radix2 (- d)) as B2.
      split; intros Y.
      + apply IZR_le in Y. rewrite mult_IZR, pow2 in Y by lia. apply Rmult_le_reg_r with (IZR (Zpos q)); [exact Hq|]. rewrite Ex. nra.
      + apply le_IZR. rewrite mult_IZR, pow2 by lia. rewrite <- Ex. 
        apply Rmult_le_compat_r with (r := bpow radix2 (- d) * IZR (Zpos q)) in Y; [|apply Rmult_le_pos; lra].
        replace (bpow radix2 d * (bpow radix2 (- d) * IZR (Zpos q))) with (bpow radix2 d * bpow radix2 (- d) * IZR (Zpos q)) in Y by ring. rewrite Z0 in Y. lra. }
  set (top := if b then (d + 1)%Z else d).
  assert (T : bpow radix2 (top - 1) <= x < bpow radix2 top).
  { unfold top. destruct b.
    - replace (d + 1 - 1)%Z with d by lia. split; [apply B; reflexivity|exact H].
    - split; [exact L|]. apply Rnot_le_lt. intros Y. apply B in Y. discriminate. }
  set (s := (top - 53)%Z).
  set (n := if (0 <=? s)%Z then Zpos p else (Zpos p * 2 ^ (- s))%Z). set (k := if (0 <=? s)%Z then (Zpos q * 2 ^ s)%Z else Zpos q).
  assert (Kk : (0 < k)%Z) by (unfold k; destruct (Z.leb_spec 0 s); [apply Z.mul_pos_pos; [lia|apply Z.pow_pos_nonneg; lia]|lia]).
  assert (Nk : IZR n / IZR k = x * bpow radix2 (- s)).
  { unfold n, k, x. destruct (Z.leb_spec 0 s).
    - rewrite mult_IZR, pow2 by assumption. rewrite bpow_opp. field. split; [apply Rgt_not_eq, bpow_gt_0|lra].
    - rewrite mult_IZR, pow2 by lia. field. lra. }
  assert (W : (2 ^ 52 <= n / k)%Z).
  { rewrite <- (Zfloor_div n k) by lia. apply Zfloor_lub. rewrite Nk, pow2 by lia.
    apply Rle_trans with (bpow radix2 (top - 1) * bpow radix2 (- s)); [rewrite <- bpow_plus; apply bpow_le; unfold s; lia|].
    apply Rmult_le_compat_r; [apply bpow_ge_0|apply T]. }
  assert (M : mag radix2 (x * bpow radix2 e) = (top + e)%Z :> Z).
  { rewrite mag_mult_bpow by lra. rewrite (mag_unique_pos radix2 x top T). reflexivity. }
  assert (C : cexp radix2 (FLX_exp 53) (x * bpow radix2 e) = (e + s)%Z) by (unfold cexp; rewrite M; unfold FLX_exp, s; lia).
  unfold nearest53, round, F2R. cbn [Fnum Fexp]. rewrite C. unfold scaled_mantissa. rewrite C.
  replace (x * bpow radix2 e * bpow radix2 (- (e + s))) with (IZR n / IZR k).
  2:{ rewrite Nk, Rmult_assoc, <- bpow_plus. do 2 f_equal. lia. }
  rewrite (nearest_div n k Kk). unfold rnd_q. fold d. fold b. fold top. fold s. fold n. fold k. cbn [bval bsgn].
  rewrite Z2Pos.id; [reflexivity|]. assert (0 < n / k)%Z by lia. destruct (2 * (n mod k) ?= k)%Z; [destruct (Z.even (n / k))| |]; lia.
Qed.
Lemma nearest_opp r : nearest53 (- r) = - nearest53 r.
Proof. apply round_NE_opp. Qed.
Lemma bval_neg p q e : bval (rnd_q true p q e) = - bval (rnd_q false p q e).
Proof. unfold rnd_q. cbn [bval bsgn]. rewrite <- Pos2Z.opp_pos, opp_IZR. ring. Qed.
Lemma rnd_q_ok n p q e : bfin (rnd_q n p q e) /\ bval (rnd_q n p q e) = nearest53 (IZR (bsgn n p) / IZR (Zpos q) * bpow radix2 e).
Proof.
  split; [exact Logic.I|]. destruct n; [|apply rnd_pos]. rewrite bval_neg, rnd_pos, <- nearest_opp. f_equal.
  cbn [bsgn]. rewrite <- Pos2Z.opp_pos, opp_IZR. unfold Rdiv. ring.
Qed.
Lemma rnd_z_ok z e : bfin (rnd_z z e) /\ bval (rnd_z z e) = nearest53 (IZR z * bpow radix2 e).
Proof.
  destruct z as [|p|p]; cbn [rnd_z].
  - split; [exact Logic.I|]. rewrite Rmult_0_l. cbn [bval]. symmetry. apply round_0. apply valid_rnd_N.
  - destruct (rnd_q_ok false p 1 e) as [A B]. split; [exact A|]. rewrite B. cbn [bsgn]. f_equal. field.
  - destruct (rnd_q_ok true p 1 e) as [A B]. split; [exact A|]. rewrite B. cbn [bsgn]. f_equal. field.
Qed.

(** ** The operations *)
Lemma scaled n m e l : (l <= e)%Z -> IZR (bsgn n m) * bpow radix2 e = IZR (bsgn n m * 2 ^ (e - l)) * bpow radix2 l.
Proof. intros H. rewrite mult_IZR, pow2 by lia. rewrite Rmult_assoc, <- bpow_plus. do 2 f_equal. lia. Qed.
Lemma badd_ok x y : bfin x -> bfin y -> bfin (badd x y) /\ bval (badd x y) = nearest53 (bval x + bval y).
Proof.
  destruct x as [|n m e|a|], y as [|n' m' e'|a'|]; cbn [bfin]; try contradiction; intros _ _; cbn [badd bval].
  - split; [exact Logic.I|]. rewrite Rplus_0_l. cbn [bval]. symmetry. apply round_0, valid_rnd_N.
  - rewrite Rplus_0_l. apply rnd_z_ok.
  - rewrite Rplus_0_r. apply rnd_z_ok.
  - set (l := Z.min e e'). rewrite (scaled n m e l), (scaled n' m' e' l) by (unfold l; lia).
    rewrite <- Rmult_plus_distr_r, <- plus_IZR. apply rnd_z_ok.
Qed.
Lemma bopp_ok x : bfin x -> bfin (bopp x) /\ bval (bopp x) = - bval x.
Proof.
  destruct x as [|n m e|a|]; cbn [bfin]; try contradiction; intros _; cbn [bopp bval].
  - split; [exact Logic.I|lra].
  - split; [exact Logic.I|]. destruct n; cbn [negb bsgn]; rewrite <- Pos2Z.opp_pos, opp_IZR; ring.
Qed.
Lemma bsub_ok x y : bfin x -> bfin y -> bfin (bsub x y) /\ bval (bsub x y) = nearest53 (bval x - bval y).
Proof. intros Hx Hy. destruct (bopp_ok y Hy) as [A B]. unfold bsub, Rminus. rewrite <- B. apply badd_ok; assumption. Qed.
Lemma bsgn_mul n m n' m' : bsgn (xorb n n') (m * m') = (bsgn n m * bsgn n' m')%Z.
Proof. destruct n, n'; reflexivity. Qed.
Lemma bmul_ok x y : bfin x -> bfin y -> bfin (bmul x y) /\ bval (bmul x y) = nearest53 (bval x * bval y).
Proof.
  assert (Z0 : nearest53 0 = 0) by apply round_0, valid_rnd_N.
  destruct x as [|n m e|a|], y as [|n' m' e'|a'|]; cbn [bfin]; try contradiction; intros _ _; cbn [bmul bval];
    rewrite ?Rmult_0_l, ?Rmult_0_r, ?Z0; try (split; [exact Logic.I|reflexivity]).
  destruct (rnd_q_ok (xorb n n') (m * m') 1 (e + e')) as [A B]. split; [exact A|]. rewrite B. f_equal.
  rewrite bsgn_mul, mult_IZR, bpow_plus. field.
Qed.
Lemma bdiv_ok x y : bfin x -> bfin y -> bval y <> 0 -> bfin (bdiv x y) /\ bval (bdiv x y) = nearest53 (bval x / bval y).
Proof.
  assert (Z0 : nearest53 0 = 0) by apply round_0, valid_rnd_N.
  destruct x as [|n m e|a|], y as [|n' m' e'|a'|]; cbn [bfin]; try contradiction; intros _ _; cbn [bdiv bval]; intros Hy;
    try (destruct (Hy eq_refl)).
  - split; [exact Logic.I|]. unfold Rdiv. rewrite Rmult_0_l, Z0. reflexivity.
  - destruct (rnd_q_ok (xorb n n') m m' (e - e')) as [A B]. split; [exact A|]. rewrite B. f_equal.
    assert (P : IZR (Zpos m') <> 0) by (apply IZR_neq; discriminate).
    assert (E : IZR (bsgn (xorb n n') m) / IZR (Zpos m') = IZR (bsgn n m) / IZR (bsgn n' m')).
    { destruct n, n'; cbn [xorb bsgn]; rewrite <- ?Pos2Z.opp_pos, ?opp_IZR; field; lra. }
    rewrite E. unfold Zminus. rewrite bpow_plus, bpow_opp. field.
    split; [apply Rgt_not_eq, bpow_gt_0|]. destruct n'; apply IZR_neq; discriminate.
Qed.
Lemma bcmp_ok x y : bfin x -> bfin y -> bcmp x y = Some (Rcompare (bval x) (bval y)).
Proof.
  assert (P : forall n m e, 0 < bpow radix2 e /\ (n = true -> IZR (bsgn n m) < 0) /\ (n = false -> 0 < IZR (bsgn n m))).
  { intros n m e. split; [apply bpow_gt_0|]. split; intros ->; apply IZR_lt; cbn; lia. }
  destruct x as [|n m e|a|], y as [|n' m' e'|a'|]; cbn [bfin]; try contradiction; intros _ _; cbn [bcmp bval]; f_equal; symmetry.
  - apply Rcompare_Eq. reflexivity.
  - destruct (P n' m' e') as (B & N1 & N2). destruct n'; [apply Rcompare_Gt|apply Rcompare_Lt]; [specialize (N1 eq_refl)|specialize (N2 eq_refl)]; nra.
  - destruct (P n m e) as (B & N1 & N2). destruct n; [apply Rcompare_Lt|apply Rcompare_Gt]; [specialize (N1 eq_refl)|specialize (N2 eq_refl)]; nra.
  - set (l := Z.min e e'). rewrite (scaled n m e l), (scaled n' m' e' l) by (unfold l; lia).
    rewrite Rcompare_mult_r by apply bpow_gt_0. apply Rcompare_IZR.
Qed.

(** ** Doubles *)
(** a result that is zero or a normal double *)
Lemma range_round r : in_range r -> rnd64 r = nearest53 r /\ Rlt_bool (Rabs (rnd64 r)) (bpow radix2 FloatOps.emax) = true.
Proof.
  intros [->|[H1 H2]].
  - unfold nearest53. rewrite !round_0; auto with typeclass_instances. split; [reflexivity|]. apply Rlt_bool_true. rewrite Rabs_R0. apply bpow_gt_0.
  - assert (E : rnd64 r = nearest53 r).
    { unfold nearest53. apply (round_FLT_FLX radix2 (-1074) 53 ZnearestE r). exact H1. }
    split; [exact E|]. rewrite E. apply Rlt_bool_true. exact H2.
Qed.
Lemma double_add x y a b : same_value x a -> same_value y b -> in_range (fval x + fval y) -> same_value (x + y)%float (badd a b).
Proof.
  intros (Fx & Fa & Ea) (Fy & Fb & Eb) R. destruct (range_round _ R) as [E L].
  pose proof (Bplus_correct FloatOps.prec FloatOps.emax Hprec Hmax mode_NE (Prim2B x) (Prim2B y) (proj1 (fin_B x) Fx) (proj1 (fin_B y) Fy)) as H.
  rewrite <- !fval_B2R in H. rewrite L in H. destruct H as (V & F & _). rewrite <- add_equiv in V, F.
  destruct (badd_ok a b Fa Fb) as [A B]. split; [apply fin_B; exact F|]. split; [exact A|]. rewrite fval_B2R, V, E, B, Ea, Eb. reflexivity.
Qed.
Lemma double_sub x y a b : same_value x a -> same_value y b -> in_range (fval x - fval y) -> same_value (x - y)%float (bsub a b).
Proof.
  intros (Fx & Fa & Ea) (Fy & Fb & Eb) R. destruct (range_round _ R) as [E L].
  pose proof (Bminus_correct FloatOps.prec FloatOps.emax Hprec Hmax mode_NE (Prim2B x) (Prim2B y) (proj1 (fin_B x) Fx) (proj1 (fin_B y) Fy)) as H.
  rewrite <- !fval_B2R in H. rewrite L in H. destruct H as (V & F & _). rewrite <- sub_equiv in V, F.
  destruct (bsub_ok a b Fa Fb) as [A B]. split; [apply fin_B; exact F|]. split; [exact A|]. rewrite fval_B2R, V, E, B, Ea, Eb. reflexivity.
Qed.
Lemma double_mul x y a b : same_value x a -> same_value y b -> in_range (fval x * fval y) -> same_value (x * y)%float (bmul a b).
Proof.
  intros (Fx & Fa & Ea) (Fy & Fb & Eb) R. destruct (range_round _ R) as [E L].
  pose proof (Bmult_correct FloatOps.prec FloatOps.emax Hprec Hmax mode_NE (Prim2B x) (Prim2B y)) as H.
  rewrite <- !fval_B2R in H. rewrite L in H. destruct H as (V & F & _). rewrite <- mul_equiv in V, F.
  rewrite (proj1 (fin_B x) Fx), (proj1 (fin_B y) Fy) in F.
  destruct (bmul_ok a b Fa Fb) as [A B]. split; [apply fin_B; exact F|]. split; [exact A|]. rewrite fval_B2R, V, E, B, Ea, Eb. reflexivity.
Qed.
Lemma double_div x y a b : same_value x a -> same_value y b -> fval y <> 0 -> in_range (fval x / fval y) -> same_value (x / y)%float (bdiv a b).
Proof.
  intros (Fx & Fa & Ea) (Fy & Fb & Eb) Hy R. destruct (range_round _ R) as [E L]. pose proof Hy as Hy'. rewrite fval_B2R in Hy'.
  pose proof (Bdiv_correct FloatOps.prec FloatOps.emax Hprec Hmax mode_NE (Prim2B x) (Prim2B y) Hy') as H.
  rewrite <- !fval_B2R in H. rewrite L in H. destruct H as (V & F & _). rewrite <- div_equiv in V, F.
  rewrite (proj1 (fin_B x) Fx) in F. rewrite Eb in Hy.
  destruct (bdiv_ok a b Fa Fb Hy) as [A B]. split; [apply fin_B; exact F|]. split; [exact A|]. rewrite fval_B2R, V, E, B, Ea, Eb. reflexivity.
Qed.
Lemma double_ltb x y a b : same_value x a -> same_value y b -> PrimFloat.ltb x y = bltb a b.
Proof.
  intros (Fx & Fa & Ea) (Fy & Fb & Eb). apply eq_true_iff_eq. rewrite (fltb x y Fx Fy), Ea, Eb. unfold bltb. rewrite (bcmp_ok a b Fa Fb).
  destruct (Rcompare_spec (bval a) (bval b)); split; intros; try reflexivity; try discriminate; try assumption; lra.
Qed.
Lemma double_eqb x y a b : same_value x a -> same_value y b -> PrimFloat.eqb x y = beqb a b.
Proof.
  intros (Fx & Fa & Ea) (Fy & Fb & Eb). apply eq_true_iff_eq. rewrite (feqb x y Fx Fy), Ea, Eb. unfold beqb. rewrite (bcmp_ok a b Fa Fb).
  destruct (Rcompare_spec (bval a) (bval b)); split; intros; try reflexivity; try discriminate; try assumption; lra.
Qed.
