(** * Rounding errors of doubles, from Flocq's theory of IEEE 754 *)
From Coq Require Import ZArith List Bool Reals Lra Lia Permutation Floats Uint63.
From Flocq Require Import Core BinarySingleNaN PrimFloat Relative Plus_error.
From Verif Require Import Base Num F64 RSum SiteModel FloatSpec.
Import ListNotations.
Open Scope R_scope.

Local Notation u := uround.
Notation fexp64 := (SpecFloat.fexp FloatOps.prec FloatOps.emax).
Notation rnd64 := (round radix2 fexp64 (round_mode mode_NE)).

Lemma uround_pos : 0 < u.
Proof. unfold uround. apply Rinv_0_lt_compat. apply IZR_lt. reflexivity. Qed.
Lemma uround_val : u = bpow radix2 (-53).
Proof. unfold uround. reflexivity. Qed.
Lemma uround_small : u <= / 1024.
Proof. unfold uround. apply Rinv_le; [lra|]. apply IZR_le. vm_compute. discriminate. Qed.

Lemma fval_B2R x : fval x = B2R (Prim2B x).
Proof. unfold fval. rewrite <- SF2R_B2SF, B2SF_Prim2B. reflexivity. Qed.
Lemma fin_B x : fin x <-> BinarySingleNaN.is_finite (Prim2B x) = true.
Proof. unfold fin. rewrite is_finite_equiv. reflexivity. Qed.

#[export] Instance fexp64_valid : Valid_exp fexp64.
Proof. apply fexp_correct. reflexivity. Qed.
#[export] Instance fexp64_mono : Monotone_exp fexp64.
Proof. apply fexp_monotone. Qed.
#[export] Instance rnd64_valid : Valid_rnd (round_mode mode_NE).
Proof. apply valid_rnd_round_mode. Qed.

Lemma fval_format x : generic_format radix2 fexp64 (fval x).
Proof. rewrite fval_B2R. apply generic_format_B2R. Qed.

Lemma bpow_format e : (-1074 <= e <= 1023)%Z -> generic_format radix2 fexp64 (bpow radix2 e).
Proof.
  intros He. apply generic_format_bpow. unfold SpecFloat.fexp, SpecFloat.emin, FloatOps.emax, FloatOps.prec.
  lia.
Qed.

Lemma rnd64_le_bpow x e : (-1074 <= e <= 1023)%Z -> x <= bpow radix2 e -> rnd64 x <= bpow radix2 e.
Proof. intros He Hx. apply round_le_generic; auto with typeclass_instances. now apply bpow_format. Qed.
Lemma rnd64_ge_bpow x e : (-1074 <= e <= 1023)%Z -> bpow radix2 e <= x -> bpow radix2 e <= rnd64 x.
Proof. intros He Hx. apply round_ge_generic; auto with typeclass_instances. now apply bpow_format. Qed.
Lemma rnd64_nonneg x : 0 <= x -> 0 <= rnd64 x.
Proof. intros Hx. apply round_ge_generic; auto with typeclass_instances. apply generic_format_0. Qed.

Lemma rnd64_rel x : bpow radix2 (-1022) <= Rabs x ->
  exists d, Rabs d <= u /\ rnd64 x = x * (1 + d).
Proof.
  intros Hx.
  destruct (relative_error_N_FLT_ex radix2 (-1074) 53 eq_refl (fun n => negb (Z.even n)) x) as (d & Hd & E).
  - exact Hx.
  - exists d. split; [|exact E]. rewrite uround_val.
    replace (bpow radix2 (-53)) with (/ 2 * bpow radix2 (-53 + 1)); [exact Hd|].
    rewrite bpow_plus. simpl. lra.
Qed.

Lemma rnd64_plus x y :
  exists d, Rabs d <= u /\ rnd64 (fval x + fval y) = (fval x + fval y) * (1 + d).
Proof.
  destruct (@FLT_plus_error_N_ex radix2 (-1074) 53 eq_refl (fun n => negb (Z.even n)) (fval x) (fval y)) as (d & Hd & E);
    [apply fval_format | apply fval_format |].
  exists d. split; [|exact E].
  eapply Rle_trans; [exact Hd|].
  assert (U : u_ro radix2 53 = u).
  { unfold u_ro. rewrite uround_val. simpl. lra. }
  rewrite U. pose proof uround_pos. apply (Rmult_le_reg_r (1 + u)); [lra|].
  unfold Rdiv. rewrite Rmult_assoc, Rinv_l, Rmult_1_r by lra. nra.
Qed.

Lemma lt_emax x : rnd64 x <= bpow radix2 1023 -> 0 <= rnd64 x ->
  Rlt_bool (Rabs (rnd64 x)) (bpow radix2 FloatOps.emax) = true.
Proof.
  intros H H0. apply Rlt_bool_true. rewrite Rabs_pos_eq by exact H0.
  eapply Rle_lt_trans; [exact H|]. apply bpow_lt. reflexivity.
Qed.

(** ** Addition of non-negative doubles *)
Lemma fadd x y : fin x -> fin y -> 0 <= fval x -> 0 <= fval y ->
  fval x + fval y <= bpow radix2 1023 ->
  fin (x + y)%float /\ fval (x + y)%float = rnd64 (fval x + fval y).
Proof.
  intros Fx Fy Px Py Hb.
  pose proof (Bplus_correct FloatOps.prec FloatOps.emax Hprec Hmax mode_NE (Prim2B x) (Prim2B y)
    (proj1 (fin_B x) Fx) (proj1 (fin_B y) Fy)) as H.
  rewrite <- !fval_B2R in H.
  rewrite lt_emax in H; [| apply rnd64_le_bpow; [lia|assumption] | apply rnd64_nonneg; lra].
  destruct H as (E & F & _).
  rewrite <- add_equiv in E, F. split.
  - apply fin_B. exact F.
  - rewrite fval_B2R. exact E.
Qed.

Lemma fadd_err x y : fin x -> fin y -> 0 <= fval x -> 0 <= fval y ->
  fval x + fval y <= bpow radix2 1023 ->
  fin (x + y)%float /\
  (1 - u) * (fval x + fval y) <= fval (x + y)%float <= (1 + u) * (fval x + fval y) /\
  fval x <= fval (x + y)%float /\ fval y <= fval (x + y)%float.
Proof.
  intros Fx Fy Px Py Hb.
  destruct (fadd x y Fx Fy Px Py Hb) as (F & E).
  split; [exact F|]. rewrite E. split; [|split].
  - destruct (rnd64_plus x y) as (d & Hd & ->). apply Rabs_le_inv in Hd. split; nra.
  - apply round_ge_generic; auto with typeclass_instances; [apply fval_format | lra].
  - apply round_ge_generic; auto with typeclass_instances; [apply fval_format | lra].
Qed.

(** ** Division of positive doubles *)
Lemma fdiv_err x y : fin x -> fin y -> 0 < fval x -> 0 < fval y ->
  bpow radix2 (-1022) <= fval x / fval y <= bpow radix2 1023 ->
  fin (x / y)%float /\
  (1 - u) * (fval x / fval y) <= fval (x / y)%float <= (1 + u) * (fval x / fval y) /\
  (fval x <= fval y -> fval (x / y)%float <= 1).
Proof.
  intros Fx Fy Px Py (Hlo & Hhi).
  assert (Q : 0 < fval x / fval y) by (apply Rdiv_lt_0_compat; assumption).
  pose proof (Bdiv_correct FloatOps.prec FloatOps.emax Hprec Hmax mode_NE (Prim2B x) (Prim2B y)) as H.
  rewrite <- !fval_B2R in H. specialize (H ltac:(lra)).
  rewrite lt_emax in H; [| apply rnd64_le_bpow; [lia|assumption] | apply rnd64_nonneg; lra].
  destruct H as (E & F & _). rewrite <- div_equiv in E, F. rewrite <- fval_B2R in E.
  split; [|split].
  - apply fin_B. rewrite F. apply fin_B. exact Fx.
  - rewrite E. destruct (rnd64_rel (fval x / fval y)) as (d & Hd & ->);
      [rewrite Rabs_pos_eq; lra|]. apply Rabs_le_inv in Hd. split; nra.
  - intros Hle. rewrite E. change 1 with (bpow radix2 0). apply rnd64_le_bpow; [lia|].
    apply (Rmult_le_reg_r (fval y)); [assumption|]. unfold Rdiv.
    rewrite Rmult_assoc, Rinv_l by lra. simpl. lra.
Qed.

(** ** Multiplication *)
Lemma fmul_err x y : fin x -> fin y ->
  bpow radix2 (-1022) <= Rabs (fval x * fval y) <= bpow radix2 1023 ->
  fin (x * y)%float /\ exists d, Rabs d <= u /\ fval (x * y)%float = fval x * fval y * (1 + d).
Proof.
  intros Fx Fy (Hlo & Hhi).
  pose proof (Bmult_correct FloatOps.prec FloatOps.emax Hprec Hmax mode_NE (Prim2B x) (Prim2B y)) as H.
  rewrite <- !fval_B2R in H.
  rewrite Rlt_bool_true in H.
  - destruct H as (E & F & _). rewrite <- mul_equiv in E, F. rewrite <- fval_B2R in E.
    split.
    + apply fin_B. rewrite F. apply andb_true_intro. split; apply fin_B; assumption.
    + rewrite E. apply rnd64_rel. exact Hlo.
  - apply Rle_lt_trans with (bpow radix2 1023); [|apply bpow_lt; reflexivity].
    apply abs_round_le_generic; auto with typeclass_instances. now apply bpow_format.
Qed.

(** ** Comparison *)
Lemma fltb x y : fin x -> fin y -> (PrimFloat.ltb x y = true <-> fval x < fval y).
Proof.
  intros Fx Fy. rewrite ltb_equiv, Bltb_correct by (apply fin_B; assumption).
  rewrite <- !fval_B2R. destruct (Rlt_bool_spec (fval x) (fval y)); split; intros; try easy; lra.
Qed.
Lemma feqb x y : fin x -> fin y -> (PrimFloat.eqb x y = true <-> fval x = fval y).
Proof.
  intros Fx Fy. rewrite eqb_equiv, Beqb_correct by (apply fin_B; assumption).
  rewrite <- !fval_B2R. destruct (Req_bool_spec (fval x) (fval y)); split; intros; try easy; lra.
Qed.

(** ** Constants *)
Lemma fval_0 : fval 0%float = 0. Proof. reflexivity. Qed.
Lemma fin_0 : fin 0%float. Proof. reflexivity. Qed.
Lemma fval_1 : fval 1%float = 1.
Proof. unfold fval. change (Prim2SF 1%float) with (S754_finite false 4503599627370496 (-52)).
  unfold SF2R, F2R. simpl. lra. Qed.
Lemma fin_1 : fin 1%float. Proof. reflexivity. Qed.

(** ** Truncation of values between 0 and 1 *)
Lemma trunc_unit x : fin x -> 0 <= fval x <= 1 -> exists z, f_trunc x = Some z.
Proof.
  unfold f_trunc, f_parts, fin. rewrite is_finite_equiv, <- is_finite_SF_B2SF, B2SF_Prim2B.
  unfold fval. destruct (Prim2SF x) as [s|s| |s m e]; simpl; intros F (H0 & H1); try discriminate.
  - vm_compute. eauto.
  - assert (B : in_int (z_trunc (if s then Z.neg m else Z.pos m) e) = true); [|rewrite B; eauto].
    destruct s.
    + exfalso. revert H0. apply Rlt_not_le. apply F2R_lt_0. reflexivity.
    + assert (Hf : (0 <= z_floor (Z.pos m) e <= 1)%Z).
      { unfold z_floor. destruct (Z.ltb_spec e 0) as [He|He].
        - assert (Hp : (0 < 2 ^ (- e))%Z) by (apply Z.pow_pos_nonneg; lia).
          split; [apply Z.div_pos; lia|].
          apply Z.div_le_upper_bound; [assumption|]. rewrite Z.mul_1_r.
          apply le_IZR. revert H1. unfold F2R; simpl. change (IZR 2) with (IZR radix2).
          intros H1. change 2%Z with (radix_val radix2). rewrite IZR_Zpower by lia.
          apply (Rmult_le_reg_r (bpow radix2 e)); [apply bpow_gt_0|].
          rewrite <- bpow_plus. replace (- e + e)%Z with 0%Z by lia. exact H1.
        - assert (Hp : (0 < 2 ^ e)%Z) by (apply Z.pow_pos_nonneg; lia).
          split; [nia|].
          apply le_IZR. unfold F2R in H1; cbn [Fnum Fexp] in H1.
          rewrite mult_IZR. change 2%Z with (radix_val radix2). rewrite IZR_Zpower by lia. exact H1. }
      unfold z_trunc. simpl. unfold in_int. destruct Hf.
      apply andb_true_intro. split; apply Z.leb_le; unfold INT_MIN, INT_MAX; lia.
Qed.
