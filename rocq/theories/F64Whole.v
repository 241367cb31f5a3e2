(** * Ints survive the way through binary64 *)
From Coq Require Import ZArith List Bool Lia Floats Uint63.
From Verif Require Import Base BaseProofs Num F64 ClusterCounts.
Open Scope Z_scope.

Lemma digits_spec p : 2 ^ (Zpos (digits2_pos p) - 1) <= Zpos p < 2 ^ Zpos (digits2_pos p).
Proof.
  induction p as [p IH|p IH|]; cbn [digits2_pos]; [| |cbn; lia]; rewrite Pos2Z.inj_succ;
    replace (Z.succ (Zpos (digits2_pos p)) - 1) with (Z.succ (Zpos (digits2_pos p) - 1)) by lia;
    rewrite !Z.pow_succ_r by lia; lia.
Qed.
Lemma shift_digits n p : digits2_pos (shift_pos n p) = (digits2_pos p + n)%positive.
Proof.
  unfold shift_pos. revert p. induction n using Pos.peano_ind; intros p.
  - cbn. rewrite Pos.add_1_r. reflexivity.
  - rewrite Pos.iter_succ. cbn [digits2_pos]. rewrite IHn. lia.
Qed.
Lemma shift_value n p : Zpos (shift_pos n p) = Zpos p * 2 ^ Zpos n.
Proof. rewrite shift_pos_correct. rewrite Zpower_pos_nat. rewrite Z.mul_comm. f_equal. rewrite Zpower_nat_Z. rewrite positive_nat_Z. reflexivity. Qed.

Lemma normal_parts p : Zpos p < 2 ^ 52 ->
  exists m e, binary_normalize FloatOps.prec FloatOps.emax (Zpos p) 0 false = S754_finite false m e /\ e < 0 /\ Zpos m = Zpos p * 2 ^ (- e).
Proof.
  intros Hp. pose proof (digits_spec p) as [D1 D2]. set (d := Zpos (digits2_pos p)) in *.
  assert (Hd : d <= 52). { apply Z.lt_succ_r. apply (Z.pow_lt_mono_r_iff 2); [lia|unfold d; lia|]. change (Z.succ 52) with 53.
    destruct (Z.lt_ge_cases d 53) as [|H]; [apply Z.pow_lt_mono_r; lia|]. exfalso. assert (2 ^ 52 <= 2 ^ (d - 1)) by (apply Z.pow_le_mono_r; lia). lia. }
  assert (Hd0 : 1 <= d) by (unfold d; lia).
  unfold binary_normalize, binary_round. rewrite Z.add_0_r. fold d.
  assert (Ef : forall e, e + 0 = e) by lia.
  assert (F : fexp FloatOps.prec FloatOps.emax d = d - 53) by (unfold fexp, emin, FloatOps.prec, FloatOps.emax; lia).
  rewrite F. unfold shl_align. rewrite Z.sub_0_r.
  assert (En : exists n, d - 53 = Zneg n) by (exists (Z.to_pos (53 - d)); rewrite <- Pos2Z.opp_pos, Z2Pos.id by lia; lia).
  destruct En as [n En]. rewrite En. unfold binary_round_aux, shr_fexp. cbn [Zdigits2]. rewrite shift_digits, Pos2Z.inj_add. fold d.
  assert (F2 : fexp FloatOps.prec FloatOps.emax (d + Zpos n + Zneg n) - Zneg n = 0).
  { replace (d + Zpos n + Zneg n) with d by lia. rewrite F, En. lia. }
  rewrite F2. cbn [shr shr_record_of_loc shr_m loc_of_shr_record round_nearest_even Zdigits2]. rewrite shift_digits, Pos2Z.inj_add. fold d.
  rewrite F2. cbn [shr shr_record_of_loc shr_m]. 
  assert (Le : Zle_bool (Zneg n) (FloatOps.emax - FloatOps.prec) = true) by reflexivity. rewrite Le.
  exists (shift_pos n p), (Zneg n). split; [reflexivity|]. split; [lia|]. rewrite shift_value. reflexivity.
Qed.

(** the parts of an int *)
Lemma ofZ_parts z : in_int z = true -> (z = 0 /\ f_parts (f_ofZ z) = Some (0, 0)) \/ exists e, e < 0 /\ f_parts (f_ofZ z) = Some (z * 2 ^ (- e), e).
Proof.
  intros Hz. apply in_int_iff in Hz. unfold INT_MIN, INT_MAX in Hz.
  assert (To : forall x, 0 <= x < 2 ^ 53 -> to_Z (of_Z x) = x) by (intros x Hx; rewrite of_Z_spec; apply Z.mod_small; change wB with (2 ^ 63); lia).
  unfold f_parts, f_ofZ. destruct (Z.ltb_spec z 0) as [Ln|Ln].
  - right. rewrite FloatAxioms.opp_spec, of_uint63_spec, To by lia. destruct z as [|p|p]; try lia. cbn [Z.opp].
    destruct (normal_parts p) as (m & e & E & He & Em); [lia|]. rewrite E. cbn [SFopp negb]. exists e. split; [exact He|].
    f_equal. f_equal. change (Zneg m) with (- Zpos m). rewrite Em. change (Zneg p) with (- Zpos p). ring.
  - rewrite of_uint63_spec, To by lia. destruct z as [|p|p]; try lia.
    + left. split; reflexivity.
    + right. destruct (normal_parts p) as (m & e & E & He & Em); [lia|]. rewrite E. exists e. split; [exact He|]. rewrite Em. reflexivity.
Qed.
Lemma floor_whole x e : e < 0 -> z_floor (x * 2 ^ (- e)) e = x.
Proof. intros He. unfold z_floor. destruct (Z.ltb_spec e 0); [|lia]. apply Z.div_mul. apply Z.pow_nonzero; lia. Qed.
Lemma sign_scaled x e : e < 0 -> (x * 2 ^ (- e) <? 0) = (x <? 0).
Proof.
  intros He. assert (P : 0 < 2 ^ (- e)) by (apply Z.pow_pos_nonneg; lia).
  destruct (Z.ltb_spec x 0), (Z.ltb_spec (x * 2 ^ (- e)) 0); try reflexivity; nia.
Qed.
Lemma trunc_whole x e : e < 0 -> z_trunc (x * 2 ^ (- e)) e = x.
Proof.
  intros He. unfold z_trunc. rewrite sign_scaled by exact He. destruct (x <? 0); [|apply floor_whole, He].
  replace (- (x * 2 ^ (- e))) with (- x * 2 ^ (- e)) by ring. rewrite floor_whole by exact He. lia.
Qed.
Lemma round_half x e : e < 0 -> z_floor (2 * (x * 2 ^ (- e)) + 2 ^ (- e)) (e - 1) = x.
Proof.
  intros He. unfold z_floor. destruct (Z.ltb_spec (e - 1) 0); [|lia]. replace (- (e - 1)) with (Z.succ (- e)) by lia. rewrite Z.pow_succ_r by lia.
  assert (P : 0 < 2 ^ (- e)) by (apply Z.pow_pos_nonneg; lia).
  symmetry. apply (Z.div_unique_pos _ _ _ (2 ^ (- e))); nia.
Qed.
Lemma round_whole x e : e < 0 -> z_round (x * 2 ^ (- e)) e = x.
Proof.
  intros He. unfold z_round. destruct (Z.ltb_spec e 0); [|lia]. rewrite sign_scaled by exact He. destruct (x <? 0); [|apply round_half, He].
  replace (- (x * 2 ^ (- e))) with (- x * 2 ^ (- e)) by ring. rewrite round_half by exact He. lia.
Qed.

Theorem F64_whole lnf : @whole_numbers (F64 lnf).
Proof.
  split.
  - intros z Hz. cbn [ntrunc nround nofZ F64]. destruct (ofZ_parts z Hz) as [[-> E]|(e & He & E)].
    + assert (Er : f_int z_round (f_ofZ 0) = f_ofZ 0) by (unfold f_int; rewrite E; reflexivity). rewrite Er. unfold f_trunc. rewrite E. reflexivity.
    + assert (Er : f_int z_round (f_ofZ z) = f_ofZ z).
      { unfold f_int. rewrite E. destruct (Z.leb_spec 0 e); [lia|]. rewrite round_whole by exact He. reflexivity. }
      rewrite Er. unfold f_trunc. rewrite E, trunc_whole by exact He. rewrite Hz. reflexivity.
  - intros x z. cbn [ntrunc F64]. unfold f_trunc. destruct (f_parts x) as [[m e]|]; [|discriminate].
    destruct (in_int (z_trunc m e)) eqn:Ei; [|discriminate]. intros E. inversion E; subst. exact Ei.
Qed.
