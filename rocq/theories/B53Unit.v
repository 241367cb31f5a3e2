(** * Powers of two as units in binary floating point *)
From Coq Require Import ZArith List Bool Lia.
From Verif Require Import Base Num F64 B53 UnitSpec UnitNum.
Open Scope Z_scope.

Lemma sh_q k n p q e : bshift k (rnd_q n p q e) = rnd_q n p q (e + k).
Proof. unfold rnd_q. cbn [bshift]. f_equal. lia. Qed.
Lemma sh_z k z e : bshift k (rnd_z z e) = rnd_z z (e + k).
Proof. destruct z; [reflexivity|apply sh_q|apply sh_q]. Qed.
Lemma sh_opp k x : bopp (bshift k x) = bshift k (bopp x).
Proof. destruct x; reflexivity. Qed.
Lemma sh_add k x y : badd (bshift k x) (bshift k y) = bshift k (badd x y).
Proof.
  destruct x as [|n m e|a|], y as [|n' m' e'|a'|]; cbn [bshift badd]; try reflexivity; try (rewrite sh_z; reflexivity).
  - rewrite sh_z, <- Z.add_min_distr_r. f_equal. f_equal; f_equal; f_equal; lia.
  - destruct (Bool.eqb a a'); reflexivity.
Qed.
Lemma sh_sub k x y : bsub (bshift k x) (bshift k y) = bshift k (bsub x y).
Proof. unfold bsub. rewrite sh_opp. apply sh_add. Qed.
Lemma sh_mul k x y : bmul (bshift k x) y = bshift k (bmul x y).
Proof. destruct x, y; cbn [bshift bmul]; try reflexivity. rewrite sh_q. f_equal. lia. Qed.
Lemma sh_mulr k x y : bmul x (bshift k y) = bshift k (bmul x y).
Proof. destruct x, y; cbn [bshift bmul]; try reflexivity. rewrite sh_q. f_equal. lia. Qed.
Lemma sh_mm k x y : bmul (bshift k x) (bshift (- k) y) = bmul x y.
Proof. destruct x, y; cbn [bshift bmul]; try reflexivity. f_equal. lia. Qed.
Lemma sh_divb k x y : bdiv (bshift k x) (bshift k y) = bdiv x y.
Proof. destruct x, y; cbn [bshift bdiv]; try reflexivity. f_equal. lia. Qed.
Lemma sh_div k x y : bdiv (bshift k x) y = bshift k (bdiv x y).
Proof. destruct x, y; cbn [bshift bdiv]; try reflexivity. rewrite sh_q. f_equal. lia. Qed.
Lemma sh_inv k x y : bdiv x (bshift k y) = bshift (- k) (bdiv x y).
Proof. destruct x, y; cbn [bshift bdiv]; try reflexivity. rewrite sh_q. f_equal. lia. Qed.
Lemma sh_cmp k x y : bcmp (bshift k x) (bshift k y) = bcmp x y.
Proof.
  destruct x, y; cbn [bshift bcmp]; try reflexivity. rewrite Z.add_min_distr_r. f_equal. f_equal; do 2 f_equal; lia.
Qed.

(** a unit 2^k times as long *)
Definition binary_lawful {sqrtf lnf} (k : Z) : lawful (B53 sqrtf lnf).
Proof.
  refine (@mkLawful (B53 sqrtf lnf) (binary_change k) _ _ _ _ _ _ _ _ _ _ _ _ _ _ _ _ _ _ _ _ _ _ _);
    cbn [new_rate new_time binary_change nadd nsub nmul ndiv nltb nleb neqb num B53].
  - reflexivity. - reflexivity. - apply sh_add. - apply sh_add. - apply sh_sub. - apply sh_sub.
  - apply sh_mul. - apply sh_mul. - apply sh_mulr. - apply sh_mulr. - apply sh_mm.
  - apply sh_divb. - apply sh_divb. - apply sh_div. - apply sh_div. - apply sh_inv.
  - intros x y. rewrite sh_inv, Z.opp_involutive. reflexivity.
  - intros. unfold bltb. rewrite sh_cmp. reflexivity.
  - intros. unfold bltb. rewrite sh_cmp. reflexivity.
  - intros. unfold bleb. rewrite sh_cmp. reflexivity.
  - intros. unfold bleb. rewrite sh_cmp. reflexivity.
  - intros. unfold beqb. rewrite sh_cmp. reflexivity.
  - reflexivity.
Defined.
