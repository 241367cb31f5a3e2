(** * Numbers with 53 bits compute as doubles do (C65) *)
From Flocq Require Import Core.
From Coq Require Import ZArith Reals Lra Floats.
From Verif Require Import B53 FloatSpec FloatProofs B53Spec B53Proofs.
Open Scope R_scope.

(** The arithmetic of C65_binary_unit_partial (PropUnit.v) is that of doubles, as
    long as no result is too large for a double, and none is below 2^-1022
    without being zero: each operation gives a double of the same value, and each
    comparison the same answer. *)
Theorem C65_doubles_compute_alike :
  forall (x y : float) (a b : bf),
    same_value x a -> same_value y b ->
    (in_range (fval x + fval y) -> same_value (x + y)%float (badd a b)) /\
    (in_range (fval x - fval y) -> same_value (x - y)%float (bsub a b)) /\
    (in_range (fval x * fval y) -> same_value (x * y)%float (bmul a b)) /\
    (fval y <> 0 -> in_range (fval x / fval y) -> same_value (x / y)%float (bdiv a b)) /\
    PrimFloat.ltb x y = bltb a b /\ PrimFloat.eqb x y = beqb a b.
Proof.
  intros x y a b Hx Hy.
  split; [exact (double_add x y a b Hx Hy)|]. split; [exact (double_sub x y a b Hx Hy)|]. split; [exact (double_mul x y a b Hx Hy)|].
  split; [exact (double_div x y a b Hx Hy)|]. split; [exact (double_ltb x y a b Hx Hy)|exact (double_eqb x y a b Hx Hy)].
Qed.
Print Assumptions C65_doubles_compute_alike.
Example C65_doubles_nonvacuous :
  same_value 7%float (b_ofZ 7) /\ same_value 3%float (b_ofZ 3) /\ in_range (fval 7%float / fval 3%float) /\ bdiv (b_ofZ 7) (b_ofZ 3) = BF false 5254199565265579 (-51).
Proof.
  assert (E7 : fval 7%float = 7).
  { unfold fval. replace (Prim2SF 7%float) with (S754_finite false 7881299347898368 (-50)) by (vm_compute; reflexivity).
    cbv [BinarySingleNaN.SF2R F2R cond_Zopp Fnum Fexp bpow Z.pow_pos Pos.iter Z.mul Pos.mul radix_val radix2]. lra. }
  assert (E3 : fval 3%float = 3).
  { unfold fval. replace (Prim2SF 3%float) with (S754_finite false 6755399441055744 (-51)) by (vm_compute; reflexivity).
    cbv [BinarySingleNaN.SF2R F2R cond_Zopp Fnum Fexp bpow Z.pow_pos Pos.iter Z.mul Pos.mul radix_val radix2]. lra. }
  split; [|split; [|split]].
  - split; [vm_compute; reflexivity|]. split; [vm_compute; exact I|]. rewrite E7.
    replace (b_ofZ 7) with (BF false 7881299347898368 (-50)) by (vm_compute; reflexivity).
    cbv [bval bsgn bpow Z.pow_pos Pos.iter Z.mul Pos.mul radix_val radix2]. lra.
  - split; [vm_compute; reflexivity|]. split; [vm_compute; exact I|]. rewrite E3.
    replace (b_ofZ 3) with (BF false 6755399441055744 (-51)) by (vm_compute; reflexivity).
    cbv [bval bsgn bpow Z.pow_pos Pos.iter Z.mul Pos.mul radix_val radix2]. lra.
  - rewrite E7, E3. right. rewrite Rabs_pos_eq by lra. split.
    + apply Rle_trans with (bpow radix2 1); [apply bpow_le; discriminate|]. change (bpow radix2 1) with 2. lra.
    + apply Rle_lt_trans with (bpow radix2 2); [|apply bpow_lt; reflexivity].
      apply abs_round_le_generic; [apply FLX_exp_valid; reflexivity|apply valid_rnd_N| |].
      * apply generic_format_bpow. discriminate.
      * rewrite Rabs_pos_eq by lra. change (bpow radix2 2) with 4. lra.
  - vm_compute. reflexivity.
Qed.
