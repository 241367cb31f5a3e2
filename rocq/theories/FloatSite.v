(** * Sites in double arithmetic: probabilities, time constants, picks and dwell
    times are the exact ones up to a few roundings per neighbour *)
From Flocq Require Import Core BinarySingleNaN PrimFloat.
From Coq Require Import ZArith List Bool Reals Lra Lia Permutation Floats Uint63.
From Verif Require Import Base BaseProofs Num F64 RSum SiteModel SiteProofs FloatSpec FloatProofs.
Import ListNotations.
Open Scope R_scope.

Local Notation u := uround.

(** ** Powers of 1 + u and 1 - u *)
Lemma up_pos m : 0 < (1 + u) ^ m.
Proof. apply pow_lt. pose proof uround_pos; lra. Qed.
Lemma up_ge1 m : 1 <= (1 + u) ^ m.
Proof. apply pow_R1_Rle. pose proof uround_pos; lra. Qed.
Lemma dn_pos m : 0 < (1 - u) ^ m.
Proof. apply pow_lt. pose proof uround_small; lra. Qed.
Lemma dn_le1 m : (1 - u) ^ m <= 1.
Proof.
  pose proof uround_pos; pose proof uround_small. induction m as [|m IH]; [simpl; lra|].
  simpl. pose proof (dn_pos m). nra.
Qed.
Lemma up_mono m m' : (m <= m')%nat -> (1 + u) ^ m <= (1 + u) ^ m'.
Proof. intros H. apply Rle_pow; [pose proof uround_pos; lra | exact H]. Qed.
Lemma dn_mono m m' : (m <= m')%nat -> (1 - u) ^ m' <= (1 - u) ^ m.
Proof.
  intros H. replace m' with (m + (m' - m))%nat by lia. rewrite pow_add.
  pose proof (dn_pos m); pose proof (dn_le1 (m' - m)); nra.
Qed.
(** (1+u)^m <= 1 + 2mu and 1 - mu <= (1-u)^m *)
Lemma up_linear m : INR m * (2 * u) <= 1 -> (1 + u) ^ m <= 1 + INR m * (2 * u).
Proof.
  pose proof uround_pos. induction m as [|m IH]; intros Hm; [simpl; lra|].
  rewrite S_INR in *. pose proof (pos_INR m). simpl.
  specialize (IH ltac:(nra)). pose proof (up_pos m). nra.
Qed.
Lemma dn_linear m : 1 - INR m * u <= (1 - u) ^ m.
Proof.
  pose proof uround_pos; pose proof uround_small. induction m as [|m IH]; [simpl; lra|].
  rewrite S_INR. pose proof (pos_INR m). simpl. pose proof (dn_le1 m). nra.
Qed.
(** divisions by them *)
Lemma inv_up m : (1 - u) ^ m <= / (1 + u) ^ m.
Proof.
  rewrite <- pow_inv. apply pow_incr.
  pose proof uround_pos; pose proof uround_small. split; [lra|].
  apply (Rmult_le_reg_r (1 + u)); [lra|]. rewrite Rinv_l by lra. nra.
Qed.
Lemma inv_dn m : / (1 - u) ^ m <= (1 + u) ^ (2 * m).
Proof.
  rewrite <- pow_inv. rewrite pow_mult. apply pow_incr.
  pose proof uround_pos; pose proof uround_small. split; [apply Rlt_le, Rinv_0_lt_compat; lra|].
  apply (Rmult_le_reg_r (1 - u)); [lra|]. rewrite Rinv_l by lra. simpl.
  assert (0 <= u * (1 - u - u * u)) by nra. nra.
Qed.

(** a value between (1-u)^m and (1+u)^m times another is near it *)
Lemma near_of m x y : 0 <= x -> INR m * (2 * u) <= 1 ->
  (1 - u) ^ m * x <= y <= (1 + u) ^ m * x -> near m x y.
Proof.
  intros Hx Hm (Hl & Hu). unfold near. rewrite (Rabs_pos_eq x) by exact Hx.
  pose proof (up_linear m Hm). pose proof (dn_linear m). pose proof uround_pos. pose proof (pos_INR m).
  assert (0 <= INR m * u) by nra.
  apply Rabs_le. split; nra.
Qed.

(** ** The sum of a list of doubles, added up from the left *)
Definition fsum (t : float) (l : list float) : float := fold_left PrimFloat.add l t.
Definition usable (x : float) : Prop := fin x /\ 0 <= fval x.

Lemma fsum_err l : forall t, usable t -> Forall usable l ->
  (1 + u) ^ length l * (fval t + Rsum fval l) <= bpow radix2 1023 ->
  usable (fsum t l) /\
  (1 - u) ^ length l * (fval t + Rsum fval l) <= fval (fsum t l)
    <= (1 + u) ^ length l * (fval t + Rsum fval l) /\
  fval t <= fval (fsum t l) /\ (forall x, In x l -> fval x <= fval (fsum t l)).
Proof.
  pose proof uround_pos as Up; pose proof uround_small as Us.
  induction l as [|x l IH]; intros t Ht Hl Hb.
  - simpl in *. split; [exact Ht|]. split; [lra|]. split; [lra|]. intros x [].
  - inversion Hl as [|? ? Hx Hl']; subst. cbn [Rsum length pow] in *.
    assert (Rl : 0 <= Rsum fval l)
      by (apply Rsum_nonneg; intros y Hy; rewrite Forall_forall in Hl'; apply Hl'; exact Hy).
    destruct Ht as (Ft & Pt), Hx as (Fx & Px).
    pose proof (up_ge1 (length l)) as U1. pose proof (up_pos (length l)) as U0.
    pose proof (dn_pos (length l)) as D0.
    destruct (fadd_err t x Ft Fx Pt Px) as (F & (Lo & Hi) & Gt & Gx).
    { eapply Rle_trans; [|exact Hb].
      apply Rle_trans with (1 * (fval t + (fval x + Rsum fval l))); [lra|].
      apply Rmult_le_compat_r; [lra|]. nra. }
    assert (S1 : fval (t + x)%float + Rsum fval l <= (1 + u) * (fval t + (fval x + Rsum fval l))) by nra.
    assert (S2 : (1 - u) * (fval t + (fval x + Rsum fval l)) <= fval (t + x)%float + Rsum fval l) by nra.
    destruct (IH (t + x)%float) as (Us' & (Lo' & Hi') & Gt' & Gx').
    + split; [exact F | lra].
    + exact Hl'.
    + eapply Rle_trans; [|exact Hb].
      apply Rle_trans with ((1 + u) ^ length l * ((1 + u) * (fval t + (fval x + Rsum fval l)))); [|lra].
      apply Rmult_le_compat_l; lra.
    + change (fsum t (x :: l)) with (fsum (t + x)%float l).
      split; [exact Us'|]. split; [split|split].
      * eapply Rle_trans; [|exact Lo'].
        apply Rle_trans with ((1 - u) ^ length l * ((1 - u) * (fval t + (fval x + Rsum fval l)))); [lra|].
        apply Rmult_le_compat_l; lra.
      * eapply Rle_trans; [exact Hi'|].
        apply Rle_trans with ((1 + u) ^ length l * ((1 + u) * (fval t + (fval x + Rsum fval l)))); [|lra].
        apply Rmult_le_compat_l; lra.
      * lra.
      * intros y [<-|Hy]; [lra | apply Gx'; exact Hy].
Qed.

(** ** The ordered set with probabilities that may be truncated *)
Section AnyNum.
Context {N : Num}.
Definition truncs (x : Z * num) : Prop := exists z, ntrunc (snd x) = Some z.

Lemma set_insert_any (x : Z * num) l : truncs x -> Forall truncs l -> ~ In (fst x) (map fst l) ->
  exists l', set_insert x l = Ok l' /\ Permutation l' (x :: l).
Proof.
  intros (a & Ea). induction l as [|y l IH]; intros Hl Hni.
  - exists [x]. split; reflexivity.
  - inversion Hl as [|? ? (b & Eb) Hl']; subst. simpl in Hni.
    assert (Ne : fst x <> fst y) by (intro E; apply Hni; left; symmetry; exact E).
    assert (Hni' : ~ In (fst x) (map fst l)) by (intro Hx; apply Hni; right; exact Hx).
    cbn [set_insert]. unfold set_cmp. rewrite Ea, Eb. cbn [rbind].
    rewrite (proj2 (Z.eqb_neq (fst x) (fst y)) Ne), (proj2 (Z.eqb_neq (fst y) (fst x)) (not_eq_sym Ne)).
    destruct (if (a =? b)%Z then (fst x <? fst y)%Z else (a <? b)%Z) eqn:E1.
    + eexists; split; reflexivity.
    + assert (E2 : (if (b =? a)%Z then (fst y <? fst x)%Z else (b <? a)%Z) = true).
      { destruct (Z.eqb_spec a b) as [->|Nab].
        - rewrite Z.eqb_refl. apply Z.ltb_lt. apply Z.ltb_ge in E1. lia.
        - rewrite (proj2 (Z.eqb_neq b a) (not_eq_sym Nab)). apply Z.ltb_lt. apply Z.ltb_ge in E1. lia. }
      rewrite E2. destruct (IH Hl' Hni') as (l' & -> & P). cbn [rbind].
      eexists; split; [reflexivity|]. rewrite P. apply perm_swap.
Qed.

Lemma prob_loop_any (h : heap) (sum : num) neigh : forall acc,
  Forall truncs acc -> Forall (fun e : Z * Z => truncs (fst e, ndiv (h (snd e)) sum)) neigh ->
  NoDup (ukeys neigh) -> (forall n, In n (ukeys neigh) -> ~ In n (map fst acc)) ->
  exists l, prob_loop h sum neigh acc = Ok l /\
    Permutation l (map (fun e : Z * Z => (fst e, ndiv (h (snd e)) sum)) neigh ++ acc).
Proof.
  induction neigh as [|e neigh IH]; intros acc Ha Hn ND Dis.
  - exists acc. split; reflexivity.
  - inversion Hn as [|? ? He Hn']; subst. simpl in ND. inversion ND as [|? ? Hni ND']; subst.
    cbn [prob_loop].
    destruct (set_insert_any (fst e, ndiv (h (snd e)) sum) acc He Ha) as (acc' & -> & P).
    { apply Dis. simpl; auto. }
    cbn [rbind].
    destruct (IH acc') as (l & -> & Pl).
    + rewrite P. constructor; assumption.
    + exact Hn'.
    + exact ND'.
    + intros n Hin Hin'. rewrite P in Hin'. simpl in Hin'. destruct Hin' as [<-|Hin'].
      * apply Hni. exact Hin.
      * revert Hin'. apply Dis. simpl; auto.
    + exists l. split; [reflexivity|]. rewrite Pl, P. simpl. symmetry. apply Permutation_middle.
Qed.
End AnyNum.

(** ** The sum of the rates, the probabilities and the time constant *)
Lemma bpow_IZR e : (0 <= e)%Z -> bpow radix2 e = IZR (2 ^ e).
Proof. intros He. change 2%Z with (radix_val radix2). rewrite IZR_Zpower by exact He. reflexivity. Qed.
Lemma bpow_400 : IZR (2 ^ 400) = bpow radix2 400.
Proof. rewrite bpow_IZR by lia. reflexivity. Qed.
Lemma bpow_m400 : / IZR (2 ^ 400) = bpow radix2 (-400).
Proof. rewrite bpow_400. change (-400)%Z with (- (400))%Z. rewrite bpow_opp. reflexivity. Qed.

Lemma size_small n k c : (Z.of_nat n <= 2 ^ 40)%Z -> (k <= 1000 * n + c)%nat -> (c <= 1000)%nat ->
  INR k * (2 * u) <= 1 / 2.
Proof.
  intros Hn Hk Hc.
  assert (Hz : (Z.of_nat k <= 2 ^ 51)%Z) by lia.
  rewrite INR_IZR_INZ. apply IZR_le in Hz. unfold uround.
  apply Rle_trans with (IZR (2 ^ 51) * (2 * / IZR (2 ^ 53))).
  - apply Rmult_le_compat_r; [|exact Hz].
    assert (0 < / IZR (2 ^ 53)) by (apply Rinv_0_lt_compat, IZR_lt; reflexivity). lra.
  - replace (IZR (2 ^ 53)) with (4 * IZR (2 ^ 51)); [|rewrite <- mult_IZR; apply f_equal; reflexivity].
    assert (0 < IZR (2 ^ 51)) by (apply IZR_lt; reflexivity).
    apply Req_le. field. lra.
Qed.

Section Site.
Context (lnf : float -> float) {I : Impl} {G : @Rng (F64 lnf)}.
Notation FN := (F64 lnf).

Definition fent (h : Z -> float) (sum : float) (e : Z * Z) : Z * float := (fst e, PrimFloat.div (h (snd e)) sum).

Lemma sum_rates_fsum (h : Z -> float) rates : @sum_rates FN h rates = fsum 0%float (map (fun e => h (snd e)) rates).
Proof.
  unfold sum_rates, fsum. change (@n0 FN) with 0%float. generalize 0%float.
  induction rates as [|e rates IH]; intros t; [reflexivity|]. simpl. apply IH.
Qed.

Lemma good_doubles_perm h rates rates' : Permutation rates rates' -> good_doubles h rates -> good_doubles h rates'.
Proof.
  intros P (Hne & ND & Hn & Hp). split; [|split; [|split]].
  - intros ->. apply Hne. apply Permutation_nil. symmetry; exact P.
  - eapply Permutation_NoDup; [apply Permutation_map; exact P | exact ND].
  - rewrite <- (Permutation_length P). exact Hn.
  - intros n a Hin. apply (Hp n a). eapply Permutation_in; [symmetry; exact P | exact Hin].
Qed.

Lemma total_ge h rates e : good_doubles h rates -> In e rates -> fval (h (snd e)) <= exact_total h rates.
Proof.
  intros (_ & _ & _ & Hp) He. unfold exact_total.
  apply (Rsum_ge_elem (fun e => fval (h (snd e)))); [|exact He].
  intros [n a] Hy. destruct (Hp n a Hy) as (_ & Hl & _). simpl. rewrite bpow_m400 in Hl.
  pose proof (bpow_gt_0 radix2 (-400)). lra.
Qed.

Lemma good_rate h rates e : good_doubles h rates -> In e rates ->
  fin (h (snd e)) /\ bpow radix2 (-400) <= fval (h (snd e)) <= bpow radix2 400.
Proof.
  intros (_ & _ & _ & Hp) He. destruct e as [n a]. destruct (Hp n a He) as (F & Hl & Hu).
  rewrite bpow_m400 in Hl. rewrite bpow_400 in Hu. auto.
Qed.

Lemma total_pos h rates : good_doubles h rates -> 0 < exact_total h rates.
Proof.
  intros Hg. destruct Hg as (Hne & Hr) eqn:Eg. destruct rates as [|e rates]; [congruence|].
  eapply Rlt_le_trans; [|apply (total_ge h _ e Hg); simpl; auto].
  destruct (good_rate h _ e Hg) as (_ & Hl & _); [simpl; auto|].
  pose proof (bpow_gt_0 radix2 (-400)). lra.
Qed.

Lemma total_le h rates : good_doubles h rates -> exact_total h rates <= bpow radix2 440.
Proof.
  intros Hg. unfold exact_total.
  apply Rle_trans with (Rsum (fun _ : Z * Z => bpow radix2 400) rates).
  - apply Rsum_le. intros e He. apply (good_rate h _ e Hg He).
  - rewrite Rsum_const. replace 440%Z with (40 + 400)%Z by lia. rewrite bpow_plus.
    apply Rmult_le_compat_r; [apply bpow_ge_0|].
    rewrite INR_IZR_INZ, bpow_IZR by lia. apply IZR_le. apply Hg.
Qed.

Lemma up_le2 n k : (Z.of_nat n <= 2 ^ 40)%Z -> (k <= 4 * n + 10)%nat -> (1 + u) ^ k <= 2.
Proof.
  intros Hn Hk. assert (H : INR k * (2 * u) <= 1 / 2) by (apply (size_small n k 10); [exact Hn|lia|lia]).
  pose proof (up_linear k). lra.
Qed.

Lemma sum_err h rates : good_doubles h rates ->
  let S := exact_total h rates in let F := @sum_rates FN h rates in
  fin F /\ (1 - u) ^ length rates * S <= fval F <= (1 + u) ^ length rates * S /\
  (forall e, In e rates -> fval (h (snd e)) <= fval F) /\
  bpow radix2 (-400) <= fval F <= bpow radix2 441.
Proof.
  intros Hg S F. subst F. rewrite sum_rates_fsum.
  assert (ES : Rsum fval (map (fun e => h (snd e)) rates) = S) by (rewrite Rsum_map; reflexivity).
  pose proof (total_pos h rates Hg) as SP. pose proof (total_le h rates Hg) as SL. fold S in SP, SL.
  pose proof (up_le2 (length rates) (length rates) (proj1 (proj2 (proj2 Hg))) ltac:(lia)) as U2.
  pose proof (up_pos (length rates)) as U0.
  assert (B441 : bpow radix2 441 = 2 * bpow radix2 440).
  { replace 441%Z with (1 + 440)%Z by lia. rewrite bpow_plus. reflexivity. }
  destruct (fsum_err (map (fun e => h (snd e)) rates) 0%float) as ((Fs & Ps) & (Lo & Hi) & _ & Ge).
  - split; [apply fin_0 | rewrite fval_0; lra].
  - apply Forall_forall. intros x Hx. apply in_map_iff in Hx. destruct Hx as (e & <- & He).
    destruct (good_rate h _ e Hg He) as (Fe & Hl & _). split; [exact Fe|].
    pose proof (bpow_gt_0 radix2 (-400)). lra.
  - rewrite map_length, ES, fval_0, Rplus_0_l.
    apply Rle_trans with (bpow radix2 441); [|apply bpow_le; lia].
    rewrite B441. apply Rmult_le_compat; lra.
  - rewrite map_length, ES, fval_0, Rplus_0_l in Lo, Hi.
    assert (Ge' : forall e, In e rates -> fval (h (snd e)) <= fval (fsum 0 (map (fun e0 : Z * Z => h (snd e0)) rates))).
    { intros e He. apply Ge. apply in_map_iff. eauto. }
    split; [exact Fs|]. split; [split; assumption|]. split; [exact Ge'|]. split.
    + destruct rates as [|e rates]; [destruct Hg; congruence|].
      eapply Rle_trans; [|apply (Ge' e); simpl; auto].
      apply (good_rate h _ e Hg). simpl; auto.
    + eapply Rle_trans; [exact Hi|]. rewrite B441. apply Rmult_le_compat; lra.
Qed.

(** x / F compared with x / S *)
Lemma quotient_err n x S F q : 0 < x -> 0 < S -> 0 < F ->
  (1 - u) ^ n * S <= F <= (1 + u) ^ n * S ->
  (1 - u) * (x / F) <= q <= (1 + u) * (x / F) ->
  (1 - u) ^ (n + 1) * (x / S) <= q <= (1 + u) ^ (2 * n + 1) * (x / S).
Proof.
  intros Hx HS HF (Hl & Hu) (Ql & Qu).
  pose proof uround_pos; pose proof uround_small.
  pose proof (dn_pos n) as D0. pose proof (up_pos n) as U0.
  assert (A : (1 - u) ^ n * (x / S) <= x / F).
  { apply Rle_trans with (/ (1 + u) ^ n * (x / S)).
    - apply Rmult_le_compat_r; [apply Rlt_le, Rdiv_lt_0_compat; assumption | apply inv_up].
    - apply Rle_trans with (x / ((1 + u) ^ n * S)).
      + apply Req_le. field. split; lra.
      + unfold Rdiv. apply Rmult_le_compat_l; [lra|]. apply Rinv_le; assumption. }
  assert (B : x / F <= (1 + u) ^ (2 * n) * (x / S)).
  { apply Rle_trans with (/ (1 - u) ^ n * (x / S)).
    - apply Rle_trans with (x / ((1 - u) ^ n * S)).
      + unfold Rdiv. apply Rmult_le_compat_l; [lra|]. apply Rinv_le; [apply Rmult_lt_0_compat; assumption | assumption].
      + apply Req_le. field. split; lra.
    - apply Rmult_le_compat_r; [apply Rlt_le, Rdiv_lt_0_compat; assumption | apply inv_dn]. }
  rewrite !pow_add, !pow_1. split.
  - eapply Rle_trans; [|exact Ql]. rewrite (Rmult_comm _ (1 - u)), Rmult_assoc.
    apply Rmult_le_compat_l; lra.
  - eapply Rle_trans; [exact Qu|]. rewrite (Rmult_comm _ (1 + u)), Rmult_assoc.
    apply Rmult_le_compat_l; lra.
Qed.

Lemma div_range x F a b c d : 0 < x -> 0 < F -> bpow radix2 a <= x <= bpow radix2 b ->
  bpow radix2 c <= F <= bpow radix2 d -> bpow radix2 (a - d) <= x / F <= bpow radix2 (b - c).
Proof.
  intros Hx HF (Ha & Hb) (Hc & Hd).
  assert (P : forall e, 0 < bpow radix2 e) by (intros; apply bpow_gt_0).
  unfold Zminus. rewrite !bpow_plus, !bpow_opp. unfold Rdiv. split.
  - apply Rmult_le_compat; try (apply Rlt_le; try apply Rinv_0_lt_compat; auto; fail); [exact Ha|].
    apply Rinv_le; auto.
  - apply Rmult_le_compat; [lra | apply Rlt_le, Rinv_0_lt_compat; exact HF | exact Hb|].
    apply Rinv_le; auto.
Qed.

Lemma prob_err h rates e : good_doubles h rates -> In e rates ->
  let p := PrimFloat.div (h (snd e)) (@sum_rates FN h rates) in
  fin p /\ 0 < fval p <= 1 /\
  (1 - u) ^ (length rates + 1) * exact_prob h rates (snd e) <= fval p
    <= (1 + u) ^ (2 * length rates + 1) * exact_prob h rates (snd e).
Proof.
  intros Hg He p.
  destruct (sum_err h rates Hg) as (FF & B & Ge & R4).
  destruct (good_rate h rates e Hg He) as (Fe & Re).
  pose proof (bpow_gt_0 radix2 (-400)) as B0.
  pose proof (total_pos h rates Hg) as SP.
  assert (R : bpow radix2 (-841) <= fval (h (snd e)) / fval (@sum_rates FN h rates) <= bpow radix2 800).
  { apply (div_range _ _ (-400) 400 (-400) 441); try assumption; lra. }
  destruct (fdiv_err (h (snd e)) (@sum_rates FN h rates)) as (Fp & Ep & L1); try assumption; try lra.
  { split; [eapply Rle_trans; [|apply R]; apply bpow_le; lia | eapply Rle_trans; [apply R|]; apply bpow_le; lia]. }
  fold p in Fp, Ep, L1.
  split; [exact Fp|]. split; [split|].
  - eapply Rlt_le_trans; [|apply Ep]. pose proof uround_small. pose proof (bpow_gt_0 radix2 (-841)).
    apply Rmult_lt_0_compat; lra.
  - apply L1. apply Ge. exact He.
  - apply (quotient_err (length rates) _ _ (fval (@sum_rates FN h rates))); try assumption; lra.
Qed.

Lemma tau_err h rates : good_doubles h rates ->
  let t := PrimFloat.div 1%float (@sum_rates FN h rates) in
  fin t /\ bpow radix2 (-442) <= fval t <= bpow radix2 401 /\
  (1 - u) ^ (length rates + 1) * (1 / exact_total h rates) <= fval t
    <= (1 + u) ^ (2 * length rates + 1) * (1 / exact_total h rates).
Proof.
  intros Hg t.
  destruct (sum_err h rates Hg) as (FF & B & Ge & R4).
  pose proof (bpow_gt_0 radix2 (-400)) as B0.
  pose proof (total_pos h rates Hg) as SP.
  pose proof fval_1 as V1.
  assert (R : bpow radix2 (-441) <= fval 1%float / fval (@sum_rates FN h rates) <= bpow radix2 400).
  { apply (div_range _ _ 0 0 (-400) 441); try assumption; rewrite ?V1; simpl; lra. }
  destruct (fdiv_err 1%float (@sum_rates FN h rates)) as (Fp & Ep & _); try assumption; rewrite ?V1; try lra.
  { apply fin_1. }
  { rewrite V1 in R. split; [eapply Rle_trans; [|apply R]; apply bpow_le; lia | eapply Rle_trans; [apply R|]; apply bpow_le; lia]. }
  fold t in Fp, Ep. rewrite V1 in Ep, R.
  pose proof uround_small. pose proof uround_pos.
  split; [exact Fp|]. split; [split|].
  - eapply Rle_trans; [|apply Ep].
    replace (-442)%Z with (-1 + -441)%Z by lia. rewrite bpow_plus. simpl (bpow radix2 (-1)).
    pose proof (bpow_gt_0 radix2 (-441)). apply Rmult_le_compat; lra.
  - eapply Rle_trans; [apply Ep|].
    replace 401%Z with (1 + 400)%Z by lia. rewrite bpow_plus. simpl (bpow radix2 1).
    pose proof (bpow_gt_0 radix2 (-441)). apply Rmult_le_compat; lra.
  - apply (quotient_err (length rates) _ _ (fval (@sum_rates FN h rates))); try assumption; lra.
Qed.

(** ** The state after the rates were set *)
Lemma fset_loop (h : Z -> float) rates (s : @site FN G) :
  (forall n a, In (n, a) rates -> fin (h a) /\ 0 < fval (h a)) ->
  mfor rates (fun e =>
    cassert (negb (@neqb FN (h (snd e)) n0)) ;;
    modify (fun s : @site FN G => s_with_neigh (uset (s_neigh s) (fst e) (snd e)) s)) s
  = Ret tt (s_with_neigh (add_all rates (s_neigh s)) s).
Proof.
  revert s; induction rates as [|[n a] rates IH]; intros s Hp.
  - simpl. destruct s; reflexivity.
  - cbn [mfor]. unfold bind at 1. unfold bind at 1. cbn [fst snd].
    destruct (Hp n a) as (F & Hr); [simpl; auto|].
    assert (En : @neqb FN (h a) n0 = false).
    { change (PrimFloat.eqb (h a) 0%float = false). destruct (PrimFloat.eqb (h a) 0%float) eqn:E; [|reflexivity].
      apply feqb in E; [rewrite fval_0 in E; lra | exact F | apply fin_0]. }
    rewrite En. cbn [negb cassert ret modify].
    rewrite IH; [|intros; apply (Hp n0 a0); simpl; auto].
    f_equal.
Qed.

Lemma fsetRates h rates (s : @site FN G) : s_neigh s = [] -> good_doubles h rates ->
  exists nb rs, @s_setRates I FN G h rates s =
      Ret tt (@s_with_prob FN G (map (fent h (@sum_rates FN h nb)) rs)
        (@s_with_tau FN G (PrimFloat.div 1%float (@sum_rates FN h nb)) (s_with_neigh nb s))) /\
    Permutation nb rates /\ Permutation rs rates.
Proof.
  intros Hs Hg.
  assert (P : Permutation (add_all rates (s_neigh s)) rates).
  { rewrite Hs. rewrite add_all_fresh; [rewrite app_nil_r; reflexivity | apply Hg | intros n _ []]. }
  set (nb := add_all rates (s_neigh s)) in *.
  pose proof (good_doubles_perm h _ _ (Permutation_sym P) Hg) as Hg'.
  destruct (prob_loop_any (N := FN) h (@sum_rates FN h nb) nb []) as (l & El & Pl).
  - constructor.
  - apply Forall_forall. intros e He. destruct (prob_err h nb e Hg' He) as (F & (P0 & P1) & _).
    apply trunc_unit; [exact F|]. simpl in *. lra.
  - apply Hg'.
  - intros n _ [].
  - rewrite app_nil_r in Pl.
    destruct (Permutation_map_inv _ _ Pl) as (rs & Ers & Prs).
    exists nb, rs. split; [|split; [exact P|]].
    + unfold s_setRates. unfold bind at 1.
      replace (negb (Nat.eqb (length rates) 0)) with true
        by (destruct Hg as (Hne & _); destruct rates; [congruence | reflexivity]).
      cbn [cassert ret]. unfold bind at 1. rewrite fset_loop.
      * fold nb. unfold bind, s_calcTau, modify, s_calcProb.
        cbn [s_with_tau s_neigh s_with_neigh]. rewrite El. rewrite Ers. reflexivity.
      * intros n a Hin. destruct (good_rate h rates (n, a) Hg Hin) as (F & L & _). split; [exact F|].
        pose proof (bpow_gt_0 radix2 (-400)). simpl in L. lra.
    + rewrite <- P. symmetry. exact Prs.
Qed.

Lemma total_perm h rates rates' : Permutation rates rates' -> exact_total h rates = exact_total h rates'.
Proof. intros P. unfold exact_total. apply Rsum_perm. exact P. Qed.

(** the entries of the table, against the rates of the user *)
Lemma entry_err h rates nb e : good_doubles h rates -> Permutation nb rates -> In e rates ->
  let p := snd (fent h (@sum_rates FN h nb) e) in
  fin p /\ 0 < fval p <= 1 /\
  (1 - u) ^ (length rates + 1) * exact_prob h rates (snd e) <= fval p
    <= (1 + u) ^ (2 * length rates + 1) * exact_prob h rates (snd e).
Proof.
  intros Hg P He.
  pose proof (prob_err h nb e (good_doubles_perm h _ _ (Permutation_sym P) Hg)
    (Permutation_in _ (Permutation_sym P) He)) as H.
  cbv zeta in H. unfold exact_prob in *. rewrite (total_perm h nb rates P), (Permutation_length P) in H.
  exact H.
Qed.

Lemma exact_prob_pos h rates e : good_doubles h rates -> In e rates -> 0 < exact_prob h rates (snd e).
Proof.
  intros Hg He. apply Rdiv_lt_0_compat; [|apply total_pos; exact Hg].
  destruct (good_rate h rates e Hg He) as (_ & L & _). pose proof (bpow_gt_0 radix2 (-400)). lra.
Qed.
Lemma exact_prob_sum h rates : good_doubles h rates -> Rsum (fun e => exact_prob h rates (snd e)) rates = 1.
Proof.
  intros Hg. unfold exact_prob, Rdiv. rewrite Rsum_scal_r. fold (exact_total h rates).
  apply Rinv_r. pose proof (total_pos h rates Hg). lra.
Qed.

(** sums of entries over part of the table *)
Lemma part_err h rates nb rs : good_doubles h rates -> Permutation nb rates -> incl rs rates ->
  (1 - u) ^ (length rates + 1) * Rsum (fun e => exact_prob h rates (snd e)) rs
    <= Rsum fval (map (fun e => snd (fent h (@sum_rates FN h nb) e)) rs)
    <= (1 + u) ^ (2 * length rates + 1) * Rsum (fun e => exact_prob h rates (snd e)) rs.
Proof.
  intros Hg P Hi. rewrite Rsum_map, <- !Rsum_scal. split; apply Rsum_le; intros e He;
    apply (entry_err h rates nb e Hg P (Hi e He)).
Qed.

Lemma fneigh_nil (s : @site FN G) : s_neighIds s = [] -> s_neigh s = [].
Proof. unfold s_neighIds, ukeys. destruct (s_neigh s); [reflexivity | discriminate]. Qed.

Lemma table_near h rates (s0 : @site FN G) : s_neighIds s0 = [] -> good_doubles h rates ->
  exists s, @s_setRates I FN G h rates s0 = Ret tt s /\
    let k := (2 * length rates + 1)%nat in
    (fin (s_getTimeConstant s) /\ 0 < fval (s_getTimeConstant s) /\
     near k (1 / exact_total h rates) (fval (s_getTimeConstant s))) /\
    (forall j p, In (j, p) (s_getProbs s) -> exists a, In (j, a) rates /\
       fin p /\ 0 < fval p <= 1 /\ near k (exact_prob h rates a) (fval p)) /\
    NoDup (map fst (s_getProbs s)) /\
    (forall j, In j (map fst (s_getProbs s)) <-> In j (ukeys rates)) /\
    near k 1 (Rsum (fun e => fval (snd e)) (s_getProbs s)).
Proof.
  intros Hs Hg.
  destruct (fsetRates h rates s0 (fneigh_nil s0 Hs) Hg) as (nb & rs & E & Pn & Pr).
  eexists. split; [exact E|]. clear E. cbv zeta. unfold s_getTimeConstant, s_getProbs.
  cbn [s_with_prob s_with_tau s_with_neigh s_tau s_prob].
  assert (K : INR (2 * length rates + 1) * (2 * u) <= 1)
    by (pose proof (size_small (length rates) (2 * length rates + 1) 10 (proj1 (proj2 (proj2 Hg))) ltac:(lia) ltac:(lia)); lra).
  assert (Near : forall x y, 0 <= x -> (1 - u) ^ (length rates + 1) * x <= y <= (1 + u) ^ (2 * length rates + 1) * x ->
            near (2 * length rates + 1) x y).
  { intros x y Hx (A & B). apply near_of; [exact Hx | exact K |]. split; [|exact B].
    eapply Rle_trans; [|exact A]. apply Rmult_le_compat_r; [exact Hx|]. apply dn_mono. lia. }
  split; [|split; [|split; [|split]]].
  - pose proof (good_doubles_perm h _ _ (Permutation_sym Pn) Hg) as Hg'.
    destruct (tau_err h nb Hg') as (F & (T1 & T2) & B). simpl in *.
    split; [exact F|]. split; [pose proof (bpow_gt_0 radix2 (-442)); lra|].
    rewrite (total_perm h nb rates Pn), (Permutation_length Pn) in B.
    apply Near; [|exact B]. apply Rlt_le, Rdiv_lt_0_compat; [lra | apply total_pos; exact Hg].
  - intros j p Hin. apply in_map_iff in Hin. destruct Hin as (e & Ee & He).
    assert (He' : In e rates) by (eapply Permutation_in; [exact Pr | exact He]).
    destruct (entry_err h rates nb e Hg Pn He') as (F & B1 & B). rewrite Ee in F, B1, B. cbn [snd] in F, B1, B.
    exists (snd e). split.
    { unfold fent in Ee. inversion Ee; subst. destruct e; exact He'. }
    split; [exact F|]. split; [exact B1|]. apply Near; [|exact B]. apply Rlt_le, exact_prob_pos; assumption.
  - rewrite map_map. cbn [fent fst]. eapply Permutation_NoDup; [apply Permutation_map; symmetry; exact Pr | apply Hg].
  - intros j. rewrite map_map. cbn [fent fst].
    assert (Pk : Permutation (map fst rs) (ukeys rates)) by (apply Permutation_map; exact Pr).
    split; intros H; [eapply Permutation_in; [exact Pk | exact H] | eapply Permutation_in; [symmetry; exact Pk | exact H]].
  - apply Near; [lra|].
    pose proof (part_err h rates nb rs Hg Pn (fun e He => Permutation_in _ Pr He)) as B.
    rewrite (Rsum_perm _ rs rates Pr), (exact_prob_sum h rates Hg) in B. rewrite Rsum_map in B. rewrite Rsum_map. exact B.
Qed.

(** ** Picks *)
Lemma fsum_app t l l' : fsum t (l ++ l') = fsum (fsum t l) l'.
Proof. unfold fsum. apply fold_left_app. Qed.

(** what the scan returned *)
Lemma scan_gives (d : float) (l : list (Z * float)) : forall t,
  fin d -> (forall l3, (exists l4, l = l3 ++ l4) -> fin (fsum t (map snd l3))) ->
  fval t <= fval d ->
  (exists l1 j p l2, l = l1 ++ (j, p) :: l2 /\ @pick_scan FN d t l = j /\
     fval (fsum t (map snd l1)) <= fval d < fval (fsum t (map snd (l1 ++ [(j, p)])))) \/
  (@pick_scan FN d t l = (-1)%Z /\ fval (fsum t (map snd l)) <= fval d).
Proof.
  induction l as [|e l IH]; intros t Fd Ff Hb.
  - right. split; [reflexivity|]. exact Hb.
  - cbn [pick_scan fst snd]. change (@nltb FN d (@nadd FN t (snd e))) with (PrimFloat.ltb d (t + snd e)%float).
    change (@nadd FN t (snd e)) with (t + snd e)%float.
    assert (F1 : fin (t + snd e)%float).
    { apply (Ff [e]). exists l. reflexivity. }
    destruct (PrimFloat.ltb d (t + snd e)%float) eqn:E.
    + left. exists [], (fst e), (snd e), l. split; [destruct e; reflexivity|]. split; [reflexivity|].
      split; [exact Hb|]. apply (proj1 (fltb _ _ Fd F1) E).
    + assert (B1 : fval (t + snd e)%float <= fval d).
      { apply Rnot_lt_le. intros H. apply (fltb _ _ Fd F1) in H. congruence. }
      destruct (IH (t + snd e)%float Fd) as [(l1 & j & p & l2 & -> & Ej & B)|(E1 & B)].
      * intros l3 (l4 & E4). apply (Ff (e :: l3)). exists l4. simpl. rewrite E4. reflexivity.
      * exact B1.
      * left. exists (e :: l1), j, p, l2. split; [reflexivity|]. split; [exact Ej|]. exact B.
      * right. split; [exact E1 | exact B].
Qed.

(** the threshold after part of the table, against the exact sum *)
Lemma threshold_err h rates nb rs : good_doubles h rates -> Permutation nb rates ->
  incl rs rates -> (length rs <= length rates)%nat -> Rsum (fun e => exact_prob h rates (snd e)) rs <= 1 ->
  let x := Rsum (fun e => exact_prob h rates (snd e)) rs in
  let t := fsum 0%float (map snd (map (fent h (@sum_rates FN h nb)) rs)) in
  fin t /\ Rabs (fval t - x) <= INR (3 * length rates + 1) * (2 * u).
Proof.
  intros Hg Pn Hi Hlen H1 x t. subst t. rewrite map_map.
  pose proof (part_err h rates nb rs Hg Pn Hi) as (PL & PU). fold x in PL, PU, H1.
  assert (X0 : 0 <= x) by (apply Rsum_nonneg; intros e He; apply Rlt_le, exact_prob_pos; auto).
  pose proof (proj1 (proj2 (proj2 Hg))) as Hn.
  pose proof (up_le2 (length rates) (length rs) Hn ltac:(lia)) as A1.
  pose proof (up_le2 (length rates) (2 * length rates + 1) Hn ltac:(lia)) as A2.
  pose proof (up_pos (length rs)) as A3. pose proof (up_pos (2 * length rates + 1)) as A4.
  pose proof (dn_pos (length rs)) as A5. pose proof (dn_pos (length rates + 1)) as A6.
  set (P := Rsum fval (map (fun e => snd (fent h (@sum_rates FN h nb) e)) rs)) in *.
  assert (P2 : P <= 2).
  { eapply Rle_trans; [exact PU|]. apply Rle_trans with (2 * 1); [|lra]. apply Rmult_le_compat; try lra. }
  assert (P0 : 0 <= P).
  { eapply Rle_trans; [|exact PL]. apply Rmult_le_pos; lra. }
  destruct (fsum_err (map (fun e => snd (fent h (@sum_rates FN h nb) e)) rs) 0%float) as ((F & _) & (Lo & Hi') & _).
  - split; [apply fin_0 | rewrite fval_0; lra].
  - apply Forall_forall. intros y Hy. apply in_map_iff in Hy. destruct Hy as (e & <- & He).
    destruct (entry_err h rates nb e Hg Pn (Hi e He)) as (Fe & (B0 & _) & _). split; [exact Fe | lra].
  - fold P. rewrite map_length, fval_0, Rplus_0_l. apply Rle_trans with (2 * 2).
    + apply Rmult_le_compat; lra.
    + apply Rle_trans with (bpow radix2 2); [simpl; lra | apply bpow_le; lia].
  - fold P in Lo, Hi'. rewrite map_length, fval_0, Rplus_0_l in Lo, Hi'.
    split; [exact F|].
    assert (N1 : near (3 * length rates + 1) x (fval (fsum 0 (map (fun e => snd (fent h (@sum_rates FN h nb) e)) rs)))).
    { apply near_of; [exact X0| |split].
      - pose proof (size_small (length rates) (3 * length rates + 1) 10 Hn ltac:(lia) ltac:(lia)); lra.
      - eapply Rle_trans; [|exact Lo]. eapply Rle_trans; [|apply Rmult_le_compat_l; [lra | exact PL]].
        rewrite <- Rmult_assoc, <- pow_add. apply Rmult_le_compat_r; [exact X0|]. apply dn_mono. lia.
      - eapply Rle_trans; [exact Hi'|]. eapply Rle_trans; [apply Rmult_le_compat_l; [lra | exact PU]|].
        rewrite <- Rmult_assoc, <- pow_add. apply Rmult_le_compat_r; [exact X0|]. apply up_mono. lia. }
    unfold near in N1. eapply Rle_trans; [exact N1|]. rewrite (Rabs_pos_eq x X0).
    assert (0 <= INR (3 * length rates + 1) * (2 * u)) by (pose proof (pos_INR (3 * length rates + 1)); pose proof uround_pos; nra).
    nra.
Qed.

Lemma split_cmp {A} (r1 : list A) : forall e r2 r1' e' r2', r1 ++ e :: r2 = r1' ++ e' :: r2' ->
  (r1 = r1' /\ e = e') \/ (exists m, r1 = r1' ++ e' :: m) \/ (exists m, r1' = r1 ++ e :: m).
Proof.
  induction r1 as [|x r1 IH]; intros e r2 [|x' r1'] e' r2' E; simpl in E.
  - inversion E; auto.
  - inversion E; subst. right; right. exists r1'. reflexivity.
  - inversion E; subst. right; left. exists r1. reflexivity.
  - inversion E; subst. destruct (IH _ _ _ _ _ H1) as [(-> & ->)|[(m & ->)|(m & ->)]].
    + auto.
    + right; left. exists m. reflexivity.
    + right; right. exists m. reflexivity.
Qed.

(** the exact sum of the entries before [j] *)
Fixpoint start (h : Z -> float) (rates : umap Z) (j : Z) (l : list (Z * Z)) : R :=
  match l with
  | [] => 0
  | e :: l => if Z.eqb (fst e) j then 0 else exact_prob h rates (snd e) + start h rates j l
  end.
Lemma start_at h rates j a r1 r2 : ~ In j (map fst r1) ->
  start h rates j (r1 ++ (j, a) :: r2) = Rsum (fun e => exact_prob h rates (snd e)) r1.
Proof.
  induction r1 as [|e r1 IH]; intros Hn; cbn [app start fst Rsum].
  - rewrite Z.eqb_refl. reflexivity.
  - cbn [map] in Hn. destruct (Z.eqb_spec (fst e) j) as [Ej|_]; [exfalso; apply Hn; left; exact Ej|].
    rewrite IH; [reflexivity|]. intros X. apply Hn. right. exact X.
Qed.

Lemma pick_near h rates (s0 : @site FN G) : s_neighIds s0 = [] -> good_doubles h rates ->
  exists s, @s_setRates I FN G h rates s0 = Ret tt s /\
    let err := INR (3 * length rates + 1) * (2 * u) in
    (forall s1 d e, s_getProbs s1 = s_getProbs s -> edraw (s_rng s1) = (d, e) -> fin d -> 0 <= fval d < 1 - err ->
       exists j s2, s_pick s1 = Ret j s2 /\ In j (ukeys rates)) /\
    exists lo : Z -> R,
      (forall j a, In (j, a) rates -> 0 <= lo j /\ lo j + exact_prob h rates a <= 1) /\
      (forall j a j' a', In (j, a) rates -> In (j', a') rates -> j <> j' ->
         lo j + exact_prob h rates a <= lo j' \/ lo j' + exact_prob h rates a' <= lo j) /\
      (forall s1 d e j a, s_getProbs s1 = s_getProbs s -> edraw (s_rng s1) = (d, e) -> fin d -> 0 <= fval d -> In (j, a) rates ->
         forall k s2, s_pick s1 = Ret k s2 ->
           (lo j + err <= fval d < lo j + exact_prob h rates a - err -> k = j) /\
           (k = j -> j <> (-1)%Z -> lo j - err <= fval d < lo j + exact_prob h rates a + err)).
Proof.
  intros Hs Hg.
  destruct (fsetRates h rates s0 (fneigh_nil s0 Hs) Hg) as (nb & rs & E & Pn & Pr).
  eexists. split; [exact E|]. clear E. intros err. unfold s_getProbs.
  cbn [s_with_prob s_with_tau s_with_neigh s_prob].
  pose (x := fun r : list (Z * Z) => Rsum (fun e => exact_prob h rates (snd e)) r).
  pose (T := fun r : list (Z * Z) => fsum 0%float (map snd (map (fent h (@sum_rates FN h nb)) r))).
  assert (Xrs : x rs = 1) by (unfold x; rewrite (Rsum_perm _ rs rates Pr); apply exact_prob_sum; exact Hg).
  assert (Inc : forall e, In e rs -> In e rates) by (intros e He; eapply Permutation_in; [exact Pr | exact He]).
  assert (X0 : forall r, incl r rs -> 0 <= x r).
  { intros r Hr. apply Rsum_nonneg. intros e He. apply Rlt_le, exact_prob_pos; auto. }
  assert (Pre : forall r r', rs = r ++ r' -> fin (T r) /\ Rabs (fval (T r) - x r) <= err /\ x r <= 1).
  { intros r r' Er.
    assert (H1 : x r <= 1).
    { rewrite <- Xrs. unfold x. rewrite Er, Rsum_app. fold (x r). fold (x r').
      assert (0 <= x r') by (apply X0; rewrite Er; intros e He; apply in_or_app; auto). lra. }
    destruct (threshold_err h rates nb r Hg Pn) as (F & B).
    - intros e He. apply Inc. rewrite Er. apply in_or_app; auto.
    - rewrite <- (Permutation_length Pr), Er, app_length. lia.
    - exact H1.
    - split; [exact F|]. split; [exact B | exact H1]. }
  assert (Scan : forall (s1 : @site FN G) d, s_prob s1 = map (fent h (@sum_rates FN h nb)) rs -> fin d -> 0 <= fval d ->
    (exists r e r', rs = r ++ e :: r' /\
       @pick_scan FN d (@n0 FN) (s_prob s1) = fst e /\
       x r - err <= fval d < x r + exact_prob h rates (snd e) + err) \/
    (@pick_scan FN d (@n0 FN) (s_prob s1) = (-1)%Z /\ 1 - err <= fval d)).
  { intros s1 d Ep Fd D0. rewrite Ep. change (@n0 FN) with 0%float.
    destruct (scan_gives d (map (fent h (@sum_rates FN h nb)) rs) 0%float Fd) as [H|(H & B)].
    - intros l3 (l4 & E). apply map_eq_app in E. destruct E as (r & r' & Er & <- & <-).
      apply (Pre r r' Er).
    - rewrite fval_0. exact D0.
    - destruct H as (l1 & j & p & l2 & El & Ej & B). left.
      apply map_eq_app in El. destruct El as (r & r' & Er & E1 & E2).
      destruct r' as [|e r']; [discriminate|]. simpl in E2. inversion E2 as [[E3 E4 E5]].
      exists r, e, r'. split; [exact Er|]. split; [rewrite Ej; symmetry; exact E3|].
      destruct (Pre r (e :: r') Er) as (_ & B1 & _).
      destruct (Pre (r ++ [e]) r') as (_ & B2 & _); [rewrite <- app_assoc; exact Er|].
      unfold T in B1, B2. rewrite map_app in B2. simpl (map _ [e]) in B2. unfold fent in B2 at 2.
      rewrite E1 in B1, B2. rewrite E3, E4 in B2.
      unfold x in B2. rewrite Rsum_app in B2. cbn [Rsum] in B2. fold (x r) in B2.
      apply Rabs_le_inv in B1. apply Rabs_le_inv in B2. lra.
    - right. split; [exact H|]. destruct (Pre rs [] (eq_sym (app_nil_r rs))) as (_ & B1 & _).
      unfold T in B1. rewrite Xrs in B1. apply Rabs_le_inv in B1. lra. }
  split.
  - intros s1 d e Ep Ed Fd Hd. unfold s_pick, bind, s_draw, gets, ret. rewrite Ed. cbn [s_prob s_with_rng].
    eexists; eexists; split; [reflexivity|].
    destruct (Scan s1 d Ep Fd (proj1 Hd)) as [(r & e' & r' & Er & -> & _)|(_ & B)]; [|lra].
    apply in_map. apply Inc. rewrite Er. apply in_or_app. simpl; auto.
  - assert (ND : NoDup (map fst rs)).
    { eapply Permutation_NoDup; [apply Permutation_map; symmetry; exact Pr | apply Hg]. }
    assert (At : forall j a, In (j, a) rates -> exists r1 r2, rs = r1 ++ (j, a) :: r2 /\ start h rates j rs = x r1 /\
      0 <= x r1 /\ 0 <= x r2 /\ x r1 + exact_prob h rates a <= 1).
    { intros j a Hin.
      assert (Hin' : In (j, a) rs) by (eapply Permutation_in; [symmetry; exact Pr | exact Hin]).
      apply in_split in Hin'. destruct Hin' as (r1 & r2 & Er). exists r1, r2. split; [exact Er|]. split.
      - rewrite Er. apply start_at. rewrite Er, map_app in ND. cbn [map fst] in ND. apply NoDup_remove_2 in ND.
        intros X. apply ND, in_or_app. auto.
      - assert (HX : x rs = x r1 + (exact_prob h rates a + x r2)).
        { unfold x. rewrite Er, Rsum_app. reflexivity. }
        assert (X2 : 0 <= x r2) by (apply X0; rewrite Er; intros e He; apply in_or_app; simpl; auto).
        split; [apply X0; rewrite Er; intros e He; apply in_or_app; auto|]. split; [exact X2|lra]. }
    exists (fun j => start h rates j rs). split; [|split].
    + intros j a Hin. destruct (At j a Hin) as (r1 & r2 & _ & -> & A1 & _ & A2). auto.
    + intros j a j' a' Hin Hin' Ne. destruct (At j a Hin) as (r1 & r2 & Er & -> & _). destruct (At j' a' Hin') as (r1' & r2' & Er' & -> & _).
      assert (C : r1 ++ (j, a) :: r2 = r1' ++ (j', a') :: r2') by congruence.
      destruct (split_cmp r1 (j, a) r2 r1' (j', a') r2' C) as [(E1 & E2)|[(m & E1)|(m & E1)]].
      * congruence.
      * right. unfold x. rewrite E1, Rsum_app. cbn [Rsum snd]. fold (x m).
        assert (0 <= x m) by (apply X0; rewrite Er, E1; intros y Hy; apply in_or_app; left; apply in_or_app; simpl; auto). lra.
      * left. unfold x. rewrite E1, Rsum_app. cbn [Rsum snd]. fold (x m).
        assert (0 <= x m) by (apply X0; rewrite Er', E1; intros y Hy; apply in_or_app; left; apply in_or_app; simpl; auto). lra.
    + intros s1 d e j a Ep Ed Fd D0 Hin k s2 Ek. destruct (At j a Hin) as (r1 & r2 & Er & -> & _ & _ & HX).
      unfold s_pick, bind, s_draw, gets, ret in Ek. rewrite Ed in Ek. cbn [s_prob s_with_rng] in Ek.
      apply (f_equal (fun o => match o with Ret a _ => a | _ => 0%Z end)) in Ek. cbv beta iota in Ek.
      destruct (Scan s1 d Ep Fd D0) as [(r & e' & r' & Er' & Es & B)|(Es & B)]; rewrite Es in Ek; subst k.
      * assert (C : r1 ++ (j, a) :: r2 = r ++ e' :: r') by congruence.
        destruct (split_cmp r1 (j, a) r2 r e' r' C) as [(E1 & E2)|[(m & E1)|(m & E1)]].
        -- subst e' r. split; [reflexivity|]. intros _ _. exact B.
        -- assert (Hx : x r1 = x r + (exact_prob h rates (snd e') + x m)).
          { unfold x. rewrite E1, Rsum_app. reflexivity. }
          assert (Xm : 0 <= x m).
          { apply X0. rewrite Er, E1. intros y Hy. apply in_or_app. left. apply in_or_app. simpl; auto. }
          split; [intros; lra|]. intros Ee. exfalso.
          rewrite Er, map_app in ND. cbn [map fst] in ND. apply NoDup_remove_2 in ND. apply ND.
          apply in_or_app. left. rewrite <- Ee. apply in_map. rewrite E1. apply in_or_app. simpl; auto.
        -- assert (Hx : x r = x r1 + (exact_prob h rates a + x m)).
          { unfold x. rewrite E1, Rsum_app. reflexivity. }
          assert (Xm : 0 <= x m).
          { apply X0. rewrite Er', E1. intros y Hy. apply in_or_app. left. apply in_or_app. simpl; auto. }
          split; [intros; lra|]. intros Ee. exfalso.
          rewrite Er', map_app in ND. cbn [map fst] in ND. apply NoDup_remove_2 in ND. apply ND.
          apply in_or_app. left. rewrite Ee, E1, map_app. apply in_or_app. simpl; auto.
      * split; [intros; lra|]. intros Ej Nj. congruence.
Qed.

(** ** Dwell times *)
Lemma ln_upper d : 0 < d -> ln d <= d - 1.
Proof.
  intros Hd. rewrite <- (ln_exp (d - 1)). destruct (Rle_lt_or_eq_dec d (exp (d - 1))) as [H|H].
  - pose proof (exp_ineq1_le (d - 1)). lra.
  - apply Rlt_le, ln_increasing; assumption.
  - rewrite <- H. lra.
Qed.

Lemma draw_gap d : fval d < 1 -> fval d <= 1 - u.
Proof.
  intros H. rewrite uround_val.
  pose proof (pred_ge_gt radix2 (SpecFloat.fexp FloatOps.prec FloatOps.emax) (fval d) (bpow radix2 0)) as P.
  rewrite pred_bpow in P. apply P.
  - apply fval_format.
  - apply bpow_format. lia.
  - exact H.
Qed.

Lemma draw_low d : 0 < fval d -> bpow radix2 (-1074) <= fval d.
Proof.
  intros H. rewrite fval_B2R in *.
  rewrite <- (Rabs_pos_eq (B2R (Prim2B d))) by lra.
  apply (abs_B2R_ge_emin FloatOps.prec FloatOps.emax).
  destruct (Prim2B d); simpl in *; try lra; reflexivity.
Qed.

Lemma ln_lower d : 0 < fval d -> - 1074 <= ln (fval d).
Proof.
  intros H. pose proof (draw_low d H) as L.
  assert (E : ln (bpow radix2 (-1074)) = - (1074 * ln 2)).
  { change (-1074)%Z with (- (1074))%Z. rewrite bpow_opp, ln_Rinv by apply bpow_gt_0.
    rewrite bpow_IZR by lia. change 1074%Z with (Z.of_nat 1074). rewrite <- pow_IZR, ln_pow by lra.
    rewrite INR_IZR_INZ. reflexivity. }
  pose proof (ln_upper 2 ltac:(lra)) as L2.
  assert (ln (bpow radix2 (-1074)) <= ln (fval d)).
  { destruct L as [L|L]; [apply Rlt_le, ln_increasing; [apply bpow_gt_0 | exact L] | rewrite L; lra]. }
  lra.
Qed.

Lemma dwell_near h rates (s0 : @site FN G) : s_neighIds s0 = [] -> good_doubles h rates ->
  exists s, @s_setRates I FN G h rates s0 = Ret tt s /\
    forall s1 d e, s_getTimeConstant s1 = s_getTimeConstant s ->
      edraw (s_rng s1) = (d, e) -> fin d -> 0 < fval d < 1 -> log_correct lnf d ->
      exists w s2, s_getDwellTime s1 = Ret w s2 /\ fin w /\ 0 < fval w /\
        near (2 * length rates + 6) (- ln (fval d) / exact_total h rates) (fval w).
Proof.
  intros Hs Hg.
  destruct (fsetRates h rates s0 (fneigh_nil s0 Hs) Hg) as (nb & rs & E & Pn & Pr).
  eexists. split; [exact E|]. clear E. intros s1 d e Et Ed Fd Hd (Fl & Nl).
  unfold s_getTimeConstant in Et. cbn [s_with_prob s_with_tau s_with_neigh s_tau] in Et.
  unfold s_getDwellTime, bind, s_draw, gets, ret. rewrite Ed. cbn [s_tau s_with_rng].
  rewrite Et. eexists; eexists. split; [reflexivity|].
  set (tau := PrimFloat.div 1%float (@sum_rates FN h nb)).
  pose proof (good_doubles_perm h _ _ (Permutation_sym Pn) Hg) as Hg'.
  destruct (tau_err h nb Hg') as (Ft & (T1 & T2) & B). fold tau in Ft, T1, T2, B.
  rewrite (total_perm h nb rates Pn), (Permutation_length Pn) in B.
  pose proof (total_pos h rates Hg) as SP. set (S := exact_total h rates) in *.
  change (@dwell_of FN d tau) with ((PrimFloat.opp (PrimFloat.of_uint63 1) * lnf d) * tau)%float.
  replace (PrimFloat.opp (PrimFloat.of_uint63 1)) with (-1)%float by reflexivity.
  assert (V1 : fval (-1)%float = -1).
  { unfold fval. change (Prim2SF (-1)%float) with (S754_finite true 4503599627370496 (-52)).
    unfold SF2R, F2R. simpl. lra. }
  pose proof uround_pos as Up. pose proof uround_small as Us.
  set (L := - ln (fval d)).
  assert (L1 : u <= L).
  { unfold L. pose proof (ln_upper (fval d) (proj1 Hd)). pose proof (draw_gap d (proj2 Hd)). lra. }
  assert (L2 : L <= 1074) by (unfold L; pose proof (ln_lower d (proj1 Hd)); lra).
  assert (Nl' : (1 - 2 * u) * L <= - fval (lnf d) <= (1 + 2 * u) * L).
  { unfold near in Nl. rewrite (Rabs_left (ln (fval d))) in Nl by (unfold L in L1; lra). fold L in Nl.
    apply Rabs_le_inv in Nl. simpl (INR 1) in Nl. replace (ln (fval d)) with (- L) in Nl by (unfold L; lra). nra. }
  assert (Bu : u = bpow radix2 (-53)) by apply uround_val.
  destruct (fmul_err (-1)%float (lnf d)) as (F1 & d1 & D1 & E1).
  { reflexivity. }
  { exact Fl. }
  { rewrite V1. rewrite Rabs_mult. replace (Rabs (-1)) with 1 by (rewrite Rabs_left; lra).
    rewrite Rmult_1_l, (Rabs_left (fval (lnf d))) by nra. split.
    - apply Rle_trans with (bpow radix2 (-54)); [apply bpow_le; lia|].
      replace (-54)%Z with (-1 + -53)%Z by lia. rewrite bpow_plus, <- Bu. simpl (bpow radix2 (-1)). nra.
    - apply Rle_trans with (bpow radix2 12); [|apply bpow_le; lia].
      simpl. nra. }
  rewrite V1 in E1. set (w1 := (-1 * lnf d)%float) in *.
  apply Rabs_le_inv in D1.
  assert (W1 : (1 - u) * ((1 - 2 * u) * L) <= fval w1 <= (1 + u) * ((1 + 2 * u) * L)).
  { rewrite E1. replace (-1 * fval (lnf d) * (1 + d1)) with ((1 + d1) * - fval (lnf d)) by ring.
    assert (0 <= (1 - 2 * u) * L) by (apply Rmult_le_pos; lra).
    split; apply Rmult_le_compat; lra. }
  assert (W1r : bpow radix2 (-54) <= fval w1 <= bpow radix2 12).
  { replace (-54)%Z with (-1 + -53)%Z by lia. rewrite bpow_plus, <- Bu. simpl (bpow radix2 (-1)). simpl (bpow radix2 12).
    split; [|nra]. eapply Rle_trans; [|apply W1].
    assert (1 / 2 <= (1 - u) * (1 - 2 * u)) by nra. nra. }
  pose proof (bpow_gt_0 radix2 (-54)) as B54. pose proof (bpow_gt_0 radix2 (-442)) as B442.
  destruct (fmul_err w1 tau F1 Ft) as (F2 & d2 & D2 & E2).
  { rewrite Rabs_pos_eq by (apply Rmult_le_pos; lra). split.
    - apply Rle_trans with (bpow radix2 (-54 + -442)); [apply bpow_le; lia|].
      rewrite bpow_plus. apply Rmult_le_compat; lra.
    - apply Rle_trans with (bpow radix2 (12 + 401)); [|apply bpow_le; lia].
      rewrite bpow_plus. apply Rmult_le_compat; lra. }
  apply Rabs_le_inv in D2.
  split; [exact F2|].
  assert (WP : 0 < fval w1 * fval tau) by (apply Rmult_lt_0_compat; lra).
  split; [rewrite E2; nra|].
  replace (L / S) with (L * (1 / S)) by (unfold Rdiv; ring).
  assert (IS : 0 < 1 / S) by (apply Rdiv_lt_0_compat; lra).
  apply near_of.
  - apply Rmult_le_pos; lra.
  - pose proof (size_small (length rates) (2 * length rates + 6) 10 (proj1 (proj2 (proj2 Hg))) ltac:(lia) ltac:(lia)); lra.
  - rewrite E2.
    assert (Q1 : (1 - u) ^ 3 <= 1 - 2 * u) by (simpl; nra).
    assert (Q2 : 1 + 2 * u <= (1 + u) ^ 2) by (simpl; nra).
    pose proof (dn_pos (length rates + 1)) as D0. pose proof (up_pos (2 * length rates + 1)) as U0.
    pose proof (dn_pos 3) as D3.
    split.
    + apply Rle_trans with ((1 - u) ^ (1 + 3 + 1 + (length rates + 1)) * (L * (1 / S))).
      { apply Rmult_le_compat_r; [apply Rmult_le_pos; lra|]. apply dn_mono. lia. }
      rewrite !pow_add, pow_1.
      apply Rle_trans with (((1 - u) * ((1 - u) ^ 3 * L)) * ((1 - u) ^ (length rates + 1) * (1 / S)) * (1 - u)).
      { rewrite pow_add, pow_1. apply Req_le. ring. }
      assert (0 <= (1 - u) * ((1 - u) ^ 3 * L)) by (apply Rmult_le_pos; [lra|apply Rmult_le_pos; lra]).
      assert (0 <= (1 - u) ^ (length rates + 1) * (1 / S)) by (apply Rmult_le_pos; lra).
      apply Rmult_le_compat; [apply Rmult_le_pos; assumption | lra | | lra].
      apply Rmult_le_compat; [assumption | assumption | | lra].
      eapply Rle_trans; [|apply W1]. apply Rmult_le_compat_l; [lra|]. apply Rmult_le_compat_r; lra.
    + apply Rle_trans with ((1 + u) ^ (1 + 2 + 1 + (2 * length rates + 1)) * (L * (1 / S))).
      2:{ apply Rmult_le_compat_r; [apply Rmult_le_pos; lra|]. apply up_mono. lia. }
      apply Rle_trans with (((1 + u) * ((1 + u) ^ 2 * L)) * ((1 + u) ^ (2 * length rates + 1) * (1 / S)) * (1 + u)).
      2:{ rewrite !pow_add, !pow_1. apply Req_le. ring. }
      apply Rmult_le_compat; [lra | lra | | lra].
      apply Rmult_le_compat; [lra | lra | | lra].
      eapply Rle_trans; [apply W1|]. apply Rmult_le_compat_l; [lra|]. apply Rmult_le_compat_r; lra.
Qed.
End Site.

(** ** A correctly rounded logarithm *)
Definition round_to_float (x : R) : float :=
  B2Prim (BinarySingleNaN.binary_normalize FloatOps.prec FloatOps.emax Hprec Hmax mode_NE
    (ZnearestE (scaled_mantissa radix2 fexp64 x))
    (cexp radix2 fexp64 x) false).
Definition ln64 (d : float) : float := round_to_float (ln (fval d)).

Lemma round_to_float_value x : Rabs x <= bpow radix2 1023 ->
  fin (round_to_float x) /\ fval (round_to_float x) = rnd64 x.
Proof.
  intros Hx. unfold round_to_float.
  pose proof (binary_normalize_correct FloatOps.prec FloatOps.emax Hprec Hmax mode_NE
    (ZnearestE (scaled_mantissa radix2 fexp64 x)) (cexp radix2 fexp64 x) false) as H.
  cbv zeta in H.
  change (F2R {| Fnum := ZnearestE (scaled_mantissa radix2 fexp64 x); Fexp := cexp radix2 fexp64 x |})
    with (rnd64 x) in H.
  pose proof (fexp64_valid) as VE.
  pose proof (valid_rnd_round_mode mode_NE) as VR.
  assert (G : rnd64 (rnd64 x) = rnd64 x) by (apply round_generic; [exact VR|]; apply generic_format_round; [exact VE | exact VR]).
  rewrite G in H. rewrite Rlt_bool_true in H.
  - destruct H as (E & F & _). rewrite fin_B, fval_B2R, Prim2B_B2Prim. split; assumption.
  - apply Rle_lt_trans with (bpow radix2 1023); [|apply bpow_lt; reflexivity].
    apply abs_round_le_generic; [exact VE | exact VR | apply bpow_format; lia | exact Hx].
Qed.

Lemma ln64_correct d : 0 < fval d < 1 -> log_correct ln64 d.
Proof.
  intros Hd.
  pose proof (ln_upper (fval d) (proj1 Hd)) as L1. pose proof (draw_gap d (proj2 Hd)) as L2.
  pose proof (ln_lower d (proj1 Hd)) as L3. pose proof uround_pos as Up.
  assert (A : Rabs (ln (fval d)) = - ln (fval d)) by (apply Rabs_left; lra).
  destruct (round_to_float_value (ln (fval d))) as (F & E).
  { rewrite A. apply Rle_trans with (bpow radix2 12); [simpl; lra | apply bpow_le; lia]. }
  split; [exact F|]. unfold near, ln64. rewrite E.
  destruct (rnd64_rel (ln (fval d))) as (e & He & ->).
  { rewrite A. apply Rle_trans with u; [rewrite uround_val; apply bpow_le; lia | lra]. }
  replace (ln (fval d) * (1 + e) - ln (fval d)) with (e * ln (fval d)) by ring.
  rewrite Rabs_mult. apply Rmult_le_compat_r; [apply Rabs_pos|]. simpl. lra.
Qed.
