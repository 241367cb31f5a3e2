(** * Upper bounds on the rates of the time of flight example *)
From Coq Require Import ZArith List Bool Lia Reals Lra.
From Verif Require Import Base BaseProofs Num RSum SiteModel SiteSpec ValidSpec MarcusModel LatticeModel LatticeSpec LatticeProofs LatticeTable TofModel TofSpec TofProofs.
Import ListNotations.
Open Scope R_scope.

Lemma exp_le_1 x : x <= 0 -> exp x <= 1.
Proof. intros [H| ->]; [left; rewrite <- exp_0; apply exp_increasing; exact H|rewrite exp_0; lra]. Qed.
Lemma marcus_le P e d : 0 < t_temp P -> 0 < t_lambda P -> 0 <= t_alpha P -> 0 <= d -> marcus_rate P e d <= top_rate P.
Proof.
  intros HT HL HA Hd. unfold marcus_rate, marcus_getRate, marcus_new, top_rate. cbn [m_pre_factor m_expon_denom m_lambda].
  set (x := exp (- (t_alpha P * d))). set (y := exp (-1 * _ / _)). set (pre := 2 * PI_c / h_bar * 1 / _).
  assert (K : 0 < k_B) by (unfold k_B; lra).
  assert (X : 0 < x <= 1) by (split; [apply exp_pos|apply exp_le_1; nra]).
  assert (Y : 0 < y <= 1).
  { split; [apply exp_pos|]. apply exp_le_1. unfold Rdiv.
    assert (0 < / (4 * t_lambda P * k_B * t_temp P)) by (apply Rinv_0_lt_compat; repeat apply Rmult_lt_0_compat; lra).
    set (a := t_lambda P + e - 0). assert (0 <= a * a) by nra. nra. }
  assert (Pr : 0 < pre).
  { unfold pre, PI_c, h_bar, SRPI, SRk_B. pose proof (sqrt_lt_R0 _ HT). apply Rmult_lt_0_compat; [lra|]. apply Rinv_0_lt_compat. nra. }
  replace (2 * PI_c / h_bar / (SRPI * 2 * SRk_B * sqrt (t_temp P))) with pre by (unfold pre, Rdiv; ring).
  replace (pre * (t_coupling P * x) * (t_coupling P * x) * y) with (pre * (t_coupling P * t_coupling P) * (x * x * y)) by ring.
  assert (Q : 0 <= pre * (t_coupling P * t_coupling P)) by nra.
  assert (Z1 : 0 <= x * x * y <= 1) by (assert (0 < x * x <= 1) by nra; nra).
  nra.
Qed.

Section Rates.
Context {I : Impl}.
Variable P : recipe.
Variable la : @lattice XR.
Variable sp : R.
Variable energies : list R.
Hypothesis TI : tof_input P la sp energies.
Hypothesis HT : 0 < t_temp P.
Hypothesis HL : 0 < t_lambda P.
Hypothesis HA : 0 <= t_alpha P.

Lemma recipe_le computed i j r : tof_rates P la energies = Ok computed -> lists computed i j r -> r <= top_rate P.
Proof.
  intros Em Hl. destruct TI as (B & Sp & Hsp & HE & HC & F).
  destruct (rates_ok P la B sp Sp Hsp energies HE HC F) as (t & m & Et & Em' & Wt & Wm & _ & _ & _ & Va & _).
  assert (m = computed) by congruence. subst m. apply (lists_get computed i j r Wm) in Hl. apply Va in Hl. destruct Hl as (d & Hd & ->).
  destruct (table_sound la B sp Sp Hsp _ _ _ _ _ Et Hd) as (_ & D & Ed & _ & x1 & y1 & z1 & x2 & y2 & z2 & X & Y & Z0 & _ & _ & _ & _ & _ & E).
  inversion Ed; subst. apply marcus_le; auto. unfold euclid. apply Rmult_le_pos; [apply sqrt_pos|lra].
Qed.
Lemma recipe_total_le computed (h : @heap XR) rates i r : tof_rates P la energies = Ok computed -> stored h rates computed -> In (i, r) rates ->
  total_rate h r <= IZR (l_len la * l_wid la * l_hei la) * top_rate P.
Proof.
  intros Em St Hin. destruct TI as (B & Sp & Hsp & HE & HC & F).
  destruct (rates_ok P la B sp Sp Hsp energies HE HC F) as (t & m & Et & Em' & Wt & Wm & _ & Ti & _ & Va & Fi).
  assert (m = computed) by congruence. subst m.
  assert (Hrow : In (i, map (fun b => (fst b, h (snd b))) r) computed) by (unfold stored in St; rewrite <- St; apply in_map_iff; exists (i, r); auto).
  assert (El : forall j a, In (j, a) r -> exists x, h a = Fin x /\ lists computed i j x /\ (0 <= j < l_len la * l_wid la * l_hei la)%Z).
  { intros j a Hj. assert (Hv : tab_get computed i j = Some (h a)).
    { unfold tab_get. rewrite (In_ulookup _ _ _ (proj1 Wm) Hrow). apply In_ulookup.
      - apply (proj2 Wm i). apply In_ulookup; [apply Wm|exact Hrow].
      - apply in_map_iff. exists (j, a). auto. }
    destruct (Fi _ _ _ Hv) as (x & Ex). rewrite Ex in Hv. exists x. split; [exact Ex|]. split; [apply lists_get; assumption|].
    apply Va in Hv. destruct Hv as (d & Hd & _). apply (Ti _ _ _ Hd). }
  assert (Len : (Z.of_nat (length r) <= l_len la * l_wid la * l_hei la)%Z).
  { assert (ND : NoDup (ukeys r)).
    { assert (X : NoDup (ukeys (map (fun b => (fst b, h (snd b))) r))) by (apply (proj2 Wm i); apply In_ulookup; [apply Wm|exact Hrow]).
      unfold ukeys in *. rewrite map_map in X. exact X. }
    assert (length (ukeys r) <= length (zrange 0 (l_len la * l_wid la * l_hei la - 1)))%nat.
    { apply NoDup_incl_length; [exact ND|]. intros j Hj. apply in_map_iff in Hj. destruct Hj as ([j' a] & <- & Hj). destruct (El _ _ Hj) as (_ & _ & _ & R). apply zrange_In. cbn. lia. }
    unfold ukeys in *. rewrite map_length in *. unfold zrange in *.
    assert (X : forall n k, length (zseq k n) = n) by (induction n as [|n IH]; intros k; cbn; [reflexivity|rewrite IH; reflexivity]). rewrite X in *.
    destruct B as (B1 & B2 & B3 & _). assert (0 < l_len la * l_wid la * l_hei la)%Z by nia. lia. }
  unfold total_rate. eapply Rle_trans; [apply (Rsum_le _ (fun _ => top_rate P)); intros [j a] Hj|].
  - destruct (El j a Hj) as (x & Ex & Lx & _). cbn. rewrite Ex. cbn. apply (recipe_le computed i j x Em Lx).
  - rewrite Rsum_const. apply Rmult_le_compat_r; [|rewrite INR_IZR_INZ; apply IZR_le; exact Len].
    unfold top_rate, PI_c, h_bar, SRPI, SRk_B. pose proof (sqrt_lt_R0 _ HT). assert (0 <= t_coupling P * t_coupling P) by nra.
    apply Rmult_le_pos; [|assumption]. apply Rmult_le_pos; [lra|]. left. apply Rinv_0_lt_compat. nra.
Qed.
End Rates.
