(** * C79 to C81: sites in the double arithmetic the code runs in *)
From Flocq Require Core BinarySingleNaN.
From Coq Require Import ZArith List Bool Reals Lra Lia Permutation Floats.
From Verif Require Import Base BaseProofs Num F64 RSum SiteModel FloatSpec FloatProofs FloatSite.
Import ListNotations.
Open Scope R_scope.

(** three neighbours with rates 1, 4 and 1/8 *)
Local Definition h3 : Z -> float := fun a => if Z.eqb a 11 then 4%float else if Z.eqb a 12 then 0.125%float else 1%float.
Local Definition r3 : umap Z := [(5, 10); (7, 11); (2, 12)]%Z.
Local Lemma v1 : fval 1%float = 1. Proof. apply fval_1. Qed.
Local Lemma v4 : fval 4%float = 4.
Proof. unfold fval. change (Prim2SF 4%float) with (S754_finite false 4503599627370496 (-50)).
  unfold BinarySingleNaN.SF2R, Defs.F2R. simpl. lra. Qed.
Local Lemma v8 : fval 0.125%float = 1 / 8.
Proof. unfold fval. change (Prim2SF 0.125%float) with (S754_finite false 4503599627370496 (-55)).
  unfold BinarySingleNaN.SF2R, Defs.F2R. simpl. lra. Qed.
Local Lemma vh : fval 0.5%float = 1 / 2.
Proof. unfold fval. change (Prim2SF 0.5%float) with (S754_finite false 4503599627370496 (-53)).
  unfold BinarySingleNaN.SF2R, Defs.F2R. simpl. lra. Qed.
Example rates_good : good_doubles h3 r3.
Proof.
  assert (B : 8 <= IZR (2 ^ 400)) by (apply IZR_le; vm_compute; discriminate).
  assert (B' : / IZR (2 ^ 400) <= / 8) by (apply Rinv_le_contravar; lra).
  split; [discriminate|]. split; [repeat constructor; simpl; intuition discriminate|].
  split; [vm_compute; discriminate|].
  intros n a [E|[E|[E|[]]]]; inversion E; subst; (split; [reflexivity|]).
  - change (h3 10) with 1%float. rewrite v1. lra.
  - change (h3 11) with 4%float. rewrite v4. lra.
  - change (h3 12) with 0.125%float. rewrite v8. lra.
Qed.
(** the generator that always yields [x] *)
Local Definition const_rng {N : Num} (x : num) : Rng := {| eng := unit; eseed := fun _ => tt; edraw := fun _ => (x, tt) |}.

(** ** C79 *)
(** For every implementation of hash tables, every map of at most 2^40 rates
    between 2^-400 and 2^400 and every log of the C library: setting the rates
    succeeds in doubles; the time constant is positive and 1 / total up to a
    relative error of (2n+1) 2^-52; each neighbour has one probability, which
    is positive, at most 1 and rate / total up to the same error; and the
    probabilities add up to 1 up to the same error. *)
Theorem C79_time_constant_and_probabilities :
  forall (lnf : float -> float) (I : Impl) (G : @Rng (F64 lnf)) (h : Z -> float) (rates : umap Z)
         (s0 : @site (F64 lnf) G),
    s_neighIds s0 = [] -> good_doubles h rates ->
    exists s, @s_setRates I (F64 lnf) G h rates s0 = Ret tt s /\
      let k := (2 * length rates + 1)%nat in
      (fin (s_getTimeConstant s) /\ 0 < fval (s_getTimeConstant s) /\
       near k (1 / exact_total h rates) (fval (s_getTimeConstant s))) /\
      (forall j p, In (j, p) (s_getProbs s) -> exists a, In (j, a) rates /\
         fin p /\ 0 < fval p <= 1 /\ near k (exact_prob h rates a) (fval p)) /\
      NoDup (map fst (s_getProbs s)) /\
      (forall j, In j (map fst (s_getProbs s)) <-> In j (ukeys rates)) /\
      near k 1 (Rsum (fun e => fval (snd e)) (s_getProbs s)).
Proof. exact table_near. Qed.
Print Assumptions C79_time_constant_and_probabilities.

(** ** C80 *)
(** In doubles pickNewSiteId returns a neighbour for every draw below
    1 - (3n+1) 2^-52, so that -1 (C18_pick_minus_one_refuted) can only come
    from draws closer to 1 than that; and the neighbours have disjoint
    intervals of length rate / total such that draws inside it by more than that margin
    give this neighbour and draws outside it by more than that margin do not. *)
Theorem C80_picks :
  forall (lnf : float -> float) (I : Impl) (G : @Rng (F64 lnf)) (h : Z -> float) (rates : umap Z)
         (s0 : @site (F64 lnf) G),
    s_neighIds s0 = [] -> good_doubles h rates ->
    exists s, @s_setRates I (F64 lnf) G h rates s0 = Ret tt s /\
      let err := INR (3 * length rates + 1) * (2 * uround) in
      (forall s1 d e, s_getProbs s1 = s_getProbs s -> edraw (s_rng s1) = (d, e) -> fin d -> 0 <= fval d < 1 - err ->
         exists j s2, s_pick s1 = Ret j s2 /\ In j (ukeys rates)) /\
      exists lo : Z -> R,
        (forall j a, In (j, a) rates -> 0 <= lo j /\ lo j + exact_prob h rates a <= 1) /\
        (forall j a j' a', In (j, a) rates -> In (j', a') rates -> j <> j' ->
           lo j + exact_prob h rates a <= lo j' \/ lo j' + exact_prob h rates a' <= lo j) /\
        (forall s1 d e j a, s_getProbs s1 = s_getProbs s -> edraw (s_rng s1) = (d, e) -> fin d -> 0 <= fval d -> In (j, a) rates ->
           forall k s2, s_pick s1 = Ret k s2 ->
             (lo j + err <= fval d < lo j + exact_prob h rates a - err -> k = j) /\
             (k = j -> j <> (-1)%Z -> lo j - err <= fval d < lo j + exact_prob h rates a + err)).
Proof. exact pick_near. Qed.
Print Assumptions C80_picks.

(** ** C81 *)
(** In doubles, with a log of the C library correct to one unit in the last
    place: every draw strictly between 0 and 1 gives a finite, positive dwell
    time, -ln u / total up to a relative error of (2n+6) 2^-52. *)
Theorem C81_dwell_times :
  forall (lnf : float -> float) (I : Impl) (G : @Rng (F64 lnf)) (h : Z -> float) (rates : umap Z)
         (s0 : @site (F64 lnf) G),
    s_neighIds s0 = [] -> good_doubles h rates ->
    exists s, @s_setRates I (F64 lnf) G h rates s0 = Ret tt s /\
      forall s1 d e, s_getTimeConstant s1 = s_getTimeConstant s ->
        edraw (s_rng s1) = (d, e) -> fin d -> 0 < fval d < 1 -> log_correct lnf d ->
        exists w s2, s_getDwellTime s1 = Ret w s2 /\ fin w /\ 0 < fval w /\
          near (2 * length rates + 6) (- ln (fval d) / exact_total h rates) (fval w).
Proof. exact dwell_near. Qed.
Print Assumptions C81_dwell_times.

(** such a log exists: the correctly rounded one *)
Theorem C81_log_exists : forall d, 0 < fval d < 1 -> log_correct ln64 d.
Proof. exact ln64_correct. Qed.
Print Assumptions C81_log_exists.

(** the hypotheses hold for a fresh site with three neighbours, draws of 1/2
    and the correctly rounded log; the margins are below 2^-48 *)
Example C79_nonvacuous : good_doubles h3 r3 /\
  s_neighIds (site_new (G := const_rng (N := F64 ln64) 0.5%float) 0) = [] /\
  exact_total h3 r3 = 41 / 8 /\ exact_prob h3 r3 11 = 32 / 41.
Proof.
  assert (T : exact_total h3 r3 = 41 / 8).
  { unfold exact_total, r3. cbn [Rsum snd]. change (h3 10) with 1%float. change (h3 11) with 4%float.
    change (h3 12) with 0.125%float. rewrite v1, v4, v8. lra. }
  split; [exact rates_good|]. split; [reflexivity|]. split; [exact T|].
  unfold exact_prob. rewrite T. change (h3 11) with 4%float. rewrite v4. lra.
Qed.
Example C80_nonvacuous :
  edraw (s_rng (site_new (G := const_rng (N := F64 ln64) 0.5%float) 0)) = (0.5%float, tt) /\
  fin 0.5%float /\ 0 <= fval 0.5%float < 1 - INR (3 * length r3 + 1) * (2 * uround) /\
  INR (3 * length r3 + 1) * (2 * uround) <= / IZR (2 ^ 48).
Proof.
  split; [reflexivity|]. split; [reflexivity|]. rewrite vh. unfold uround.
  simpl (3 * length r3 + 1)%nat. rewrite INR_IZR_INZ. simpl (Z.of_nat 10).
  assert (0 < / IZR (2 ^ 53)) by (apply Rinv_0_lt_compat, IZR_lt; reflexivity).
  assert (B : / IZR (2 ^ 48) = 32 * / IZR (2 ^ 53)).
  { replace (IZR (2 ^ 53)) with (32 * IZR (2 ^ 48)); [|rewrite <- mult_IZR; apply f_equal; reflexivity].
    assert (0 < IZR (2 ^ 48)) by (apply IZR_lt; reflexivity). field. lra. }
  assert (L : / IZR (2 ^ 48) <= / 1024) by (apply Rinv_le_contravar; [lra|]; apply IZR_le; vm_compute; discriminate).
  lra.
Qed.
Example C81_nonvacuous : 0 < fval 0.5%float < 1 /\ log_correct ln64 0.5%float.
Proof.
  assert (H : 0 < fval 0.5%float < 1) by (rewrite vh; lra).
  split; [exact H | apply ln64_correct; exact H].
Qed.
