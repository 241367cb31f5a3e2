(** * Walkers on sites outside of clusters, in double arithmetic *)
From Flocq Require Core BinarySingleNaN.
From Coq Require Import ZArith List Bool Reals Lra Lia Permutation Floats.
From Verif Require Import Base BaseProofs Num F64 RSum WalkerModel SiteModel ClusterModel ContainerModel BasinModel SystemModel SystemSpec SystemShape SystemProofs SystemFacts SystemInit SystemOps
  SystemSites FloatSpec FloatProofs FloatSite FloatRunSpec.
Import ListNotations.
Open Scope R_scope.

Section FloatSystem.
Variable lnf : float -> float.
Context {I : Impl} {G : @Rng (F64 lnf)} {U : @Ugly (F64 lnf)}.
Notation FN := (F64 lnf).
Notation u := uround.
Variable clk : Z -> Z.

Lemma free_near (g0 g1 : @world FN G) ws0 rates k r : reach clk g0 ws0 -> NoDup (ukeys rates) -> sys_initializeSystem clk rates g0 = Ret tt g1 ->
  In (k, r) rates -> good_doubles (g_heap g0) r ->
  let h := g_heap g0 in let err := INR (3 * length r + 1) * (2 * u) in
  exists lo : Z -> R,
    (forall j a, In (j, a) r -> 0 <= lo j /\ lo j + exact_prob h r a <= 1) /\
    (forall j a j' a', In (j, a) r -> In (j', a') r -> j <> j' -> lo j + exact_prob h r a <= lo j' \/ lo j' + exact_prob h r a' <= lo j) /\
    forall tr g2 ws2 fuel id p g3 (x v : @num FN), steps clk g1 ws0 tr g2 ws2 -> In p ws2 -> sys_hop clk fuel id p g2 = Ret tt g3 ->
      walker_on g3 p k -> cluster_of g2 k unassignedId -> numbers g2 k x v ->
      (fin x -> 0 < fval x < 1 -> log_correct lnf x ->
         exists t, waits g3 p t /\ fin t /\ 0 < fval t /\ near (2 * length r + 6) (- ln (fval x) / exact_total h r) (fval t)) /\
      (fin v -> 0 <= fval v ->
         (fval v < 1 - err -> exists j, In j (ukeys r) /\ walker_to g3 p j) /\
         forall j a, In (j, a) r ->
           (lo j + err <= fval v < lo j + exact_prob h r a - err -> walker_to g3 p j) /\
           (walker_to g3 p j -> j <> (-1)%Z -> lo j - err <= fval v < lo j + exact_prob h r a + err)).
Proof.
  intros Rc ND E Hin Hg h err. pose proof (reach_inv clk _ _ Rc) as V0. pose proof (inv_initSystem clk _ _ _ _ V0 E) as V1.
  destruct (init_all clk _ _ _ _ V0 ND E) as (_ & A & _). destruct (A k r Hin) as (_ & s & Es & _ & _ & t0 & e0 & sr & Er & Esr).
  destruct (pick_near lnf (I := I) h r (s_with_id (Some k) (site_new t0)) eq_refl Hg) as (sp & Ep & P1 & lo & P2 & P3 & P4).
  destruct (dwell_near lnf (I := I) h r (s_with_id (Some k) (site_new t0)) eq_refl Hg) as (sd & Ed & D1).
  assert (sp = sr) by (unfold h in Ep; congruence). assert (sd = sr) by (unfold h in Ed; congruence). subst sp sd. clear Ep Ed.
  exists lo. split; [exact P2|]. split; [exact P3|].
  intros tr g2 ws2 fuel id p g3 x v St Hp Eh Ok Un (sx & e & e' & Esx & Ex & Ev). pose proof (steps_inv clk _ _ _ _ _ V1 St) as V2.
  destruct (steps_lasting clk _ _ _ _ _ V1 St k s Es) as (t & Et & T1 & T2 & T3). assert (sx = t) by congruence. subst sx.
  destruct (hop_at clk fuel id p k g2 g3 ws2 V2 Hp Eh Ok Un) as (s_ & s0 & d & s1 & n & s2 & Es_ & Ss & Edw & En & Ewp).
  assert (s_ = t) by congruence. subst s_. destruct Ss as (S1 & S2 & S3 & S4).
  assert (Tau : s_getTimeConstant s0 = s_getTimeConstant sr) by (unfold s_getTimeConstant; rewrite S3, T1, Esr; reflexivity).
  assert (Ex0 : edraw (s_rng s0) = (x, e)) by (rewrite S1; exact Ex).
  assert (Es1 : s1 = s_with_rng e s0).
  { unfold s_getDwellTime, bind, s_draw, gets, ret in Edw. rewrite Ex0 in Edw. injection Edw as _ Edw. symmetry. exact Edw. }
  assert (Prb : s_getProbs s1 = s_getProbs sr) by (rewrite Es1; unfold s_getProbs; cbn [s_prob s_with_rng]; rewrite S2, T2, Esr; reflexivity).
  assert (Ev1 : edraw (s_rng s1) = (v, e')) by (rewrite Es1; exact Ev).
  assert (To : forall j, walker_to g3 p j <-> n = j).
  { intros j. split; [intros (wk & Ewk & <-); rewrite Ewp in Ewk; injection Ewk as <-; reflexivity|]. intros <-. eexists. split; [exact Ewp|reflexivity]. }
  split.
  - intros Fx Hx Lx. destruct (D1 s0 x e Tau Ex0 Fx Hx Lx) as (w & s2' & Ew & Fw & Pw & Nw). assert (w = d) by congruence. subst w.
    exists d. split; [|auto]. eexists. split; [exact Ewp|reflexivity].
  - intros Fv Hv. split.
    + intros Hv'. destruct (P1 s1 v e' Prb Ev1 Fv (conj Hv Hv')) as (j & s2' & Ej & Hj). assert (j = n) by congruence. subst j.
      exists n. split; [exact Hj|apply To; reflexivity].
    + intros j a Ha. rewrite !To. exact (P4 s1 v e' j a Prb Ev1 Fv Hv Ha n s2 En).
Qed.
End FloatSystem.
