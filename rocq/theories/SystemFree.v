(** * The sites outside of clusters send their walkers on by fixed intervals *)
From Coq Require Import ZArith List Bool Reals Lra Lia Permutation.
From Verif Require Import Base BaseProofs Num OrdLaws RSum WalkerModel SiteModel SiteSpec SiteProofs ClusterModel ClusterHist ContainerModel BasinModel SystemModel SystemSpec
  SystemShape SystemProofs SystemFacts SystemInit SystemRuns SystemControl ValidSpec SystemEffect SystemLive SystemTotal PropValid SystemOps SystemSites ReportSpec StaySpec SystemStay ExitSpec SystemExit.
Import ListNotations.
Open Scope R_scope.

Section Free.
Context {I : Impl} {G : @Rng XR} {U : @Ugly XR}.
Variables (clk : Z -> Z) (lo hi : R).
Hypothesis (HD : open_draws G) (HB : rate_bounds lo hi).
#[local] Existing Instance XR.

(** the table of a site divides the numbers from 0 to 1 *)
Lemma site_divided h rates (s : @site XR G) : good_rates h rates -> reads h rates s ->
  exists share a, (forall j r, user_rate h rates j r -> share j = r / total_rate h rates) /\ divided share a (ukeys rates) /\
    forall u, 0 <= u < 1 -> exists n, In n (ukeys rates) /\ @pick_scan XR (Fin u) n0 (s_prob s) = n /\ a n <= u < a n + share n.
Proof.
  intros Hg R. pose proof R as (He & ND & Hp & Hs & _). unfold s_getProbs in *.
  pose proof Hg as (_ & NDr & Hpos). pose proof (total_rate_pos _ _ Hg) as TP.
  assert (Fn : forall j r r', user_rate h rates j r -> user_rate h rates j r' -> r = r').
  { intros j r r' (a & Ha & E) (a' & Ha' & E'). apply (In_ulookup _ _ _ NDr) in Ha. apply (In_ulookup _ _ _ NDr) in Ha'. congruence. }
  assert (Tot : forall j, In j (ukeys rates) -> exists r, user_rate h rates j r /\ 0 < r).
  { intros j Hj. unfold ukeys in Hj. apply in_map_iff in Hj. destruct Hj as ([j' a] & X & Ha). cbn [fst] in X. subst j'.
    destruct (Hpos j a Ha) as (r & Er & Pr). exists r. split; [exists a; auto|exact Pr]. }
  destruct (finite_choice (fun j x => exists r, user_rate h rates j r /\ x = r / total_rate h rates) (ukeys rates)) as [share Hsh].
  { intros j Hj. destruct (Tot j Hj) as (r & Ur & _). eauto. }
  assert (Hq : forall e, In e (s_prob s) -> exists q, snd e = Fin q /\ 0 <= q).
  { intros [n p] Hn. destruct (Hp n p Hn) as (q & -> & Hq). exists q; simpl; split; [reflexivity | lra]. }
  assert (Keys : forall n, In n (map fst (s_prob s)) <-> In n (ukeys rates)).
  { intros n. split.
    - intros X. apply in_map_iff in X. destruct X as ([n' p] & X & Hin). cbn in X. subst n'. apply He in Hin. destruct Hin as (r & (a & Ha & _) & _). apply (in_map fst) in Ha. exact Ha.
    - intros X. destruct (Tot n X) as (r & Ur & _). assert (Hin : In (n, (Fin (r / total_rate h rates) : @num XR)) (s_prob s)) by (apply He; eauto). apply (in_map fst) in Hin. exact Hin. }
  destruct (finite_choice (fun j x => forall u, 0 <= u < 1 -> (@pick_scan XR (Fin u) n0 (s_prob s) = j <-> x <= u < x + share j)) (ukeys rates)) as [a Ha].
  { intros j Hj. destruct (Hsh j Hj) as (r & Ur & Esh).
    destruct (pick_scan_interval (s_prob s) 0 0 j (r / total_rate h rates)) as (l & _ & _ & X); auto.
    - apply He. eauto.
    - unfold psum. rewrite Hs. lra.
    - exists l. intros u Hu. rewrite Esh. unfold psum in X. rewrite Hs in X. specialize (X u ltac:(lra)). rewrite !Rplus_0_l in X. exact X. }
  assert (Mem : forall u, 0 <= u < 1 -> In (@pick_scan XR (Fin u) n0 (s_prob s)) (ukeys rates)).
  { intros u Hu. apply Keys. apply pick_scan_member; [exact Hq|]. unfold psum. rewrite Hs. lra. }
  exists share, a. split; [|split].
  - intros j r Ur. destruct (Hsh j) as (r' & Ur' & ->); [destruct Ur as (b & Hb & _); apply (in_map fst) in Hb; exact Hb|]. rewrite (Fn _ _ _ Ur' Ur). reflexivity.
  - split; [exact NDr|]. split; [|split].
    + intros n Hn. destruct (Hsh n Hn) as (r & Ur & ->). destruct (Tot n Hn) as (r' & Ur' & Pr). rewrite (Fn _ _ _ Ur Ur'). apply Rdiv_lt_0_compat; assumption.
    + rewrite <- Hs. assert (P : Permutation (ukeys rates) (map fst (s_prob s))) by (apply NoDup_Permutation; [exact NDr|exact ND|intros n; symmetry; apply Keys]).
      rewrite (Rsum_perm _ _ _ P), Rsum_map. apply Rsum_ext. intros [n p] Hin. cbn [fst snd]. pose proof Hin as Hin'. apply He in Hin'. destruct Hin' as (r & Ur & ->).
      destruct (Hsh n) as (r' & Ur' & ->); [apply Keys; apply (in_map fst) in Hin; exact Hin|]. rewrite (Fn _ _ _ Ur' Ur). reflexivity.
    + intros v Hv. exists (@pick_scan XR (Fin v) n0 (s_prob s)). split; [apply Mem, Hv|]. intros m Hm. rewrite <- (Ha m Hm v Hv). split; intros Y; symmetry; exact Y.
  - intros u Hu. exists (@pick_scan XR (Fin u) n0 (s_prob s)). split; [apply Mem, Hu|]. split; [reflexivity|]. apply (Ha _ (Mem u Hu) u Hu). reflexivity.
Qed.

Lemma free_sends tr (g : @world XR G) ws k S : valid_reach clk lo hi tr g ws -> few_hops lo hi (hops tr) -> exit_rate g k S ->
  0 < S /\ exists share a nbrs, (forall j, In j nbrs <-> exists r, site_rate g k j r) /\ (forall j r, site_rate g k j r -> share j = r / S) /\ divided share a nbrs /\
    forall tr' g2 ws2 f w p g3 u v, steps clk g ws tr' g2 ws2 -> In p ws2 -> sys_hop clk f w p g2 = Ret tt g3 -> walker_on g3 p k -> cluster_of g2 k unassignedId ->
      site_draws g2 k u v -> dwells g3 p (- ln u / S) /\ exists n, In n nbrs /\ walker_to g3 p n /\ a n <= v < a n + share n.
Proof.
  intros V F (s & Es & ->). pose proof (valid_inv clk lo hi _ _ _ V) as W.
  pose proof (valid_living clk lo hi HD HB _ _ _ V F) as Lv. destruct (a_site _ _ _ _ (i_alive _ _ _ _ _ Lv) k s Es) as ((Hg & Hr) & _ & _).
  destruct (site_divided _ _ s Hg Hr) as (share & a & Hsh & Dv & Pk).
  split; [apply total_rate_pos; exact Hg|]. exists share, a, (ukeys (s_neigh s)). split; [|split; [|split; [exact Dv|]]].
  - intros j. split.
    + intros Hj. unfold ukeys in Hj. apply in_map_iff in Hj. destruct Hj as ([j' b] & X & Hb). cbn [fst] in X. subst j'.
      destruct Hg as (_ & _ & Hpos). destruct (Hpos j b Hb) as (r & Er & _). exists r, s. split; [exact Es|]. exists b. auto.
    + intros (r & s' & Es' & b & Hb & _). assert (s' = s) by congruence. subst s'. apply (in_map fst) in Hb. exact Hb.
  - intros j r (s' & Es' & Ur). assert (s' = s) by congruence. subst s'. apply Hsh, Ur.
  - intros tr' g2 ws2 f w p g3 u v St Hp E Ok Un (sx & e & e' & Esx & Eu & Ev). pose proof (steps_inv clk _ _ _ _ _ W St) as W2.
    destruct (steps_lasting clk _ _ _ _ _ W St k s Es) as (t & Et & T1 & T2 & T3). assert (sx = t) by congruence. subst sx.
    destruct (hop_at clk f w p k g2 g3 ws2 W2 Hp E Ok Un) as (s_ & s0 & d & s1 & n & s2 & Es_ & Ss & Ed & En & Ewp).
    assert (s_ = t) by congruence. subst s_. destruct Ss as (S1 & S2 & S3 & S4).
    destruct (HD (s_rng t)) as (u' & e1 & Eu' & Hu). assert (u' = u) by congruence. subst u'.
    destruct (HD e) as (v' & e2 & Ev' & Hv). assert (v' = v) by congruence. subst v'.
    assert (Hr0 : reads (g_heap g) (s_neigh s) s0) by (eapply reads_same; [| | |exact Hr]; congruence).
    assert (Eu0 : edraw (s_rng s0) = (Fin u, e)) by (rewrite S1; exact Eu).
    destruct (dwell_reads _ _ _ _ _ Hg Hr0 Eu0 Hu) as (sd & Ed' & Hpos). rewrite Ed in Ed'. injection Ed' as Ed1 Ed2.
    assert (Es1 : s1 = s_with_rng e s0).
    { unfold s_getDwellTime, bind, s_draw, gets, ret in Ed. rewrite Eu0 in Ed. injection Ed as _ Ed. symmetry. exact Ed. }
    split.
    { eexists. split; [exact Ewp|]. unfold w_getDwellTime, gets. cbn [w_dwell]. rewrite Ed1. reflexivity. }
    destruct (Pk v ltac:(lra)) as (m & Hm & Em & Iv). exists m. split; [exact Hm|]. split; [|exact Iv].
    assert (Enm : n = m).
    { assert (Ev1 : edraw (s_rng s1) = (Fin v, e')) by (rewrite Es1; exact Ev). assert (Ep : s_prob s1 = s_prob s) by (rewrite Es1; cbn [s_prob s_with_rng]; congruence).
      unfold s_pick, bind, s_draw, gets, ret in En. rewrite Ev1 in En. cbn [s_prob s_with_rng] in En.
      rewrite Ep in En. apply (f_equal (fun o => match o with Ret x _ => x | _ => n end)) in En. cbv beta iota in En. congruence. }
    eexists. split; [exact Ewp|exact Enm].
Qed.
End Free.
