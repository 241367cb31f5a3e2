(** * What a site knows of its rates never changes, for every arithmetic *)
From Coq Require Import ZArith List Bool Lia Permutation.
From Verif Require Import Base BaseProofs Num WalkerModel SiteModel ClusterModel ClusterFrame ClusterHist
  ContainerModel BasinModel SystemModel SystemSpec SystemShape SystemHop SystemCoarse SystemMerge SystemProofs SystemInit SystemFacts SystemControl SystemEffect SystemOps.
Import ListNotations.
Open Scope Z_scope.

Section Sites.
Context {I : Impl} {N : Num} {G : Rng} {U : Ugly}.
Variable clk : Z -> Z.

Definition same_rates (a b : site) : Prop := s_tau b = s_tau a /\ s_prob b = s_prob a /\ s_neigh b = s_neigh a.
Lemma rates_refl a : same_rates a a. Proof. repeat split. Qed.
Lemma rates_trans a b c : same_rates a b -> same_rates b c -> same_rates a c.
Proof. intros (A1 & A2 & A3) (B1 & B2 & B3). repeat split; congruence. Qed.
Lemma rates_frz a b : frz_s b = frz_s a -> same_rates a b.
Proof. intros E. repeat split; [change (s_tau (frz_s b) = s_tau (frz_s a))|change (s_prob (frz_s b) = s_prob (frz_s a))|change (s_neigh (frz_s b) = s_neigh (frz_s a))];
  rewrite E; reflexivity. Qed.

Definition lasting (g g' : world) : Prop := forall k s, ulookup k (g_sites g) = Some s -> exists s', ulookup k (g_sites g') = Some s' /\ same_rates s s'.
Lemma lasting_same g g' : g_sites g' = g_sites g -> lasting g g'.
Proof. intros E k s. rewrite E. intros X. exists s. split; [exact X|apply rates_refl]. Qed.
Lemma lasting_trans a b c : lasting a b -> lasting b c -> lasting a c.
Proof. intros H1 H2 k s E. destruct (H1 k s E) as (s1 & E1 & S1). destruct (H2 k s1 E1) as (s2 & E2 & S2). exists s2. split; [exact E2|eapply rates_trans; eauto]. Qed.
Lemma frz_site (m m' : umap site) : map (on_snd frz_s) m' = map (on_snd frz_s) m -> forall k s, ulookup k m = Some s ->
  exists s', ulookup k m' = Some s' /\ frz_s s' = frz_s s.
Proof.
  revert m'. induction m as [|[j v] m IH]; intros [|[j' v'] m'] E k s; try discriminate.
  change (map (on_snd frz_s) ((j', v') :: m')) with ((j', frz_s v') :: map (on_snd frz_s) m') in E.
  change (map (on_snd frz_s) ((j, v) :: m)) with ((j, frz_s v) :: map (on_snd frz_s) m) in E.
  remember (frz_s v') as fv' eqn:F'. remember (frz_s v) as fv eqn:F. injection E as Ek Ev E. subst j' fv'. cbn [ulookup fst snd].
  destruct (k =? j).
  - intros X. injection X as <-. exists v'. split; [reflexivity|congruence].
  - apply IH, E.
Qed.
Lemma calm_lasting g g' : calm g g' -> lasting g g'.
Proof. intros C k s E. destruct (frz_site _ _ (m_sites _ _ C) k s E) as (s' & E' & F). exists s'. split; [exact E'|apply rates_frz, F]. Qed.
Lemma drift_lasting g g' : drift g g' -> lasting g g'.
Proof. intros D k s E. exact (calm_lasting _ _ D k s E). Qed.
Lemma grain_lasting g g' : grain g g' -> lasting g g'.
Proof.
  intros Gr k s E. assert (Hk : In k (ukeys (g_sites g'))) by (rewrite (r_keys _ _ Gr); eapply ulookup_In_key; exact E).
  apply ukeys_In in Hk. destruct Hk as [s' Es']. destruct (r_sites _ _ Gr k s' Es') as (s0 & Es0 & Ex). assert (s0 = s) by congruence. subst s0.
  exists s'. split; [exact Es'|]. rewrite Ex. repeat split.
Qed.
Lemma step_lasting g ws a g' ws' : inv g ws -> step clk g ws a g' ws' -> lasting g g'.
Proof.
  intros V S. destruct S as [p g' E|t g' E|t g' E|s g' E|rates g' ND _ E|h|m Hm L|n t Hn|l g' H1 H2 H3 H4 H5 E|fuel id p g' Hp E|id p g' Hp E|k v g' E].
  - inversion E; subst. apply lasting_same; reflexivity.
  - unfold sys_setTimeResolution in E. destruct (nleb t n0); [discriminate|]. inversion E; subst. apply lasting_same; reflexivity.
  - inversion E; subst. apply lasting_same; reflexivity.
  - unfold sys_setRandomSeed in E. apply bind_ret_inv in E. destruct E as (f & g1 & E1 & E). inversion E1; subst f g1; clear E1.
    destruct (g_feats g); [|discriminate]. inversion E; subst. apply lasting_same; reflexivity.
  - destruct (init_all clk _ _ _ _ V ND E) as (_ & A & B & C). intros k s Es.
    assert (Nm : ~ mentioned rates k).
    { intros Hm. destruct (in_dec Z.eq_dec k (ukeys rates)) as [Hi|Ni].
      - unfold ukeys in Hi. apply in_map_iff in Hi. destruct Hi as ([k' r] & Ek & Hin). cbn in Ek; subst k'. destruct (A k r Hin) as [X _]. congruence.
      - destruct (B k Hm Ni) as [X _]. congruence. }
    exists s. rewrite (C k Nm). split; [exact Es|apply rates_refl].
  - apply lasting_same; reflexivity.
  - apply lasting_same; reflexivity.
  - apply lasting_same; reflexivity.
  - unfold sys_initializeWalkers in E. apply bind_ret_inv in E. destruct E as (f & g1 & E1 & E). inversion E1; subst f g1; clear E1.
    destruct (g_feats g); [discriminate|]. apply drift_lasting, (enter_all clk l g g' ws V H1 H2 H3 H4 H5 E).
  - apply hop_inv in E. destruct E as (w & g1 & Ew & _ & _ & E1 & E2).
    destruct (move_step _ _ _ _ _ _ _ _ V Hp (ex_intro _ w (conj Ew eq_refl)) E1) as (V1 & D1 & _).
    destruct (attempt_step _ _ _ _ _ _ V1 E2) as (_ & G2). eapply lasting_trans; [apply drift_lasting, D1|]. intros k s Es. exact (grain_lasting _ _ G2 k s Es).
  - destruct (leave_step _ _ _ _ _ _ V Hp E) as (_ & C). apply calm_lasting, C.
  - apply getVisits_inv in E. destruct E as (s & Es & [(_ & _ & ->)|(_ & cl & cl' & v' & Ec & E & _ & ->)]); apply lasting_same; reflexivity.
Qed.
Lemma steps_lasting g ws tr g' ws' : inv g ws -> steps clk g ws tr g' ws' -> lasting g g'.
Proof.
  intros V S. induction S as [|tr g1 ws1 a g2 ws2 S IH St]; [apply lasting_same; reflexivity|].
  eapply lasting_trans; [exact IH|]. eapply step_lasting; [eapply steps_inv; eauto|exact St].
Qed.
End Sites.
