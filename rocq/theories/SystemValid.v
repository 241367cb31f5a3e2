(** * What users see of clusters in valid programs *)
From Coq Require Import ZArith List Bool Reals Lra Lia Permutation Relations.
From Verif Require Import Base BaseProofs Num OrdLaws RSum WalkerModel SiteModel SiteSpec ClusterModel ContainerModel BasinModel BasinSpec
  CrossSpec CrossProofs SystemModel SystemSpec SystemShape SystemHop SystemProofs SystemFacts SystemControl ValidSpec SystemEffect SystemEquil.
Import ListNotations.
Open Scope R_scope.

Section Valid.
Context {I : Impl} {G : @Rng XR} {U : @Ugly XR}.
Variable clk : Z -> Z.

(** C51 *)
Lemma hop_balance tr (g : @world XR G) ws fuel id p g' rho : reach_by clk tr g ws -> In p ws ->
  good_sites (g_heap g) (g_sites g) -> ratio tr = Fin rho -> 0 <= rho -> (forall t, resolution tr = Some t -> exists T, t = Fin T) ->
  sys_hop clk fuel id p g = Ret tt g' ->
  (forall c k, listed g' c k <-> listed g c k) \/
  exists T k B L c, resolution tr = Some (Fin T) /\ walker_to g p k /\ In k B /\ NoDup B /\
    crossing (g_heap g) (g_sites g) B L /\ 0 < leaving (g_heap g) (g_sites g) B /\
    2 * rho * L < 1 / leaving (g_heap g) (g_sites g) B /\ 2 * L < T /\
    (forall j, In j B -> listed g' c j) /\
    (forall x j, listed g' x j -> listed g x j \/ (x = c /\ (In j B \/ exists y i, In i B /\ listed g y i /\ listed g y j))).
Proof.
  intros R Hp Hg Er Hr Ht E.
  assert (V : inv g ws) by (apply (reach_inv clk); exists tr; exact R).
  destruct (settings_kept clk _ _ _ R) as [Ep Et].
  assert (V' : inv g' ws) by (eapply step_inv; [exact V|eapply st_hop; eauto]).
  pose proof (h_ndc _ _ _ (v_shape _ _ V)) as N1. pose proof (h_ndc _ _ _ (v_shape _ _ V')) as N2.
  destruct (hop_made clk _ _ _ _ _ _ V Hp E) as (g1 & i & k & V1 & D & Hw & H1). cbv zeta in H1.
  pose proof (still_drift _ _ D) as S. pose proof (l_holds _ _ S) as Hh.
  destruct H1 as [(E1 & E2)|(g3 & B & c & -> & _ & Md & Bal & _)].
  - left. intros c j. rewrite !listed_holds by assumption. rewrite (same_clusters clk g1 g' E2 c j). apply Hh.
  - right. pose proof Bal as (tc & t & _ & Et1 & _).
    assert (g_perf g1 = g_perf g /\ g_res g1 = g_res g) as (Kp & Kr) by (destruct (m_kept _ _ D); cbn in *; split; congruence).
    rewrite Kr, Et in Et1. destruct (Ht _ Et1) as [T ->].
    pose proof (look_neigh _ _ S) as Hn.
    assert (Hg1 : good_sites (g_heap g1) (g_sites g1)).
    { rewrite (l_heap _ _ S). apply (all_good _ (g_sites g) (g_sites g1)); [apply (l_nd _ _ S), Hg|exact Hn|exact Hg]. }
    assert (Ep1 : g_perf g1 = Fin rho) by congruence. assert (Er1 : g_res g1 = Some (Fin T)) by (rewrite Kr, Et; exact Et1).
    destruct (balance_real g1 (g_tick g1) B rho T Hg1 (d_nd _ _ _ _ _ Md) (d_known _ _ _ _ _ Md) Ep1 Hr Er1 Bal) as (L & Cr & _ & X0 & B1 & B2).
    assert (Sm : same_on B (g_sites g1) (g_sites g)) by (intros j _; symmetry; apply Hn).
    rewrite (l_heap _ _ S) in *. rewrite <- (same_leaving (g_heap g) _ _ _ Sm) in X0, B1.
    exists T, k, B, L, c. split; [exact Et1|]. split; [exact Hw|]. split; [apply Md|]. split; [apply Md|].
    split; [apply (same_crossing _ (g_sites g1)); [apply Hg1|apply Hg|exact Sm|exact Cr]|]. split; [exact X0|]. split; [exact B1|]. split; [exact B2|].
    split.
    + intros j Hj. rewrite listed_holds by exact N2. apply (d_holds _ _ _ _ _ Md). auto.
    + intros x j Hj. rewrite listed_holds in Hj by exact N2. apply (d_holds _ _ _ _ _ Md) in Hj. destruct Hj as (_ & [Hj|(-> & [Hj|(y & (n & Hn1 & Hn2) & Hn3)])]).
      * left. rewrite listed_holds by exact N1. apply Hh. exact Hj.
      * right. auto.
      * right. split; [reflexivity|]. right. exists y, n. rewrite !listed_holds by exact N1. split; [exact Hn1|]. split; apply Hh; assumption.
Qed.

Lemma valid_label tr (g : @world XR G) ws : reach_by clk tr g ws -> Forall (valid_call (g_heap g)) tr ->
  forall k c, c <> unassignedId -> (cluster_of g k c <-> listed g c k).
Proof.
  intros R F k c Nc. assert (V : inv g ws) by (apply (reach_inv clk); exists tr; exact R).
  pose proof (valid_solid clk _ _ _ R F) as So. pose proof (h_ndc _ _ _ (v_shape _ _ V)) as N1.
  rewrite listed_holds by exact N1. rewrite cluster_of_iff. split.
  - intros (s & Es & <-). apply (o_label _ So k s Es Nc).
  - intros Hk. pose proof Hk as (m & cl & Ec & Em).
    destruct (h_mem _ _ _ (v_shape _ _ V) c k m (ex_intro _ cl (conj Ec Em))) as (s & Es & Ns & _). exists s. split; [exact Es|].
    destruct (o_label _ So k s Es Ns) as (m' & cl' & Ec' & Em').
    apply (h_disj _ _ _ (v_shape _ _ V) _ _ k m' m); [exists cl'|exists cl]; auto.
Qed.
Lemma valid_cluster tr (g : @world XR G) ws : reach_by clk tr g ws -> Forall (valid_call (g_heap g)) tr ->
  forall c, is_cluster g c -> exists B L, NoDup B /\ (forall j, In j B <-> listed g c j) /\ (2 <= length B)%nat /\
    joined (g_heap g) (g_sites g) B /\ 0 < leaving (g_heap g) (g_sites g) B /\
    crossing (g_heap g) (g_sites g) B L /\ L < 1 / leaving (g_heap g) (g_sites g) B.
Proof.
  intros R F c Hc. assert (V : inv g ws) by (apply (reach_inv clk); exists tr; exact R).
  pose proof (valid_solid clk _ _ _ R F) as So. pose proof (h_ndc _ _ _ (v_shape _ _ V)) as N1.
  destruct (listed_two g ws c V Hc) as (i & j & Nij & Hi & Hj).
  pose proof Hi as Hi'. rewrite listed_holds in Hi' by exact N1. destruct (o_set _ So c i Hi') as (B & HB & [ND J (L & Cr & Lt) X]).
  assert (HB' : forall j, In j B <-> listed g c j) by (intros n; rewrite listed_holds by exact N1; apply HB).
  exists B, L. split; [exact ND|]. split; [exact HB'|]. split.
  { apply HB' in Hi, Hj. destruct B as [|a [|b B]]; [destruct Hi|destruct Hi as [->|[]], Hj as [->|[]]; congruence|cbn; lia]. }
  split; [exact J|]. split; [exact X|]. split; [exact Cr|]. apply Rmult_lt_reg_r with (leaving (g_heap g) (g_sites g) B); [exact X|].
  replace (1 / leaving (g_heap g) (g_sites g) B * leaving (g_heap g) (g_sites g) B) with 1 by (field; lra). exact Lt.
Qed.
End Valid.
