(** * Time resolutions and increments of clusters *)
From Coq Require Import ZArith List Bool Reals Lra Lia Permutation Relations.
From Verif Require Import Base BaseProofs Num OrdLaws RSum SiteModel SiteSpec ClusterModel ClusterProofs ClusterReal ContainerModel BasinModel BasinSpec CrossSpec CrossProofs
  SystemModel SystemSpec SystemShape SystemHop SystemCoarse SystemMerge SystemProofs SystemFacts SystemControl SystemInit ValidSpec SystemEffect SystemEquil ClusterLive SystemLive SystemGrow SystemTotal SystemValid.
Import ListNotations.
Open Scope R_scope.

Section Report.
Context {I : Impl} {G : @Rng XR} {U : @Ugly XR}.
Variables (clk : Z -> Z) (lo hi : R).

Lemma per_lookup {A} (f : @cluster XR G -> A) (m : umap (@cluster XR G)) c x : NoDup (ukeys m) ->
  ulookup c (per_cluster f m) = Some x -> exists cl, ulookup c m = Some cl /\ x = f cl.
Proof.
  intros ND. unfold per_cluster. rewrite fold_uset_lookup; [|constructor|exact ND]. cbn [ulookup].
  destruct (ulookup c m) as [cl|]; [|discriminate]. intros E. injection E as <-. eauto.
Qed.

(** the resolution chosen for a new cluster *)
Lemma chosen_value t L tr : 0 < t -> 0 <= L -> 2 * L < tr -> @chosen_resolution XR (Fin t) (Fin L) (Fin tr) = Fin (Rmax 2 (t / tr)).
Proof.
  intros Ht HL Hb. assert (Htr : 0 < tr) by lra. unfold chosen_resolution. cbv zeta. rewrite (xdiv_Fin t tr) by lra.
  change (@nmul XR (nofZ 2) (Fin L)) with (Fin (2 * L) : @num XR). change (@nofZ XR 2) with (Fin 2 : @num XR).
  assert (X : @nltb XR (Fin (t / tr)) (@ndiv XR (Fin t) (Fin (2 * L))) = true).
  { destruct (Req_EM_T L 0) as [->|Nz].
    - assert (E : @ndiv XR (Fin t) (Fin (2 * 0)) = PInf).
      { cbn [ndiv XR xdiv]. rewrite Rmult_0_r. unfold Reqb. destruct (Req_EM_T 0 0); [|lra]. destruct (Req_EM_T t 0); [lra|].
        assert (E : Rltb 0 t = true) by (apply Rltb_true; exact Ht). rewrite E. reflexivity. }
      rewrite E. reflexivity.
    - rewrite xdiv_Fin by lra. apply Rltb_true. unfold Rdiv. apply Rmult_lt_compat_l; [exact Ht|]. apply Rinv_lt_contravar; [|lra].
      apply Rmult_lt_0_compat; lra. }
  rewrite X. change (@nltb XR (Fin (t / tr)) (Fin 2)) with (Rltb (t / tr) 2). unfold Rmax.
  destruct (Rltb (t / tr) 2) eqn:E; [apply Rltb_true in E|apply Rltb_false in E]; destruct (Rle_dec 2 (t / tr)); try reflexivity; exfalso; lra.
Qed.
Lemma increment_value t tr : 0 < t -> 0 < tr -> t / Rmax 2 (t / tr) = Rmin tr (t / 2).
Proof.
  intros Ht Htr. assert (Hq : t / tr * tr = t) by (field; lra). assert (Hp : 0 < t / tr) by (apply Rdiv_lt_0_compat; lra).
  unfold Rmax, Rmin. destruct (Rle_dec 2 (t / tr)) as [A|A].
  - assert (2 * tr <= t / tr * tr) by (apply Rmult_le_compat_r; lra). destruct (Rle_dec tr (t / 2)); [field; lra | exfalso; lra].
  - assert (t / tr * tr < 2 * tr) by (apply Rmult_lt_compat_r; lra). destruct (Rle_dec tr (t / 2)); [exfalso; lra | reflexivity].
Qed.

(** a hop that makes a new cluster chooses its resolution *)
Lemma hop_chooses tr (g : @world XR G) ws fuel id p g' c rho T : reach_by clk tr g ws -> Forall (valid_call (g_heap g)) tr -> In p ws ->
  g_perf g = Fin rho -> 1 / 2 <= rho -> g_res g = Some (Fin T) ->
  sys_hop clk fuel id p g = Ret tt g' -> is_cluster g' c -> ~ is_cluster g c ->
  exists cl t2 L, ulookup c (g_clusters g') = Some cl /\ c_tau cl = t2 /\ c_res cl = chosen_resolution t2 (Fin L) (Fin T) /\ 0 <= L /\ 2 * L < T.
Proof.
  intros R Fv Hp Ep Hr Et E Hc Hn. assert (V : inv g ws) by (apply (reach_inv clk); eexists; exact R).
  pose proof (valid_solid clk _ _ _ R Fv) as So.
  destruct (hop_made clk _ _ _ _ _ _ V Hp E) as (g1 & i & k & V1 & D & _ & H1). cbv zeta in H1.
  assert (So1 : solid g1) by (apply (solid_still g); [apply still_drift, D|exact So]).
  assert (Hn1 : ~ is_cluster g1 c).
  { intros X. apply Hn. destruct (listed_two g1 ws c V1 X) as (j & _ & _ & Hj & _).
    pose proof (h_ndc _ _ _ (v_shape _ _ V)) as N0. pose proof (h_ndc _ _ _ (v_shape _ _ V1)) as N1. rewrite listed_holds in Hj by exact N1.
    assert (Y : holds g c j) by (apply (drift_holds g g1 D); exact Hj).
    apply (proj2 (listed_holds g c j N0)) in Y. destruct Y as (l & El & _). exists l; exact El. }
  assert (Keep : forall g2, inv g2 ws -> g_clusters g' = g_clusters g2 -> is_cluster g2 c).
  { intros g2 _ X. destruct Hc as [l El]. exists l. unfold sys_getClusters, in_clusters, zoom, cc_getSiteIds, gets in *. rewrite X in El. exact El. }
  destruct H1 as [(_ & Ec)|(g3 & B & c0 & -> & _ & Md & Bal & H1)]; [exfalso; apply Hn1, (Keep g1 V1 Ec)|].
  set (g2 := g_with_iter i g1) in *.
  assert (V' : inv (g_with_iter 0 (g_with_thr (g_thrmin g1) g3)) ws) by (eapply (step_inv clk); [exact V|eapply st_hop; eauto]).
  pose proof (h_ndc _ _ _ (v_shape _ _ V')) as N3. pose proof (h_ndc _ _ _ (v_shape _ _ V1)) as N1.
  destruct (listed_two _ ws c V' Hc) as (j & _ & _ & Hj & _). rewrite listed_holds in Hj by exact N3. change (holds g3 c j) in Hj.
  assert (Kn : forall x, holds g1 c x -> False).
  { intros x Hx. apply Hn1. apply (proj2 (listed_holds g1 c x N1)) in Hx. destruct Hx as (l & El & _). exists l; exact El. }
  apply (d_holds _ _ _ _ _ Md) in Hj. destruct Hj as (_ & [Hj|(-> & _)]); [destruct (Kn j Hj)|].
  destruct H1 as [(-> & E3)|(sac & NDs & Ef & Cn & A1 & A2 & _)].
  - destruct (create_inv clk _ _ _ _ _ E3) as (t & l & tres & c1 & c2 & e & gx & _ & Er & _ & _ & X). cbv zeta in X.
    set (cl := c_with_rng e _) in X. destruct X as (_ & _ & Ec1 & _ & _ & _ & _ & _ & _ & _ & _ & _ & _ & Lb).
    destruct (drift_res _ _ D) as [Dr _]. change (g_res g1 = Some tres) in Er. rewrite Dr, Et in Er. injection Er as <-.
    destruct Bal as (tc & tq & _ & F2 & F4). cbv zeta in F4. destruct F4 as [_ F4]. rewrite Dr, Et in F2. injection F2 as <-.
    pose proof (o_good _ So1) as Hg.
    destruct (limit_crossing _ _ Hg (g_tick g1) B (d_nd _ _ _ _ _ Md)) as (L & L0 & _ & [Lim|(M & Lim & LM)] & _); rewrite Lim in F4.
    + exfalso. change (xltb (xscale 2 true) (Fin T) = true) in F4. unfold xscale in F4.
      assert (P : Rltb 0 2 = true) by (apply Rltb_true; lra). rewrite P in F4. destruct (Reqb 2 0); discriminate.
    + change (Rltb (M * 2) T = true) in F4. apply Rltb_true in F4.
      exists cl, (c_tau c2), M. split; [|split; [reflexivity|split; [|split; lra]]].
      * change (ulookup (g_count g1) (g_clusters g3) = Some cl). rewrite (b_clusters _ _ _ _ Lb), Ec1. apply uset_lookup_same. exact N1.
      * subst cl. cbn [c_res c_with_rng c_with_inc c_with_res]. rewrite Lim. reflexivity.
  - exfalso. destruct (d_which _ _ _ _ _ Md) as [[E1 X]|[(x & _ & Hx) _]]; [|apply (Kn x Hx)].
    destruct (count_more clk sac) with (x := unassignedId) as ([j' c'] & Hin & Nu); [|exact Cn|].
    + intros ->. destruct (A1 k (d_in _ _ _ _ _ Md)) as (s & _ & Y). discriminate.
    + cbn [snd] in Nu. apply (In_ulookup _ _ _ NDs) in Hin. destruct (in_dec Z.eq_dec j' B) as [Hj'|Hj'].
      * destruct (A1 j' Hj') as (s & Es & Y). assert (c' = s_cluster s) by congruence. subst c'.
        destruct (d_some _ _ _ _ _ Md j' s Hj' Es) as [Z|Z]; [congruence|]. apply (X (s_cluster s)). exists j'. auto.
      * rewrite (A2 j' Hj') in Hin. discriminate.
Qed.
End Report.
