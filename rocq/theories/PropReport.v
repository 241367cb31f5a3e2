(** * C40: time increments and resolutions

    Exact arithmetic; every valid program (ValidSpec.v), stream of draws, clock,
    hash order and tie-breaking of the graph library. *)
From Coq Require Import ZArith List Bool Reals Lra Floats Lia.
From Verif Require Import Base BaseProofs Num F64 OrdLaws WalkerModel SiteModel ClusterModel ClusterReal ClusterProofs ContainerModel BasinModel BasinSpec CrossSpec
  SystemModel SystemSpec SystemShape SystemHop SystemProofs SystemFacts SystemControl SystemRuns ValidSpec ReportSpec SystemEffect SystemEquil
  ClusterLive SystemLive SystemTotal SystemChain SystemValid SystemReport PropSystem PropValid.
Import ListNotations.
Open Scope R_scope.

Section Report.
Context {I : Impl} {G : @Rng XR} {U : @Ugly XR}.
Variables (clk : Z -> Z) (lo hi : R).
Hypothesis (HD : open_draws G) (HB : rate_bounds lo hi).

Lemma reported_half tr g ws c x : valid_reach clk lo hi tr g ws -> few_hops lo hi (hops tr) -> increment g c x ->
  exists t r, time_constant g c (Fin t : @num XR) /\ cluster_resolution g c (Fin r : @num XR) /\ 2 <= r /\ x = Fin (t / r) /\ 0 < t / r <= t / 2.
Proof.
  intros V F (m & g' & E & Ex). pose proof (valid_inv clk lo hi _ _ _ V) as W. pose proof (h_ndc _ _ _ (v_shape _ _ W)) as N2.
  inversion E; subst m g'. destruct (per_lookup c_getTimeIncrement _ _ _ N2 Ex) as (cl & Ec & ->).
  pose proof (valid_living clk lo hi HD HB _ _ _ V F) as L. destruct (a_cl _ _ _ _ (i_alive _ _ _ _ _ L) c cl Ec) as (_ & Lv).
  destruct (lv_tau _ _ _ _ _ Lv) as (t & Et & Ht). destruct (lv_res _ _ _ _ _ Lv) as (r & Er & Hr). destruct (lv_inc _ _ _ _ _ Lv) as (t' & r' & Et' & Er' & Ei).
  assert (t' = t) by congruence. assert (r' = r) by congruence. subst t' r'. pose proof dbl_min_pos.
  exists t, r. split; [exists cl; auto|]. split.
  { exists (per_cluster c_getResolution (g_clusters g)). eexists. split; [reflexivity|]. unfold per_cluster. rewrite fold_uset_lookup; [|constructor|exact N2].
    rewrite Ec. unfold c_getResolution. rewrite Er. reflexivity. }
  split; [exact Hr|]. split; [exact Ei|]. split; [apply Rdiv_lt_0_compat; lra|]. unfold Rdiv. apply Rmult_le_compat_l; [lra|]. apply Rinv_le_contravar; lra.
Qed.
Lemma reported_new tr g ws f id p g' c x T : valid_reach clk lo hi tr g ws -> few_hops lo hi (hops tr + 1) -> In p ws -> resolution tr = Some (Fin T : @num XR) ->
  sys_hop clk f id p g = Ret tt g' -> is_cluster g' c -> ~ is_cluster g c -> increment g' c x ->
  exists t, time_constant g' c (Fin t : @num XR) /\ x = Fin (Rmin T (t / 2)).
Proof.
  intros V F Hp Et E Hc Hn Hx. pose proof V as (R & Fv & _).
  pose proof (hop_reach clk lo hi _ _ _ _ _ _ _ V Hp E) as V'.
  assert (F' : few_hops lo hi (hops (tr ++ [KHop p]))) by (rewrite hops_app; exact F).
  destruct (settings_kept clk _ _ _ R) as [Sp Sr]. destruct (ratio_half _ _ Fv) as (rho & Ep & Hr).
  destruct (hop_chooses clk tr g ws f id p g' c rho T R Fv Hp) as (cl & t2 & L & Ecl & Etau & Eres & HL & HT);
    [rewrite Sp; exact Ep|exact Hr|rewrite Sr; exact Et|exact E|exact Hc|exact Hn|].
  destruct (reported_half _ _ _ _ _ V' F' Hx) as (t & r & (cl' & Ecl' & Ht) & Hres & Hr2 & -> & Hpos).
  assert (cl' = cl) by congruence. subst cl'. unfold c_getTimeConstant in Ht.
  pose proof (valid_inv clk lo hi _ _ _ V') as W'. pose proof (h_ndc _ _ _ (v_shape _ _ W')) as N2.
  destruct Hres as (m & gx & Em & Er). inversion Em; subst m gx. destruct (per_lookup c_getResolution _ _ _ N2 Er) as (cl' & Ecl'' & Er').
  assert (cl' = cl) by congruence. subst cl'. unfold c_getResolution in Er'.
  rewrite <- Etau, Ht in Eres.
  assert (T0 : 0 < t).
  { destruct Hpos as [X _]. destruct (Rlt_le_dec 0 t) as [|Y]; [assumption|exfalso]. assert (0 < / r) by (apply Rinv_0_lt_compat; lra).
    unfold Rdiv in X. assert (0 <= (- t) * / r) by (apply Rmult_le_pos; lra). lra. }
  rewrite (chosen_value t L T T0 HL HT), <- Er' in Eres. injection Eres as Er2.
  exists t. split; [exists cl; auto|]. rewrite Er2, increment_value by lra. reflexivity.
Qed.
End Report.

(** ** C40 *)
(** Full statement: the increment of a cluster never exceeds the time resolution
    and is at most half its time constant.  Proved: the second part, for every
    cluster of a valid program. *)
Theorem C40_half_partial :
  forall (I : Impl) (G : @Rng XR) (U : @Ugly XR) (clk : Z -> Z) (lo hi : R) (tr : list call) (g : world) (ws : list Z) (c : Z) (x : @num XR),
    open_draws G -> rate_bounds lo hi -> valid_reach clk lo hi tr g ws -> few_hops lo hi (hops tr) -> increment g c x ->
    exists t r, time_constant g c (Fin t : @num XR) /\ cluster_resolution g c (Fin r : @num XR) /\ 2 <= r /\ x = Fin (t / r) /\ 0 < t / r <= t / 2.
Proof. intros I G U clk lo hi tr g ws c x HD HB. exact (reported_half clk lo hi HD HB tr g ws c x). Qed.
Print Assumptions C40_half_partial.
(** Both parts, with equality in one of them, for a cluster that a hop has just
    made.  Missing: clusters that grew since, for which the first part is false. *)
Theorem C40_new_cluster_partial :
  forall (I : Impl) (G : @Rng XR) (U : @Ugly XR) (clk : Z -> Z) (lo hi : R) (tr : list call) (g g' : world) (ws : list Z)
         (fuel : nat) (id p c : Z) (x : @num XR) (T : R),
    open_draws G -> rate_bounds lo hi -> valid_reach clk lo hi tr g ws -> few_hops lo hi (hops tr + 1) -> In p ws ->
    resolution tr = Some (Fin T : @num XR) -> sys_hop clk fuel id p g = Ret tt g' ->
    is_cluster g' c -> ~ is_cluster g c -> increment g' c x ->
    exists t, time_constant g' c (Fin t : @num XR) /\ x = Fin (Rmin T (t / 2)).
Proof. intros I G U clk lo hi tr g g' ws fuel id p c x T HD HB. exact (reported_new clk lo hi HD HB tr g ws fuel id p g' c x T). Qed.
Print Assumptions C40_new_cluster_partial.
(** the chain: its first hop makes a cluster *)
Example C40_nonvacuous :
  exists (g g' : @world XR rng_c) (n : nat) (c : Z) (x : @num XR),
    open_draws rng_c /\ rate_bounds 1 101 /\ @valid_reach impl0 rng_c ugly_c clk_c 1 101 calls_c g [10%Z] /\ few_hops 1 101 (hops calls_c + 1) /\
    resolution calls_c = Some (Fin 1 : @num XR) /\ @sys_hop impl0 XR rng_c ugly_c clk_c n 0 10 g = Ret tt g' /\
    @is_cluster impl0 XR rng_c g' c /\ ~ @is_cluster impl0 XR rng_c g c /\ @increment impl0 XR rng_c g' c x.
Proof.
  destruct cluster_c as (g & g' & n & c & R & Eh & To & E & L1 & L2 & Un & _ & _ & _ & Rb & _).
  assert (V : @valid_reach impl0 rng_c ugly_c clk_c 1 101 calls_c g [10%Z]) by (split; [exact R|apply chain_valid, Eh]).
  assert (Hc : @is_cluster impl0 XR rng_c g' c) by (destruct L1 as (l & El & _); exists l; exact El).
  assert (V' : @valid_reach impl0 rng_c ugly_c clk_c 1 101 (calls_c ++ [KHop 10%Z]) g' [10%Z]).
  { apply (hop_reach clk_c 1 101 calls_c g [10%Z] n 0 10 g' V (or_introl eq_refl)). apply E. lia. }
  pose proof (valid_inv clk_c 1 101 _ _ _ V) as W. pose proof (valid_inv clk_c 1 101 _ _ _ V') as W'.
  pose proof (h_ndc _ _ _ (v_shape _ _ W')) as N2.
  rewrite (is_cluster_known _ _ N2) in Hc. apply ukeys_In in Hc. destruct Hc as [cl Ecl].
  exists g, g', n, c, (c_inc cl). split; [exact fair_c|]. split; [exact bounds_c|]. split; [exact V|]. split; [apply few_c; cbn; lia|].
  split; [reflexivity|]. split; [apply E; lia|]. split; [destruct L1 as (l & El & _); exists l; exact El|]. split.
  - intros Hc. destruct (valid_cluster clk_c _ _ _ (proj1 V) (proj1 (proj2 V)) c Hc) as (B & L & ND & HB & H2 & J & _).
    destruct B as [|i [|j B]]; try (cbn in H2; lia).
    assert (Nij : i <> j) by (intros ->; inversion ND as [|? ? X _]; apply X; left; reflexivity).
    destruct (J i j) as (t & Wk); [left; reflexivity|right; left; reflexivity|].
    assert (Hj : (1 <= j <= 4)%Z).
    { inversion Wk as [|a k t' r _ _ X]; subst; [congruence|]. rewrite Eh in X. apply Rb in X.
      repeat destruct X as [X|X]; destruct X as [X _]; injection X as _ ->; lia. }
    destruct (proj2 (Un j) Hj) as (gx & Ej). pose proof (proj1 (HB j) (or_intror (or_introl eq_refl))) as Hl.
    pose proof (h_ndc _ _ _ (v_shape _ _ W)) as N1. rewrite listed_holds in Hl by exact N1. destruct Hl as [m Hm].
    destruct (h_mem _ _ _ (v_shape _ _ W) c j m Hm) as (s & Es & Ns & _).
    destruct (proj1 (cluster_of_iff _ _ _) (ex_intro _ gx Ej)) as (s' & Es' & X). congruence.
  - exists (@per_cluster impl0 XR rng_c _ c_getTimeIncrement (g_clusters g')). eexists. split; [reflexivity|]. unfold per_cluster. rewrite fold_uset_lookup; [|constructor|exact N2].
    rewrite Ecl. reflexivity.
Qed.

(** When a cluster grows its time constant changes but its resolution does not.
    The chain of PropSystem.v with time resolution 5 and performance ratio 1:
    after the merge the increment is above 4000. *)
Theorem C40_merged_refuted :
  exists (g : @world fz rh) (x : @num fz), @reach_by impl0 fz rh uz cz (map call_of calls3) g [10; 20]%Z /\
    resolution (map call_of calls3) = Some (5%float : @num fz) /\ ratio (map call_of calls3) = (1%float : @num fz) /\
    @increment impl0 fz rh g 0 x /\ @nltb fz (4000%float : @num fz) x = true.
Proof.
  exists (final1 calls3), (match @sys_getIncrements impl0 fz rh (final1 calls3) with Ret m _ => uget (0%float : @num fz) 0 m | _ => (0%float : @num fz) end).
  split.
  - assert (R : run1 calls3 start1 = true) by (vm_compute; reflexivity).
    assert (E : inside1 calls3 = [10; 20]%Z) by (vm_compute; reflexivity). rewrite <- E.
    apply (@runs_reach_by impl0 fz rh uz cz [(10, wz 1); (20, wz 3); (30, wz 1); (31, wz 5)]%Z heap1 0 0); [repeat constructor; cbn; intuition lia|lia|exact R].
  - split; [reflexivity|]. split; [reflexivity|]. split; [|vm_compute; reflexivity].
    eexists _, _. split; [reflexivity|]. vm_compute. reflexivity.
Qed.
Print Assumptions C40_merged_refuted.
