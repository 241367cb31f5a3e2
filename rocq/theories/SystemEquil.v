(** * When the system coarse grains, with real numbers *)
From Coq Require Import ZArith List Bool Lia Lra Reals Permutation Relations.
From Verif Require Import Base BaseProofs Num RSum WalkerModel SiteModel SiteSpec SiteProofs ClusterModel ClusterFrame
  ContainerModel BasinModel BasinSpec BasinProofs OrdLaws CrossSpec CrossProofs SystemModel SystemSpec SystemShape SystemHop SystemCoarse SystemMerge
  SystemProofs SystemFacts SystemControl SystemInit ValidSpec SystemEffect.
Import ListNotations.
Open Scope R_scope.

Section Equil.
Context {I : Impl} {G : @Rng XR} {U : @Ugly XR}.
Variable clk : Z -> Z.

(** ** Only the rates of the sites concerned matter *)
Definition same_on (B : list Z) (sites sites' : umap (@site XR G)) : Prop :=
  forall k, In k B -> option_map s_neigh (ulookup k sites') = option_map s_neigh (ulookup k sites).
Section Same.
Variables (h : @heap XR) (sites sites' : umap (@site XR G)) (B : list Z).
Hypothesis (N1 : NoDup (ukeys sites)) (N2 : NoDup (ukeys sites')) (Hs : same_on B sites sites').
Lemma same_rate i j r : In i B -> rate_between h sites' i j r <-> rate_between h sites i j r.
Proof.
  intros Hi. specialize (Hs i Hi). split; intros (s & a & Es & Ha & Er); apply In_ulookup in Es; try assumption; rewrite Es in Hs;
    (destruct (ulookup i _) as [s'|] eqn:E' in Hs; cbn [option_map] in Hs; [|discriminate]);
    injection Hs as Hs; exists s', a; apply ulookup_In in E'; (split; [exact E'|]); (split; [congruence|exact Er]).
Qed.
Lemma same_walk i j t : walk h sites' B i j t <-> walk h sites B i j t.
Proof.
  split; (induction 1 as [|j k t r W IH Hk Hr]; [apply walk_stay; assumption|]);
    (eapply walk_go; [exact IH|exact Hk|]); (apply same_rate; [|exact Hr]); eapply walk_end; eassumption.
Qed.
Lemma same_joined : joined h sites B -> joined h sites' B.
Proof. intros J i j Hi Hj. destruct (J i j Hi Hj) as [t W]. exists t. apply same_walk, W. Qed.
Lemma same_quickest i j d : quickest h sites' B i j d <-> quickest h sites B i j d.
Proof. unfold quickest. rewrite same_walk. split; intros [A C]; (split; [exact A|]); intros t W; apply C, same_walk, W. Qed.
Lemma same_crossing L : crossing h sites B L -> crossing h sites' B L.
Proof.
  intros [A C]. split; [intros i j d Ne Q; apply (A i j d Ne), same_quickest, Q|].
  destruct C as [[E C]|(i & j & Ne & Q)]; [left; split; [exact E|]; intros i j d Ne Q; apply (C i j d Ne), same_quickest, Q|].
  right. exists i, j. split; [exact Ne|apply same_quickest, Q].
Qed.
Lemma same_leaving : leaving h sites' B = leaving h sites B.
Proof.
  unfold leaving. apply Rsum_ext. intros i Hi. unfold rates_out. specialize (Hs i Hi).
  destruct (ulookup i sites) as [s|], (ulookup i sites') as [s'|]; cbn [option_map] in Hs; try discriminate; [|reflexivity].
  injection Hs as ->. reflexivity.
Qed.
End Same.

(** ** The condition *)
Lemma balance_real (g : @world XR G) nonce B rho T : good_sites (g_heap g) (g_sites g) -> NoDup B -> (forall k, In k B -> In k (ukeys (g_sites g))) ->
  g_perf g = Fin rho -> 0 <= rho -> g_res g = Some (Fin T) -> in_balance g nonce B ->
  exists L, crossing (g_heap g) (g_sites g) B L /\ 0 <= L /\ 0 < leaving (g_heap g) (g_sites g) B /\
    2 * rho * L < 1 / leaving (g_heap g) (g_sites g) B /\ 2 * L < T.
Proof.
  intros Hg ND Hk Ep Hr Et (tc & t & E1 & E2 & E3). cbv zeta in E3. destruct E3 as [E3 E4].
  rewrite Et in E2. injection E2 as <-. rewrite Ep in E3.
  rewrite (exit_time_ok _ _ Hg B Hk) in E1. injection E1 as E1.
  destruct (limit_crossing _ _ Hg nonce B ND) as (L & L0 & Cr & Lim & _). exists L. split; [exact Cr|]. split; [exact L0|].
  pose proof (leaving_nonneg _ _ Hg B) as X0. set (X := leaving (g_heap g) (g_sites g) B) in *.
  destruct Lim as [Lim|(M & Lim & LM)]; rewrite Lim in E3, E4.
  - exfalso. change (xltb (xscale 2 true) (Fin T) = true) in E4. unfold xscale in E4.
    assert (P : Rltb 0 2 = true) by (apply Rltb_true; lra). rewrite P in E4. destruct (Reqb 2 0); discriminate.
  - change (@nmul XR (Fin M) (nofZ 2)) with (Fin (M * 2) : @num XR) in *. change (@nmul XR (Fin (M * 2)) (Fin rho)) with (Fin (M * 2 * rho) : @num XR) in E3.
    rewrite <- E1 in E3. destruct (Req_EM_T X 0) as [Ez|Nz].
    + exfalso. change (Rltb (M * 2 * rho) 0 = true) in E3. apply Rltb_true in E3. assert (0 <= M * 2 * rho) by (apply Rmult_le_pos; lra). lra.
    + change (Rltb (M * 2 * rho) (1 / X) = true) in E3. change (Rltb (M * 2) T = true) in E4. apply Rltb_true in E3, E4.
      split; [lra|]. split; [|lra]. apply Rle_lt_trans with (M * 2 * rho); [|exact E3]. assert (0 <= (M - L) * rho) by (apply Rmult_le_pos; lra). lra.
Qed.

(** ** Same rates everywhere *)
Section Everywhere.
Variables (h : @heap XR) (sites sites' : umap (@site XR G)).
Hypothesis (N1 : NoDup (ukeys sites)) (N2 : NoDup (ukeys sites')).
Hypothesis Hs : forall k, option_map s_neigh (ulookup k sites') = option_map s_neigh (ulookup k sites).
Lemma all_same B : same_on B sites sites'. Proof. intros k _. apply Hs. Qed.
Lemma all_good : good_sites h sites -> good_sites h sites'.
Proof.
  intros [_ Hg]. split; [exact N2|]. intros k s Hk. specialize (Hs k). rewrite (In_ulookup _ _ _ N2 Hk) in Hs.
  destruct (ulookup k sites) as [s0|] eqn:E; [|discriminate]. injection Hs as ->. apply (Hg k s0 (ulookup_In _ _ _ E)).
Qed.
Lemma all_mutual : mutual h sites -> mutual h sites'.
Proof.
  intros Mu i j r Hr. apply (same_rate h sites sites' [i] N1 N2 (all_same _)) in Hr; [|left; reflexivity].
  destruct (Mu i j r Hr) as [r' Hr']. exists r'. apply (same_rate h sites sites' [j] N1 N2 (all_same _)); [left; reflexivity|exact Hr'].
Qed.
End Everywhere.

(** ** Valid programs *)
(** the sites [B] are joined and are crossed faster than left *)
Record tight (h : @heap XR) (sites : umap (@site XR G)) (B : list Z) : Prop := {
  t_nd : NoDup B; t_joined : joined h sites B;
  t_cross : exists L, crossing h sites B L /\ L * leaving h sites B < 1; t_leave : 0 < leaving h sites B }.
Lemma same_tight h sites sites' B : NoDup (ukeys sites) -> NoDup (ukeys sites') -> same_on B sites sites' -> tight h sites B -> tight h sites' B.
Proof.
  intros N1 N2 Hs [A J (L & C & E) X]. constructor; [exact A|apply (same_joined h sites sites' B N1 N2 Hs J)| |rewrite (same_leaving h _ _ _ Hs); exact X].
  exists L. rewrite (same_leaving h _ _ _ Hs). split; [apply (same_crossing h sites sites' B N1 N2 Hs L C)|exact E].
Qed.
Record solid (g : @world XR G) : Prop := {
  o_good : good_sites (g_heap g) (g_sites g);
  o_mut : mutual (g_heap g) (g_sites g);
  o_set : forall c k, holds g c k -> exists B, (forall j, In j B <-> holds g c j) /\ tight (g_heap g) (g_sites g) B;
  o_label : forall k s, ulookup k (g_sites g) = Some s -> s_cluster s <> unassignedId -> holds g (s_cluster s) k }.

Lemma look_neigh (g g' : @world XR G) : still g g' -> forall k, option_map s_neigh (ulookup k (g_sites g')) = option_map s_neigh (ulookup k (g_sites g)).
Proof.
  intros S k. pose proof (l_look _ _ S k) as E. destruct (ulookup k (g_sites g')), (ulookup k (g_sites g)); cbn [option_map] in *; try discriminate; [|reflexivity].
  unfold look in E. congruence.
Qed.
Lemma solid_still g g' : still g g' -> solid g -> solid g'.
Proof.
  intros S [Hg Mu Hb Hl]. pose proof (look_neigh _ _ S) as Hn. pose proof (proj1 Hg) as N1. pose proof (proj2 (l_nd _ _ S) N1) as N2.
  rewrite <- (l_heap _ _ S) in *. constructor.
  - apply (all_good _ _ _ N2 Hn Hg).
  - apply (all_mutual _ _ _ N1 N2 Hn Mu).
  - intros c k Hk. apply (l_holds _ _ S) in Hk. destruct (Hb c k Hk) as (B & HB & T). exists B. split; [intros j; rewrite HB; symmetry; apply (l_holds _ _ S)|].
    eapply same_tight; [exact N1|exact N2|apply all_same, Hn|exact T].
  - intros k s Es Nu. pose proof (l_look _ _ S k) as E. rewrite Es in E. destruct (ulookup k (g_sites g)) as [s0|] eqn:E0; [|discriminate].
    unfold look in E. injection E as _ E. rewrite E in *. apply (l_holds _ _ S). eapply Hl; eauto.
Qed.

(** ** Coarse graining *)
Lemma reach_walk h sites B k : In k B -> good_sites h sites -> (forall j, In j B -> clos_refl_trans Z (hop_in sites B) k j) ->
  forall j, In j B -> exists t, walk h sites B k j t.
Proof.
  intros Hk Hg Hr j Hj. specialize (Hr j Hj). apply clos_rt_rtn1 in Hr. clear Hj. induction Hr as [|y z (Hy & Hz & s & Hs & Hn) _ [t W]]; [exists 0; constructor; exact Hk|].
  unfold s_neighIds in Hn. apply in_map_iff in Hn. destruct Hn as ([z' a] & E & Hn). cbn [fst] in E. subst z'.
  destruct (proj2 (proj2 Hg y s Hs) z a Hn) as (r & Er & _). exists (t + 1 / r). eapply walk_go; [exact W|exact Hz|]. exists s, a. auto.
Qed.
Lemma made_tight (g g' : @world XR G) k B c rho T : solid g -> made g g' k B c -> g_perf g = Fin rho -> 1 / 2 <= rho -> g_res g = Some (Fin T) ->
  in_balance g (g_tick g) B -> tight (g_heap g) (g_sites g) B.
Proof.
  intros [Hg Mu _ _] Md Ep Hr Et Bal.
  destruct (balance_real g _ B rho T Hg (d_nd _ _ _ _ _ Md) (d_known _ _ _ _ _ Md) Ep ltac:(lra) Et Bal) as (L & Cr & L0 & X0 & E1 & _).
  set (X := leaving (g_heap g) (g_sites g) B) in *.
  constructor; [apply Md| |exists L; split; [exact Cr|]|exact X0].
  - apply (joined_from _ _ B k Mu). apply reach_walk; [apply Md|exact Hg|apply Md].
  - apply (Rmult_lt_compat_r X) in E1; [|exact X0]. replace (1 / X * X) with 1 in E1 by (field; lra).
    apply Rle_lt_trans with (2 * rho * L * X); [|exact E1]. apply Rmult_le_compat_r; [lra|]. 
    assert (0 <= (2 * rho - 1) * L) by (apply Rmult_le_pos; lra). lra.
Qed.
Lemma solid_made (g g' : @world XR G) k B c : shape g -> solid g -> made g g' k B c -> g_heap g' = g_heap g -> NoDup (ukeys (g_sites g')) ->
  tight (g_heap g) (g_sites g) B -> solid g' /\ forall j, holds g' c j <-> In j B.
Proof.
  intros Sh So Md Eh N2 TB. pose proof So as [Hg Mu Hb Hl]. pose proof (proj1 Hg) as N1.
  assert (Sub : forall x j, touched g B x -> holds g x j -> In j B).
  { intros x j Tx Hj. destruct (Hb x j Hj) as (A & HA & TA). destruct TA as [_ JA (L & CA & EA) _]. pose proof TB as [_ JB (M & CB & EB) _].
    destruct (laminar _ _ Hg A B L M JA JB CA CB (crossing_nonneg _ _ Hg _ _ CA) (crossing_nonneg _ _ Hg _ _ CB) EA EB) as [X|[X|X]].
    - exfalso. destruct Tx as (i & Hi & Hx). apply (X i); [apply HA, Hx|exact Hi].
    - apply X, HA, Hj.
    - exfalso. destruct (d_more _ _ _ _ _ Md x Tx) as (i & Hi & Nx). apply Nx, HA, X, Hi. }
  assert (Hc : forall j, holds g' c j <-> In j B).
  { intros j. rewrite (d_holds _ _ _ _ _ Md). split; [|intros Hj; split; [auto|auto]]. intros [_ [Hj|(_ & [Hj|(x & Tx & Hj)])]]; [|exact Hj|eauto].
    destruct (d_which _ _ _ _ _ Md) as [[-> _]|[Tc _]]; [|eauto]. exfalso. destruct Hj as (m & cl & Ecl & _).
    destruct (h_cl _ _ _ Sh _ _ Ecl) as (_ & X & _). lia. }
  assert (Hn : forall j, option_map s_neigh (ulookup j (g_sites g')) = option_map s_neigh (ulookup j (g_sites g))).
  { intros j. rewrite (d_label _ _ _ _ _ Md). destruct (existsb (Z.eqb j) B); [|reflexivity]. destruct (ulookup j (g_sites g)); reflexivity. }
  split; [|exact Hc]. rewrite <- Eh in *. constructor.
  - apply (all_good _ _ _ N2 Hn Hg).
  - apply (all_mutual _ _ _ N1 N2 Hn Mu).
  - intros x j Hj. destruct (Z.eq_dec x c) as [->|Nx].
    + exists B. split; [intros i; symmetry; apply Hc|]. eapply same_tight; [exact N1|exact N2|apply all_same, Hn|exact TB].
    + assert (Hx : forall i, holds g' x i <-> holds g x i).
      { intros i. rewrite (d_holds _ _ _ _ _ Md). split; [intros [_ [X|[X _]]]; [exact X|congruence]|].
        intros X. split; [right|auto]. apply (d_holds _ _ _ _ _ Md) in Hj. destruct Hj as [[Y|Y] _]; [congruence|exact Y]. }
      apply Hx in Hj. destruct (Hb x j Hj) as (A & HA & TA). exists A. split; [intros i; rewrite HA; symmetry; apply Hx|].
      eapply same_tight; [exact N1|exact N2|apply all_same, Hn|exact TA].
  - intros j s Es Nu. rewrite (d_label _ _ _ _ _ Md) in Es. destruct (existsb (Z.eqb j) B) eqn:Ej.
    + apply existsb_In in Ej. destruct (ulookup j (g_sites g)) as [s0|]; [|discriminate]. injection Es as <-. cbn [s_cluster s_with_cluster]. apply Hc, Ej.
    + apply existsb_notIn in Ej. pose proof (Hl j s Es Nu) as Hj. apply (d_holds _ _ _ _ _ Md). split; [|auto].
      destruct (Z.eq_dec (s_cluster s) c) as [|Nc]; [auto|right]. intros Tx. apply Ej. eauto.
Qed.

(** ** Initialisation *)
Lemma keyed_neigh h r k (s : @site XR G) : good_rates h r -> keyed h r k s -> Permutation (s_neigh s) r.
Proof.
  intros Hr (_ & _ & t & e & s0 & E & ->). destruct (setRates_fresh h r (s_with_id (Some k) (site_new t)) eq_refl Hr) as (nb & l & E' & P & _).
  rewrite E in E'. injection E' as ->. exact P.
Qed.
Lemma mutual_mentioned (h : @heap XR) rates k : mutual_map h rates -> mentioned rates k -> exists r, In (k, r) rates.
Proof.
  intros Mm [X|(i & r & Hi & X)].
  - apply in_map_iff in X. destruct X as ([k' r] & E & Hr). cbn [fst] in E. subst k'. eauto.
  - destruct (proj2 (Mm i r Hi) k X) as (r' & Hr' & _). eauto.
Qed.
Lemma solid_init rates (g g' : @world XR G) ws : inv g ws -> solid g -> NoDup (ukeys rates) -> mutual_map (g_heap g) rates ->
  sys_initializeSystem clk rates g = Ret tt g' -> solid g'.
Proof.
  intros V So ND Mm E. pose proof So as [Hg Mu Hb Hl]. pose proof (proj1 Hg) as N1.
  destruct (init_all clk _ _ _ _ V ND E) as (Z & A & _ & C).
  pose proof (inv_initSystem clk rates g g' ws V E) as V'. pose proof (h_nds _ _ _ (v_shape _ _ V')) as N2.
  assert (D : forall k, mentioned rates k \/ ~ mentioned rates k).
  { intros k. destruct (in_dec Z.eq_dec k (ukeys rates)) as [X|X]; [left; left; exact X|right].
    intros Y. destruct (mutual_mentioned _ _ _ Mm Y) as [r Hr]. apply X. apply (in_map fst) in Hr. exact Hr. }
  assert (New : forall k, mentioned rates k -> ulookup k (g_sites g) = None).
  { intros k Hk. destruct (mutual_mentioned _ _ _ Mm Hk) as [r Hr]. apply (A k r Hr). }
  assert (Old : forall k s, ulookup k (g_sites g) = Some s -> ulookup k (g_sites g') = Some s).
  { intros k s Es. rewrite C; [exact Es|]. intros X. rewrite (New k X) in Es. discriminate. }
  assert (Hh : same_holds g g') by (apply (same_clusters clk), Z).
  rewrite <- (z_heap _ _ Z) in *. constructor.
  - split; [exact N2|]. intros k s Hk. apply In_ulookup in Hk; [|exact N2]. destruct (D k) as [Y|Y].
    + destruct (mutual_mentioned _ _ _ Mm Y) as [r Hr]. destruct (A k r Hr) as (_ & s' & Es & Ks). assert (s' = s) by congruence. subst s'.
      destruct (Mm k r Hr) as [Gr _]. pose proof (keyed_neigh _ _ _ _ Gr Ks) as P. destruct Gr as (_ & NDr & Pos). split.
      * eapply Permutation_NoDup; [apply Permutation_map, Permutation_sym, P|exact NDr].
      * intros n a Hn. apply (Pos n a). eapply Permutation_in; eauto.
    + rewrite C in Hk by exact Y. apply (proj2 Hg k s (ulookup_In _ _ _ Hk)).
  - intros i j r (s & a & Hs & Ha & Er). apply In_ulookup in Hs; [|exact N2]. destruct (D i) as [Y|Y].
    + destruct (mutual_mentioned _ _ _ Mm Y) as [ri Hri]. destruct (A i ri Hri) as (_ & s' & Es & Ks). assert (s' = s) by congruence. subst s'.
      destruct (Mm i ri Hri) as [Gr Back]. pose proof (keyed_neigh _ _ _ _ Gr Ks) as P.
      destruct (Back j) as (rj & Hrj & Hi). { apply (in_map fst) in Ha. eapply Permutation_in; [apply Permutation_map, P|exact Ha]. }
      destruct (A j rj Hrj) as (_ & s' & Es' & Ks'). destruct (Mm j rj Hrj) as [Gr' _]. pose proof (keyed_neigh _ _ _ _ Gr' Ks') as P'.
      apply in_map_iff in Hi. destruct Hi as ([i' a'] & Ei & Hi). cbn [fst] in Ei. subst i'. destruct (proj2 (proj2 Gr') i a' Hi) as (r' & Er' & _).
      exists r', s', a'. split; [apply ulookup_In, Es'|]. split; [eapply Permutation_in; [apply Permutation_sym, P'|exact Hi]|exact Er'].
    + rewrite C in Hs by exact Y. destruct (Mu i j r) as (r' & s' & a' & Hs' & Ha' & Er'); [exists s, a; split; [apply ulookup_In, Hs|auto]|].
      exists r', s', a'. split; [|auto]. apply ulookup_In, Old, In_ulookup; assumption.
  - intros c k Hk. apply Hh in Hk. destruct (Hb c k Hk) as (B & HB & T). exists B. split; [intros j; rewrite HB; symmetry; apply Hh|].
    eapply same_tight; [exact N1|exact N2| |exact T]. intros j Hj. apply HB in Hj. destruct Hj as [m Hm].
    destruct (h_mem _ _ _ (v_shape _ _ V) _ _ _ Hm) as (s & Es & _). rewrite Es, (Old _ _ Es). reflexivity.
  - intros k s Es Nu. destruct (D k) as [Y|Y].
    + exfalso. destruct (mutual_mentioned _ _ _ Mm Y) as [r Hr]. destruct (A k r Hr) as (_ & s' & Es' & (_ & (Bl & _) & _)). congruence.
    + rewrite C in Es by exact Y. apply Hh, Hl; assumption.
Qed.

(** ** Every valid history *)
Lemma ratio_half h tr : Forall (valid_call h) tr -> exists rho, ratio tr = Fin rho /\ 1 / 2 <= rho.
Proof.
  intros F. unfold ratio. assert (X : exists rho, @n1 XR = Fin rho /\ 1 / 2 <= rho) by (exists 1; split; [reflexivity|lra]).
  revert X. generalize (@n1 XR). induction F as [|c tr Hc F IH]; intros p X; [exact X|]. cbn [fold_left]. apply IH. destruct c; try exact X. exact Hc.
Qed.
Lemma resolution_fin h tr : Forall (valid_call h) tr -> forall t, resolution tr = Some t -> exists T, t = Fin T.
Proof.
  intros F. unfold resolution. assert (X : forall t : @num XR, None = Some t -> exists T, t = Fin T) by discriminate.
  revert X. generalize (@None (@num XR)). induction F as [|c tr Hc F IH]; intros p X; [exact X|]. cbn [fold_left]. apply IH. destruct c; try exact X.
  intros t' E. injection E as <-. exact Hc.
Qed.
Lemma hop_solid fuel id p (g g' : @world XR G) ws rho : inv g ws -> In p ws -> solid g -> g_perf g = Fin rho -> 1 / 2 <= rho ->
  (forall t, g_res g = Some t -> exists T, t = Fin T) -> sys_hop clk fuel id p g = Ret tt g' ->
  solid g' /\ exists g1, inv g1 ws /\ still g g1 /\ solid g1 /\
    ((g_sites g' = g_sites g1 /\ g_clusters g' = g_clusters g1) \/
     exists k B c, walker_to g p k /\ made g1 g' k B c /\ in_balance g1 (g_tick g1) B /\ tight (g_heap g1) (g_sites g1) B /\ forall j, holds g' c j <-> In j B).
Proof.
  intros V Hp So Ep Hr Ht E. destruct (hop_kept clk _ _ _ _ _ _ V Hp E) as (Kh & _ & _).
  assert (N2 : NoDup (ukeys (g_sites g'))) by (apply (v_shape g' ws); eapply step_inv; [exact V|eapply st_hop; eauto]).
  destruct (hop_made clk _ _ _ _ _ _ V Hp E) as (g1 & i & k & V1 & D & Hw & H1). cbv zeta in H1.
  pose proof (still_drift _ _ D) as S. pose proof (solid_still _ _ S So) as So1.
  destruct H1 as [(E1 & E2)|(g3 & B & c & -> & _ & Md & Bal & _)].
  - split; [apply (solid_still g1); [apply (still_same clk); [|exact E1|exact E2]|exact So1]|exists g1; auto 10].
    rewrite Kh. symmetry. apply S.
  - assert (Md' : made g1 (g_with_iter 0 (g_with_thr (g_thrmin g1) g3)) k B c) by (destruct Md; constructor; assumption).
    assert (exists T, g_res g1 = Some (Fin T)) as [T Et].
    { destruct Bal as (tc & t & _ & Et & _). 
      pose proof (k_res _ _ (m_kept _ _ D)) as K. cbn in K. rewrite Et in K. destruct (Ht t (eq_sym K)) as [T ->]. eauto. }
    assert (TB : tight (g_heap g1) (g_sites g1) B).
    { eapply made_tight; eauto. pose proof (k_perf _ _ (m_kept _ _ D)) as K. cbn in K. congruence. }
    destruct (solid_made _ _ _ _ _ (v_shape _ _ V1) So1 Md' (eq_trans Kh (eq_sym (l_heap _ _ S))) N2 TB) as (So' & Hc).
    split; [exact So'|]. exists g1. split; [exact V1|]. split; [exact S|]. split; [exact So1|]. right. exists k, B, c. auto.
Qed.
Theorem valid_solid tr (g : @world XR G) ws : reach_by clk tr g ws -> Forall (valid_call (g_heap g)) tr -> solid g.
Proof.
  intros (m & h & count & tick & ND & Hc & S).
  assert (V0 : inv (world_new m h count tick) []).
  { apply (reach_inv clk). exists [], m, h, count, tick. split; [exact ND|]. split; [exact Hc|constructor]. }
  induction S as [|tr g1 ws1 c g2 ws2 S IH St]; intros F.
  - constructor; [split; [constructor|intros k s []]|intros i j r (s & a & [] & _)|intros x k (y & cl & X & _); discriminate|intros k s X; discriminate].
  - pose proof (steps_inv clk _ _ _ _ _ V0 S) as V1. assert (R : reach_by clk tr g1 ws1) by (exists m, h, count, tick; auto).
    apply Forall_app in F. destruct F as [F Fc]. inversion Fc as [|? ? Hcc _]; subst.
    destruct (step_settings clk _ _ _ _ _ V1 St) as ([->|Kh] & _); [destruct Hcc|]. rewrite Kh in *. specialize (IH F).
    destruct (settings_kept clk _ _ _ R) as [Ep Er].
    destruct (is_hop c) eqn:Eh; [|destruct (is_init c) eqn:Ei; [|destruct (is_rates c) eqn:Ec]].
    + destruct c; try discriminate. apply step_hop in St. destruct St as (fuel & id & Hp & -> & E).
      destruct (ratio_half _ _ F) as (rho & Rr & Hr). eapply hop_solid; eauto; [congruence|]. intros t Et. eapply resolution_fin; [exact F|congruence].
    + destruct c; try discriminate. inversion St; subst. eapply solid_init; eauto.
    + destruct c; try discriminate. destruct Hcc.
    + eapply solid_still; [eapply step_still; eauto|exact IH].
Qed.
End Equil.
