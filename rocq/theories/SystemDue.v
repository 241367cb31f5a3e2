(** * Coarse graining happens when it is due *)
From Coq Require Import ZArith List Bool Reals Lra Lia Permutation Relations.
From Verif Require Import Base BaseProofs Num OrdLaws RSum WalkerModel SiteModel SiteSpec ClusterModel ContainerModel BasinModel BasinSpec BasinProofs
  CrossSpec CrossProofs SystemModel SystemSpec SystemShape SystemHop SystemCoarse SystemMerge SystemProofs SystemFacts SystemControl ValidSpec SystemEffect SystemEquil SystemLive DueSpec ClusterReal Fuel.
Import ListNotations.
Open Scope R_scope.

Section Due.
Context {I : Impl} {G : @Rng XR} {U : @Ugly XR}.
Variable clk : Z -> Z.

Lemma coarse_refused fuel k (g g' : @world XR G) : shape g -> coarse_grain clk fuel k g = Ret false g' ->
  exists ids, find_basin fuel (g_tick g) (g_heap g) explorer_new (g_sites g) (g_clusters g) k = Ok ids /\
    (~ in_balance g (g_tick g) ids \/ ids = [] \/
     exists c, c <> unassignedId /\ forall j, In j ids -> exists s, ulookup j (g_sites g) = Some s /\ s_cluster s = c).
Proof.
  intros Sh E. unfold coarse_grain in E. set (g1 := g_with_tick (g_tick g + 1) g).
  apply bind_ret_inv in E. destruct E as (nonce & g2 & E1 & E). inversion E1; subst nonce g2; clear E1. fold g1 in E.
  apply bind_ret_inv in E. destruct E as (x & g2 & E1 & E). inversion E1; subst x g2; clear E1.
  apply bind_ret_inv in E. destruct E as (ids & g2 & E1 & E). apply lift_ret in E1. destruct E1 as [E1 ->].
  exists ids. split; [exact E1|]. cbv zeta in *.
  apply bind_ret_inv in E. destruct E as (ok & g2 & E2 & E). pose proof (equilibrium_ret _ _ _ _ _ E2); subst g2.
  destruct ok.
  - right. apply bind_ret_inv in E. destruct E as (sac & g2 & E3 & E).
    assert (Sh1 : shape g1) by (apply (calm_shape clk g); [apply calm_tick|exact Sh]).
    destruct (clusters_of_inv ids [] g1 sac g2 Sh1 (NoDup_nil _) E3) as (-> & NDs & A1 & A2). cbn [ulookup] in A2.
    destruct (Nat.eqb_spec (count_clusters sac) 1) as [Ec|Nc]; cbn [negb andb] in E.
    + destruct sac as [|[k0 c0] l] eqn:El.
      * left. destruct ids as [|j l]; [reflexivity|]. destruct (A1 j (or_introl eq_refl)) as (s & _ & X). discriminate.
      * destruct (Z.eqb_spec c0 unassignedId) as [->|Nu].
        { apply bind_ret_inv in E. destruct E as (? & ? & _ & E). discriminate. }
        right. exists c0. split; [exact Nu|]. intros j Hj. destruct (A1 j Hj) as (s & Es & X). exists s. split; [exact Es|].
        rewrite <- El in *. apply (count_one clk sac k0 c0 Ec) with (k' := j); [rewrite El; left; reflexivity|apply ulookup_In, X].
    + apply bind_ret_inv in E. destruct E as (? & ? & _ & E). discriminate.
  - left. intros (tc & t & F1 & F2 & F3). cbv zeta in F3. destruct F3 as [F3 F4].
    unfold equilibrium, bind, gets in E2. cbn [g_heap g_sites g_perf g_res g_with_tick g1] in E2. rewrite F1 in E2. cbn [lift] in E2. unfold ret in E2.
    cbv zeta in E2. change (internal_limit (g_tick g) (g_heap g1) (g_sites g1) ids) with (internal_limit (g_tick g) (g_heap g) (g_sites g) ids) in E2.
    rewrite F3, F2, F4 in E2. discriminate.
Qed.

(** the converse of [balance_real] *)
Lemma real_balance (g : @world XR G) nonce B rho T L : good_sites (g_heap g) (g_sites g) -> NoDup B -> (forall k, In k B -> In k (ukeys (g_sites g))) ->
  joined (g_heap g) (g_sites g) B ->
  g_perf g = Fin rho -> g_res g = Some (Fin T) -> crossing (g_heap g) (g_sites g) B L -> 0 < leaving (g_heap g) (g_sites g) B ->
  2 * rho * L < 1 / leaving (g_heap g) (g_sites g) B -> 2 * L < T -> in_balance g nonce B.
Proof.
  intros Hg ND Hk J Ep Et Cr X0 B1 B2. destruct (limit_crossing _ _ Hg nonce B ND) as (L' & L0 & Cr' & _ & Lj). specialize (Lj J).
  rewrite (crossing_fun _ _ _ _ _ Cr' Cr) in Lj.
  exists (Fin (1 / leaving (g_heap g) (g_sites g) B)), (Fin T). split.
  { rewrite (exit_time_ok _ _ Hg B Hk). destruct (Req_EM_T (leaving (g_heap g) (g_sites g) B) 0); [lra|reflexivity]. }
  split; [exact Et|]. cbv zeta. rewrite Lj, Ep. change (@nmul XR (Fin L) (nofZ 2)) with (Fin (L * 2) : @num XR).
  change (@nmul XR (Fin (L * 2)) (Fin rho)) with (Fin (L * 2 * rho) : @num XR). split; apply Rltb_true; lra.
Qed.

(** the reference of a search *)
Lemma reference_of (g : @world XR G) ws k ref : inv g ws -> solid g -> fastest_off_of g k ref -> reference (g_heap g) (g_sites g) (g_clusters g) k ref.
Proof.
  intros V So H. pose proof (v_shape _ _ V) as Sh. pose proof (h_nds _ _ _ Sh) as N1. pose proof (h_ndc _ _ _ Sh) as N2.
  destruct H as [(Hc & Ht)|(c & Nc & Hc & Ht)]; apply cluster_of_iff in Hc; destruct Hc as (s & Es & Ec); exists s; (split; [apply ulookup_In, Es|]).
  - rewrite Ec. exact Ht.
  - destruct (h_site _ _ _ Sh k s Es) as [_ [X|X]]; [congruence|]. destruct (Z.ltb_spec (s_cluster s) 0); [lia|].
    assert (Hk : holds g c k) by (rewrite <- Ec; apply (o_label _ So k s Es); congruence).
    destruct Hk as (m & cl & Ecl & Em). exists cl. rewrite Ec. split; [apply ulookup_In, Ecl|].
    pose proof (cluster_mirror g c cl Sh Ecl) as [NDm Mi]. pose proof (o_good _ So) as Hg.
    assert (Hl : forall j, listed g c j <-> In j (ukeys (c_sites cl))).
    { intros j. rewrite listed_holds by exact N2. apply (cluster_keys g c cl j Ecl). }
    assert (Rb : forall i j x, rate_between (g_heap g) (c_sites cl) i j x <-> In i (ukeys (c_sites cl)) /\ rate_between (g_heap g) (g_sites g) i j x).
    { intros i j x. split.
      - intros (m' & a & Hin & Ha & Ex). apply (In_ulookup _ _ _ NDm) in Hin. destruct (Mi i m' Hin) as (s' & Es' & En).
        split; [eapply ulookup_In_key; exact Hin|]. exists s', a. split; [apply ulookup_In, Es'|]. split; [rewrite <- En; exact Ha|exact Ex].
      - intros (Hi & s' & a & Hin & Ha & Ex). apply ukeys_In in Hi. destruct Hi as [m' Em']. destruct (Mi i m' Em') as (s'' & Es'' & En).
        apply (In_ulookup _ _ _ N1) in Hin. assert (s'' = s') by congruence. subst s''. exists m', a. split; [apply ulookup_In, Em'|]. rewrite En. auto. }
    split.
    + split; [exact NDm|]. intros i m' Hin. apply (In_ulookup _ _ _ NDm) in Hin. destruct (Mi i m' Hin) as (s' & Es' & En).
      rewrite En. apply (proj2 Hg i s'), ulookup_In, Es'.
    + assert (Eq : forall x, (exists i j, rate_between (g_heap g) (c_sites cl) i j x /\ ~ In j (ukeys (c_sites cl))) <->
                             (exists i j, listed g c i /\ ~ listed g c j /\ rate_between (g_heap g) (g_sites g) i j x)).
      { intros x. split; intros (i & j & H1).
        - destruct H1 as [H1 H2]. apply Rb in H1. exists i, j. rewrite !Hl. tauto.
        - rewrite !Hl in H1. exists i, j. rewrite Rb. tauto. }
      destruct Ht as [[E0 No]|[H1 Up]]; [left|right].
      * split; [exact E0|]. intros x Y. apply (No x), Eq, Y.
      * split; [apply Eq, H1|]. intros x Y. apply Up, Eq, Y.
Qed.

(** the same rates, the same lists *)
Lemma off_still (g g' : @world XR G) ws k ref : inv g ws -> inv g' ws -> still g g' -> fastest_off_of g k ref -> fastest_off_of g' k ref.
Proof.
  intros V V' S. pose proof (h_nds _ _ _ (v_shape _ _ V)) as N1. pose proof (h_nds _ _ _ (v_shape _ _ V')) as N1'.
  pose proof (h_ndc _ _ _ (v_shape _ _ V)) as N2. pose proof (h_ndc _ _ _ (v_shape _ _ V')) as N2'.
  assert (Hc : forall c, cluster_of g k c -> cluster_of g' k c).
  { intros c. rewrite !cluster_of_iff. intros (s & Es & <-). pose proof (l_look _ _ S k) as X. rewrite Es in X.
    destruct (ulookup k (g_sites g')) as [s'|] eqn:Es'; [|discriminate]. cbn [option_map] in X. exists s'. split; [reflexivity|]. unfold look in X. congruence. }
  assert (Hr : forall i j x, rate_between (g_heap g) (g_sites g) i j x <-> rate_between (g_heap g') (g_sites g') i j x).
  { intros i j x. rewrite (l_heap _ _ S). symmetry. 
    apply (same_rate (g_heap g) (g_sites g) (g_sites g') [i] N1 N1'); [|left; reflexivity]. intros y _. apply look_neigh, S. }
  assert (Hl : forall c j, listed g c j <-> listed g' c j).
  { intros c j. rewrite !listed_holds by assumption. symmetry. apply (l_holds _ _ S). }
  intros [(X & Y)|(c & Nc & X & Y)]; [left|right; exists c; split; [exact Nc|]]; (split; [apply Hc, X|]);
    (destruct Y as [[E0 No]|[H1 Up]]; [left; split; [exact E0|] | right; split]).
  - intros x (j & Hj). apply (No x). exists j. apply Hr, Hj.
  - destruct H1 as (j & Hj). exists j. apply Hr, Hj.
  - intros x (j & Hj). apply Up. exists j. apply Hr, Hj.
  - intros x (i & j & A & B & C). apply (No x). exists i, j. rewrite Hl, Hl, Hr. auto.
  - destruct H1 as (i & j & A & B & C). exists i, j. rewrite <- Hl, <- Hl, <- Hr. auto.
  - intros x (i & j & A & B & C). apply Up. exists i, j. rewrite Hl, Hl, Hr. auto.
Qed.

Lemma basin_found fuel k ref nonce h (sites : umap (@site XR G)) clusters B : good_sites h sites -> NoDup (ukeys clusters) -> reference h sites clusters k ref ->
  find_basin fuel nonce h explorer_new sites clusters k = Ok B -> basin_is h sites k ref 5 B.
Proof.
  intros Hg Nc Hr E. destruct (search_ok h sites clusters k ref nonce 5 Hg Nc Hr) as (n & L & Bs & Fb).
  specialize (Fb (max n fuel) (95 / 100) (Nat.le_max_l _ _) ltac:(lra)). change (mkExplorer (Fin (95 / 100) : @num XR) 5) with (@explorer_new XR) in Fb.
  destruct (basin_lasting nonce h explorer_new sites clusters k fuel (max n fuel) (Nat.le_max_r _ _)) as [X|X]; cbv beta in X; [congruence|].
  assert (B = L) by congruence. subst. exact Bs.
Qed.

(** searches see rates only *)
Lemma basin_same h (sites sites' : umap (@site XR G)) k ref most B : NoDup (ukeys sites) -> NoDup (ukeys sites') ->
  (forall k, option_map s_neigh (ulookup k sites') = option_map s_neigh (ulookup k sites)) ->
  basin_is h sites k ref most B -> basin_is h sites' k ref most B.
Proof.
  intros N1 N2 Hs. assert (Rb : forall i j x, rate_between h sites' i j x <-> rate_between h sites i j x).
  { intros i j x. apply (same_rate h sites sites' [i] N1 N2); [|left; reflexivity]. intros y _. apply Hs. }
  assert (Re : forall L b, reached h sites L b k -> reached h sites' L b k).
  { intros L b R j Hj. eapply rt_mono; [|exact (R j Hj)]. intros x y (A & C & r & Hr & Le). split; [exact A|]. split; [exact C|]. exists r. rewrite Rb. auto. }
  assert (Rf : forall L, rates_from sites' L = rates_from sites L).
  { intros L. unfold rates_from. f_equal. induction L as [|x L IH]; [reflexivity|]. cbn [flat_map]. rewrite IH. f_equal. specialize (Hs x).
    destruct (ulookup x sites') as [s'|], (ulookup x sites) as [s|]; cbn [option_map] in Hs; try discriminate; [|reflexivity].
    unfold s_neighIds. congruence. }
  intros [(E & L & A & C & D & R)|(A & C & D & R & Cl)]; [left|right].
  - split; [exact E|]. exists L. rewrite Rf. auto 6.
  - split; [exact A|]. split; [exact C|]. split; [exact D|]. split; [apply Re, R|]. intros i j r Hi Hr Nj. apply (Cl i j r Hi); [apply Rb, Hr|exact Nj].
Qed.
Lemma basin_nice (g : @world XR G) k ref most B : solid g -> In k (ukeys (g_sites g)) -> basin_is (g_heap g) (g_sites g) k ref most B ->
  NoDup B /\ (forall j, In j B -> In j (ukeys (g_sites g))) /\ joined (g_heap g) (g_sites g) B.
Proof.
  intros So Hk [(-> & _)|(ND & HB & _ & R & _)].
  - split; [constructor|]. split; [intros j []|]. intros i j [].
  - pose proof (o_good _ So) as Hg. split; [exact ND|]. split.
    + intros j Hj. specialize (R j Hj). apply clos_rt_rtn1 in R. destruct R as [|y z (_ & _ & r & Hr & _) _]; [exact Hk|].
      destruct (o_mut _ So _ _ _ Hr) as (r' & s & a & Hs & _). apply (in_map fst) in Hs. exact Hs.
    + apply (joined_from _ _ B k (o_mut _ So)). apply reach_walk; [exact HB|exact Hg|].
      intros j Hj. eapply rt_mono; [|exact (R j Hj)]. intros x y (A & C & r & (s & a & Hs & Ha & _) & _). split; [exact A|]. split; [exact C|].
      exists s. split; [exact Hs|]. apply (in_map fst) in Ha. exact Ha.
Qed.

Lemma hop_due_more tr (g : @world XR G) ws fuel id p g' k ref rho T : reach_by clk tr g ws -> Forall (valid_call (g_heap g)) tr -> In p ws ->
  sys_hop clk fuel id p g = Ret tt g' -> walker_to g p k -> (g_thr g <= g_iter g)%Z -> g_thrmin g <> inf_iterations ->
  fastest_off_of g k ref -> ratio tr = Fin rho -> resolution tr = Some (Fin T) ->
  exists B, basin_is (g_heap g) (g_sites g) k ref 5 B /\ (forall x j, listed g' x j -> In j B \/ exists y, listed g y j) /\
    forall L, crossing (g_heap g) (g_sites g) B L -> 0 < leaving (g_heap g) (g_sites g) B ->
      2 * rho * L < 1 / leaving (g_heap g) (g_sites g) B -> 2 * L < T -> exists c, forall j, In j B -> listed g' c j.
Proof.
  intros R F Hp E Hw Hd Hm Ho Er Et.
  assert (V : inv g ws) by (apply (reach_inv clk); exists tr; exact R).
  pose proof (valid_solid clk _ _ _ R F) as So. destruct (settings_kept clk _ _ _ R) as [Ep Ere].
  assert (V' : inv g' ws) by (eapply step_inv; [exact V|eapply st_hop; eauto]).
  pose proof (h_ndc _ _ _ (v_shape _ _ V')) as N2'.
  apply hop_inv in E. destruct E as (w & g1 & Ew & _ & _ & E1 & E2).
  assert (k = w_pot w) by (destruct Hw as (w' & Ew' & <-); congruence). subst k. set (k := w_pot w) in *.
  destruct (move_step clk _ _ _ _ _ _ _ V Hp (ex_intro _ w (conj Ew eq_refl)) E1) as (V1 & D & Kp & _).
  pose proof (still_drift _ _ D) as S. pose proof (solid_still _ _ S So) as So1.
  pose proof (drift_counters _ _ D) as C. injection C as C1 C2 C3.
  apply attempt_inv in E2. rewrite C1, C2, C3 in E2. destruct E2 as (_ & [(X & _)|[(_ & X & _)|(_ & _ & b & g3 & E & _ & E3)]]); [lia|contradiction|].
  set (g2 := g_with_iter (g_iter g + 1) g1) in *.
  assert (V2 : inv g2 ws) by (apply (inv_config clk g1); try reflexivity; [apply V1|exact V1]).
  assert (S2 : still g g2) by (eapply still_trans; [exact S|apply (still_same clk); reflexivity]).
  assert (So2 : solid g2) by (apply (solid_still g); assumption).
  pose proof (reference_of g2 ws k ref V2 So2 (off_still _ _ _ _ _ V V2 S2 Ho)) as Rf.
  pose proof (o_good _ So2) as Hg2. pose proof (o_good _ So) as Hg.
  assert (Sm : forall B, same_on B (g_sites g2) (g_sites g)) by (intros B j _; symmetry; apply look_neigh, S2).
  assert (Eh : g_heap g2 = g_heap g) by apply S2.
  assert (Epf : g_perf g2 = Fin rho) by (rewrite <- Er, <- Ep; exact (k_perf _ _ (m_kept _ _ D))).
  assert (Ers : g_res g2 = Some (Fin T)) by (rewrite <- Et, <- Ere; exact (k_res _ _ (m_kept _ _ D))).
  assert (Hh3 : forall c j, listed g' c j <-> holds g3 c j) by (intros c j; rewrite listed_holds by exact N2'; rewrite E3; reflexivity).
  pose proof (h_nds _ _ _ (v_shape _ _ V2)) as N2. pose proof (h_nds _ _ _ (v_shape _ _ V)) as N1.
  assert (Hk : In k (ukeys (g_sites g2))).
  { change (g_sites g2) with (g_sites g1). rewrite (same_keys _ _ _ (m_sites _ _ D)). exact Kp. }
  assert (Fin : forall B, find_basin fuel (g_tick g2) (g_heap g2) explorer_new (g_sites g2) (g_clusters g2) k = Ok B ->
    basin_is (g_heap g) (g_sites g) k ref 5 B /\ NoDup B /\ (forall j, In j B -> In j (ukeys (g_sites g2))) /\ joined (g_heap g2) (g_sites g2) B).
  { intros B Eb. pose proof (basin_found _ _ _ _ _ _ _ _ Hg2 (h_ndc _ _ _ (v_shape _ _ V2)) Rf Eb) as Bs. split.
    - rewrite <- Eh. eapply basin_same; [exact N2|exact N1| |exact Bs]. intros j. symmetry. apply look_neigh, S2.
    - eapply basin_nice; eauto. }
  destruct b.
  - destruct (coarse_found clk _ _ _ _ (v_shape _ _ V2) E) as (B & c & Eb & Md & _). destruct (Fin B Eb) as (Bs & _).
    exists B. split; [exact Bs|]. split.
    { intros x j Hj. apply Hh3 in Hj. apply (d_holds _ _ _ _ _ Md) in Hj. destruct Hj as (_ & [Hj|(_ & [Hj|(x' & _ & Hj)])]); [right; exists x| left; exact Hj |right; exists x'];
        (rewrite listed_holds by apply (v_shape _ _ V); apply (l_holds _ _ S2), Hj). }
    intros L _ _ _ _. exists c. intros j Hj. apply Hh3. apply (d_holds _ _ _ _ _ Md). auto.
  - destruct (coarse_refused _ _ _ _ (v_shape _ _ V2) E) as (B & Eb & H1). exists B. destruct (Fin B Eb) as (Bs & NDB & KnB & J).
    assert (Eg : g3 = g_with_tick (g_tick g2 + 1) g2).
    { destruct (coarse_inv clk _ _ _ _ _ (v_shape _ _ V2) E) as (B' & _ & ok & _ & [[_ X]|(X & _)]); [exact X|discriminate]. }
    split; [exact Bs|]. split.
    { intros x j Hj. apply Hh3 in Hj. right. exists x. rewrite listed_holds by apply (v_shape _ _ V). apply (l_holds _ _ S2). rewrite Eg in Hj. exact Hj. }
    intros L Cr X0 B1 B2.
    destruct H1 as [No|[->|(c & Nc & Hc)]].
    + exfalso. apply No. rewrite (same_leaving (g_heap g) _ _ B (Sm B)) in X0, B1. rewrite <- Eh in X0, B1.
      apply (real_balance g2 _ B rho T L Hg2 NDB KnB J Epf Ers); try assumption.
      rewrite Eh. apply (same_crossing (g_heap g) (g_sites g) (g_sites g2) B N1 N2); [|exact Cr]. intros j _. apply look_neigh, S2.
    + exists 0%Z. intros j [].
    + exists c. intros j Hj. apply Hh3. destruct (Hc j Hj) as (s & Es & <-). rewrite Eg. exact (o_label _ So2 j s Es Nc).
Qed.

Lemma hop_due tr (g : @world XR G) ws fuel id p g' k ref rho T : reach_by clk tr g ws -> Forall (valid_call (g_heap g)) tr -> In p ws ->
  sys_hop clk fuel id p g = Ret tt g' -> walker_to g p k -> (g_thr g <= g_iter g)%Z -> g_thrmin g <> inf_iterations ->
  fastest_off_of g k ref -> ratio tr = Fin rho -> resolution tr = Some (Fin T) ->
  exists B, basin_is (g_heap g) (g_sites g) k ref 5 B /\
    forall L, crossing (g_heap g) (g_sites g) B L -> 0 < leaving (g_heap g) (g_sites g) B ->
      2 * rho * L < 1 / leaving (g_heap g) (g_sites g) B -> 2 * L < T -> exists c, forall j, In j B -> listed g' c j.
Proof.
  intros R F Hp E Hw Hd Hm Ho Er Et. destruct (hop_due_more _ _ _ _ _ _ _ _ _ _ _ R F Hp E Hw Hd Hm Ho Er Et) as (B & Bs & _ & H). exists B. auto.
Qed.

(** with a threshold of 0 every hop is followed by an attempt *)
Lemma zero_due tr (g : @world XR G) ws : reach_by clk tr g ws -> min_thr tr = 0%Z -> (g_thr g <= g_iter g)%Z /\ g_thrmin g <> inf_iterations.
Proof.
  intros R E0. pose proof (min_kept clk _ _ _ R) as Em. rewrite E0 in Em.
  assert (X : (0 <= g_iter g)%Z /\ (g_thrmin g = 0 -> g_thr g = 0)%Z).
  { clear E0 Em. destruct R as (m & h & count & tick & ND & Hc & S).
    assert (V0 : inv (world_new m h count tick) []).
    { apply (reach_inv clk). exists [], m, h, count, tick. split; [exact ND|]. split; [exact Hc|constructor]. }
    induction S as [|tr g1 ws1 c g2 ws2 S IH St]; [cbn; lia|]. pose proof (steps_inv clk _ _ _ _ _ V0 S) as V1.
    destruct (is_hop c) eqn:Eh.
    - destruct c; try discriminate. apply step_hop in St. destruct St as (fuel & id & Hp & -> & E).
      destruct (hop_counts clk _ _ _ _ _ _ V1 Hp E) as (_ & Ft & H1). destruct H1 as [H1|[H1|H1]]; lia.
    - destruct (is_thr c) eqn:Et.
      + destruct c; try discriminate. inversion St; subst. match goal with X : sys_setThreshold _ _ = _ |- _ => inversion X end. cbn. lia.
      + destruct (quiet_step clk _ _ _ _ _ V1 St Eh Et) as [C _]. injection C as C1 C2 C3. rewrite C1, C2, C3. exact IH. }
  destruct X as [X Y]. rewrite Y by exact Em. split; [exact X|]. rewrite Em. discriminate.
Qed.
End Due.
