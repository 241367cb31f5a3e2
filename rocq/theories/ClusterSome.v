(** * Updating a cluster some of whose members have no internal rate *)
(** While clusters are merged the update runs on sets of members that need not
    be connected.  It returns as soon as one rate stays inside. *)
From Coq Require Import ZArith List Bool Reals Lra Lia Permutation Relations.
From Verif Require Import Base BaseProofs Num OrdLaws RSum SiteModel SiteSpec SiteProofs
  ClusterModel ClusterSpec ClusterFrame ClusterHist ClusterOps MasterEq ClusterReal ClusterTables ClusterUpdate ClusterProofs.
Import ListNotations.
Open Scope R_scope.

Section Some.
Context {I : Impl} {G : @Rng XR}.
Variables (h : @heap XR) (sites : umap (@site XR G)) (P : Z -> R) (Kp : list Z).
Hypothesis Hm : members_ok h sites.
Hypothesis HD : dist (ukeys sites) P.
Hypothesis HKp : Permutation Kp (ukeys sites).
Hypothesis Hlk : has_link sites.
Hypothesis Hex : has_exit sites.
Notation K := (ukeys sites).
Notation Ki := (ukeys (int_rates h sites)).
Notation pon := (tab P Kp).

Lemma int_out k : In k K -> ~ In k Ki -> minner h sites k = 0.
Proof.
  destruct (rates_where_spec h sites Hm (fun k => umem k sites)) as (A & B & C). fold (int_rates h sites) in *.
  intros Hk Hn. destruct (keys_In sites k Hk) as [s Hin]. rewrite (minner_in h sites Hm k s Hin). unfold inner_rate.
  transitivity (Rsum (fun _ => 0) (s_neigh s)); [|apply Rsum_zero]. apply Rsum_ext. intros [n a] Hna. cbn [fst snd].
  destruct (umem n sites) eqn:E; [|reflexivity]. exfalso. apply Hn. apply B. exists s, n.
  split; [exact Hin|]. split; [apply (in_map fst) in Hna; exact Hna|]. exact E.
Qed.
Lemma int_ex : exists k, In k Ki.
Proof.
  destruct (rates_where_spec h sites Hm (fun k => umem k sites)) as (A & B & C). fold (int_rates h sites) in *.
  destruct Hlk as (i & k & s & Hin & Hn & Hk). exists i. apply B. exists s, k. split; [exact Hin|]. split; [exact Hn|].
  apply umem_In. exact Hk.
Qed.

Lemma SI_some : 0 < SI h sites P.
Proof.
  destruct (int_keys h sites Hm) as (A & B & C & D & E). destruct int_ex as [k Hk].
  apply Rsum_pos_ex with (x := k); [|apply B; exact Hk|].
  - intros j Hj. repeat apply Rmult_le_pos; [left; apply HD; exact Hj | apply minner_nonneg; exact Hm | left; apply mtau_pos; auto].
  - apply Rmult_lt_0_compat; [apply HD, B; exact Hk|]. apply Rmult_lt_0_compat; [apply D; exact Hk | apply mtau_pos; auto].
Qed.

Lemma sumInt_some c : exists m, c_calcSumInt h c = Ret tt (c_with_sumint m c).
Proof. unfold c_calcSumInt. rewrite modify_eq. eauto. Qed.

Definition wsome (k : Z) : R := if in_dec Z.eq_dec k Ki then woff h sites P k / SI h sites P else woff h sites P k.

Lemma hopBetween_some c K3 : c_sites c = sites -> c_pon c = pon -> c_hopoff c = tab (woff h sites P) K3 -> Permutation K3 K ->
  (2 <= length sites)%nat ->
  exists K4 m, Permutation K4 K /\
    c_calcHopBetween h c = Ret tt (c_with_hopoff (tab wsome K4) (c_with_hopbet m c)).
Proof.
  intros Es Ep Eo P3 Hlen. destruct (int_keys h sites Hm) as (A & B & C & D & E).
  pose proof SI_some as HSI.
  unfold c_calcHopBetween, bind, gets. rewrite Es, Ep. unfold cassert, c_size. rewrite Es.
  replace (1 <? Z.of_nat (length sites))%Z with true by (symmetry; apply Z.ltb_lt; lia). unfold ret.
  set (g := fun k => minner h sites k * mtau h sites k * P k).
  assert (Raw : forall l, (forall e, In e l -> In e (int_rates h sites)) ->
     hopbet_raw sites pon l = Ok (tab g (ukeys l))).
  { induction l as [|[k r] l IH]; intros Hl; [reflexivity|]. cbn [hopbet_raw fst snd].
    assert (Hin : In (k, r) (int_rates h sites)) by (apply Hl; simpl; auto).
    assert (Hk : In k K) by (apply B; apply (in_map fst) in Hin; exact Hin).
    rewrite (tau_of_val h sites Hm k Hk). cbn [rbind]. rewrite IH by (intros; apply Hl; simpl; auto). cbn [rbind].
    rewrite (tab_get P Kp k) by (eapply Permutation_in; [symmetry; exact HKp | exact Hk]).
    destruct (E k r Hin) as [_ Hr]. unfold sum_snd. rewrite n0_XR, (Hr 0). cbn [ukeys map fst tab].
    unfold tab. do 3 f_equal. cbn [nmul XR xmul]. unfold g. f_equal. lra. }
  rewrite (Raw (int_rates h sites)) by auto. unfold lift. rewrite modify_eq, Eo, tab_sum.
  assert (ES : Rsum g Ki = SI h sites P).
  { unfold SI. transitivity (Rsum (fun k => if in_dec Z.eq_dec k K then g k else 0) Ki).
    - apply Rsum_ext. intros k Hk. destruct (in_dec _ _ _) as [|n]; [reflexivity | destruct n; auto].
    - rewrite Rsum_inter; [| exact A | apply Hm]. apply Rsum_ext. intros k Hk. unfold g.
      destruct (in_dec _ _ _) as [|n]; [ring | rewrite (int_out k Hk n); ring]. }
  rewrite ES. destruct (umap_of_tab g Ki A) as (K5 & E5 & P5). rewrite E5.
  assert (N5 : NoDup (map fst (tab g K5))).
  { change (NoDup (ukeys (tab g K5))). rewrite tab_keys. eapply Permutation_NoDup; [symmetry; exact P5 | exact A]. }
  assert (N3 : NoDup (ukeys (tab (woff h sites P) K3))) by (rewrite tab_keys; eapply Permutation_NoDup; [symmetry; exact P3 | apply Hm]).
  destruct (fold_update (n0 : xn) (fun v => ndiv v (Fin (SI h sites P))) (tab g K5) (tab (woff h sites P) K3) N3 N5) as (A' & B' & C' & D').
  match type of A' with NoDup (ukeys ?m) => set (m' := m) in * end.
  assert (KM : forall k, In k (ukeys m') <-> In k K).
  { intros k. rewrite B'. change (map fst (tab g K5)) with (ukeys (tab g K5)). rewrite !tab_keys. split.
    - intros [X|X]; [apply B; eapply Permutation_in; [exact P5 | exact X] | eapply Permutation_in; [exact P3 | exact X]].
    - intros X. right. eapply Permutation_in; [symmetry; exact P3 | exact X]. }
  exists (ukeys m'). eexists. split; [apply NoDup_Permutation; [exact A' | apply Hm | exact KM]|]. do 2 f_equal.
  apply tab_eq. intros [k v] Hin. cbn [fst snd].
  assert (Hk : In k K) by (apply KM; apply (in_map fst) in Hin; exact Hin).
  pose proof (In_ulookup k v m' A' Hin) as E1.
  assert (Hk3 : In k K3) by (eapply Permutation_in; [symmetry; exact P3 | exact Hk]).
  unfold wsome. destruct (in_dec Z.eq_dec k Ki) as [Hi|Hi].
  - rewrite C' in E1.
    + assert (Ev : v = ndiv (uget (n0 : xn) k (tab (woff h sites P) K3)) (Fin (SI h sites P))) by congruence. rewrite Ev.
      rewrite (tab_get (woff h sites P) K3 k Hk3). apply xdiv_Fin. lra.
    + change (In k (ukeys (tab g K5))). rewrite tab_keys. eapply Permutation_in; [symmetry; exact P5 | exact Hi].
  - rewrite D' in E1.
    + pose proof (tab_get (woff h sites P) K3 k Hk3) as T. unfold uget in T. rewrite E1 in T. exact T.
    + change (~ In k (ukeys (tab g K5))). rewrite tab_keys. intros X. apply Hi. eapply Permutation_in; [exact P5 | exact X].
Qed.

Definition TAUS : R := Rsum (fun k => if Rltb 0 (moff h sites k) then / moff h sites k * wsome k else 0) K.

Lemma tau_some c K2 K4 : c_sites c = sites -> c_sumoff c = tab (moff h sites) K2 ->
  Permutation K2 (ukeys (ext_rates h sites)) -> c_hopoff c = tab wsome K4 -> Permutation K4 K ->
  c_calcTau h c = Ret tt (c_with_inc (ndiv (Fin TAUS) (c_res c)) (c_with_tau (Fin TAUS) c)).
Proof.
  intros Es Eo P2 Eh P4. unfold c_calcTau. rewrite modify_eq, Es, Eo, Eh.
  pose proof (has_exit_ext h sites Hm Hex) as Hne. destruct (ext_rates h sites) as [|e0 r0] eqn:Ee; [congruence|].
  rewrite <- Ee in P2.
  rewrite mean_inverse_val.
  - rewrite (Rsum_perm _ K4 K P4). reflexivity.
  - intros k Hk. apply (sumoff_get h sites Hm); [exact P2 | eapply Permutation_in; eauto].
Qed.

Lemma wsome_ge k : In k K -> woff h sites P k <= wsome k.
Proof.
  intros Hk. pose proof (woff_nonneg h sites P Hm HD Hex k Hk) as Hw. pose proof SI_some as S0. pose proof (SI_le1 h sites P Hm HD) as S1.
  unfold wsome. destruct (in_dec _ _ _); [|lra]. unfold Rdiv. rewrite <- (Rmult_1_r (woff h sites P k)) at 1.
  apply Rmult_le_compat_l; [exact Hw|]. rewrite <- Rinv_1. apply Rinv_le_contravar; lra.
Qed.

Lemma TAUS_lower m : (forall k, In k K -> 0 < moff h sites k -> m <= / moff h sites k) -> m <= TAUS.
Proof.
  intros Hb. pose proof (woff_sum h sites P Hm HD Hex) as W.
  rewrite <- (Rmult_1_r m), <- W, <- Rsum_scal. apply Rsum_le. intros k Hk.
  pose proof (woff_nonneg h sites P Hm HD Hex k Hk) as Hw. pose proof (wsome_ge k Hk) as Hg.
  destruct (Rltb 0 (moff h sites k)) eqn:Eo.
  - apply Rltb_true in Eo. eapply Rle_trans; [apply Rmult_le_compat_r; [exact Hw | exact (Hb k Hk Eo)]|].
    apply Rmult_le_compat_l; [left; apply Rinv_0_lt_compat; exact Eo | exact Hg].
  - apply Rltb_false in Eo. pose proof (moff_nonneg h sites Hm k). unfold woff.
    replace (moff h sites k) with 0 by lra. unfold Rdiv. rewrite Rmult_0_r, !Rmult_0_l. lra.
Qed.
Lemma TAUS_pos : 0 < TAUS.
Proof.
  destruct (has_exit_off h sites Hm Hex) as (k & Hk & Ho).
  apply Rsum_pos_ex with (x := k); [|exact Hk|].
  - intros j Hj. destruct (Rltb 0 (moff h sites j)) eqn:E; [|lra]. apply Rltb_true in E.
    apply Rmult_le_pos; [left; apply Rinv_0_lt_compat; exact E|].
    pose proof (woff_nonneg h sites P Hm HD Hex j Hj). pose proof (wsome_ge j Hj). lra.
  - replace (Rltb 0 (moff h sites k)) with true by (symmetry; apply Rltb_true; exact Ho).
    apply Rmult_lt_0_compat; [apply Rinv_0_lt_compat; exact Ho|]. eapply Rlt_le_trans; [|apply wsome_ge; exact Hk].
    pose proof (WO_pos h sites P Hm HD Hex). unfold woff. apply Rdiv_lt_0_compat; [|assumption].
    repeat apply Rmult_lt_0_compat; [apply HD; exact Hk | exact Ho | apply mtau_pos; auto].
Qed.

Lemma dwell_some c : c_sites c = sites -> NoDup (ukeys (c_idwell c)) ->
  exists m, c_calcInternalDwell h c = Ret tt (c_with_idwell m c) /\ NoDup (ukeys m) /\
    forall k, In k Ki -> ulookup k m = Some (Fin (/ minner h sites k) : xn).
Proof.
  intros Es ND. destruct (int_keys h sites Hm) as (A & B & C & D & E).
  unfold c_calcInternalDwell. rewrite modify_eq, Es. eexists. split; [reflexivity|].
  destruct (fold_uset_spec (fun e : Z * umap xn => ndiv n1 (@sum_snd XR (snd e))) (int_rates h sites) (c_idwell c) ND A) as (A' & B' & C').
  split; [exact A'|]. intros k Hki. pose proof (D k Hki) as Hp. apply in_map_iff in Hki. destruct Hki as ([k' l] & E1 & Hin).
  cbn [fst] in E1. subst k'. refine (eq_trans (B' _ Hin) _). cbn [snd]. destruct (E k l Hin) as [_ Hs].
  unfold sum_snd. rewrite n0_XR, (Hs 0), n1_XR. rewrite xdiv_Fin.
  - do 2 f_equal. rewrite Rplus_0_l. unfold Rdiv. lra.
  - rewrite Rplus_0_l. apply Rgt_not_eq, Hp.
Qed.
End Some.

Section Weak.
Context {I : Impl} {G : @Rng XR}.
Implicit Types (c : @cluster XR G).

(** the members an update can cope with *)
Record firm (h : @heap XR) c : Prop := {
  fi_members : members_ok h (c_sites c);
  fi_mutual : mutual (c_sites c);
  fi_link : has_link (c_sites c);
  fi_exit : has_exit (c_sites c);
  fi_two : (2 <= length (c_sites c))%nat }.
Lemma sound_firm h c : sound h c -> firm h c.
Proof.
  intros [A B C D E]. constructor; try assumption. apply linked_has; [|exact C].
  intros X. rewrite X in E. simpl in E. lia.
Qed.

(** what is known after an update *)
Record renewed (h : @heap XR) (c c' : @cluster XR G) (P : Z -> R) : Prop := {
  rn_core : same_core c c';
  rn_dist : dist (c_siteIds c) P;
  rn_pon : exists Kp, Permutation Kp (c_siteIds c) /\ c_pon c' = tab P Kp;
  rn_int : exists K1, Permutation K1 (c_siteIds c) /\ c_pint c' = tab (wint h (c_sites c) P) K1;
  rn_cint : c_cint c' = c_cint c ++ cumulate n0 (c_pint c');
  rn_nbr : exists K2, NoDup K2 /\ (forall n, In n K2 <-> outside (c_sites c) n) /\
     c_pnbr c' = tab (fun n => wexit h (c_sites c) P n / Rsum (wexit h (c_sites c) P) K2) K2;
  rn_cnbr : c_cnbr c' = c_cnbr c ++ cumulate n0 (c_pnbr c');
  rn_tau : c_tau c' = Fin (TAUS h (c_sites c) P);
  rn_inc : c_inc c' = ndiv (Fin (TAUS h (c_sites c) P)) (c_res c);
  rn_idwell : NoDup (ukeys (c_idwell c')) /\
     forall k, In k (ukeys (int_rates h (c_sites c))) -> ulookup k (c_idwell c') = Some (Fin (/ minner h (c_sites c) k)) }.

Lemma recalc_some fuel h c : firm h c -> tidy c ->
  (exists P c', recalc fuel h c = Ret tt c' /\ renewed h c c' P /\ c_svisits c' = c_svisits c /\ c_prev c' = c_prev c) \/
  (c_method c = ByTolerance /\ recalc fuel h c = Halt Diverged /\
   solve_pon fuel (c_method c) (c_iters c) (c_tol c) (c_sites c) (c_pon c) = Bad Diverged).
Proof.
  intros [Hm Hmut Hlk Hex H2] [T1 T2 T3].
  assert (Hne : c_sites c <> []) by (destruct (c_sites c); [simpl in H2; lia | discriminate]).
  destruct (solve_val h (c_sites c) fuel (c_method c) (c_iters c) (c_tol c) (c_pon c) Hm Hmut Hne Hlk T1 T2)
    as [(pon & P & Es & HP & HD & HK)|[Em Es]].
  - left.
    assert (Ep : exists Kp, Permutation Kp (ukeys (c_sites c)) /\ pon = tab P Kp).
    { exists (ukeys pon). destruct HP as [NP HP]. split.
      - apply NoDup_Permutation; [exact NP | apply Hm | exact HK].
      - apply tab_eq. intros [k v] Hin. cbn [fst snd].
        assert (Hk : In k (ukeys (c_sites c))) by (apply HK; apply (in_map fst) in Hin; exact Hin).
        pose proof (In_ulookup k v pon NP Hin) as E. rewrite (HP k Hk) in E. congruence. }
    destruct Ep as (Kp & HKp & ->).
    assert (KNE : ukeys (c_sites c) <> []) by (destruct (c_sites c); [congruence | discriminate]).
    set (sites := c_sites c) in *.
    set (c1 := c_with_pon (tab P Kp) c).
    destruct (calcHopToInternal_val h sites P Kp Hm HD HKp c1 eq_refl eq_refl KNE) as (K1 & PK1 & E1).
    set (c2 := c_with_cint (c_cint c1 ++ cumulate n0 (tab (wint h sites P) K1)) (c_with_pint (tab (wint h sites P) K1) c1)) in *.
    destruct (calcHopToNeighbors_val h sites P Kp Hm HD HKp c2 eq_refl eq_refl) as (K2 & N2 & O2 & E2). cbn zeta in E2.
    set (f2 := fun n => wexit h sites P n / Rsum (wexit h sites P) K2) in *.
    set (c3 := c_with_cnbr (c_cnbr c2 ++ cumulate n0 (tab f2 K2)) (c_with_pnbr (tab f2 K2) c2)) in *.
    destruct (dwell_some h sites Hm c3 eq_refl T3) as (dw & E3 & Ndw & Vdw).
    set (c4 := c_with_idwell dw c3) in *.
    destruct (calcSumOff_val h sites Hm c4 eq_refl) as (K3 & PK3 & E4).
    set (c5 := c_with_sumoff (tab (moff h sites) K3) c4) in *.
    destruct (sumInt_some h c5) as (si & E5).
    set (c6 := c_with_sumint si c5) in *.
    destruct (calcHopOff_val h sites P Kp Hm HD HKp Hex c6 K3 eq_refl eq_refl eq_refl PK3 H2) as (K7 & PK7 & E6).
    set (c7 := c_with_hopoff (tab (woff h sites P) K7) c6) in *.
    destruct (hopBetween_some h sites P Kp Hm HD HKp Hlk c7 K7 eq_refl eq_refl eq_refl PK7 H2) as (K8 & hb & PK8 & E7).
    match type of E7 with _ = Ret tt ?x => set (c8 := x) in * end.
    pose proof (tau_some h sites P Hm Hex c8 K3 K8 eq_refl eq_refl PK3 eq_refl PK8) as E8.
    match type of E8 with _ = Ret tt ?x => set (c9 := x) in * end.
    destruct (calcITau_val h c9) as (v & E9).
    exists P, (c_with_itau v c9). split.
    + unfold recalc, c_solve, bind, gets. fold sites. rewrite Es. unfold lift at 1. rewrite modify_eq. fold c1.
      rewrite E1, E2, E3, E4, E5, E6, E7, E8, E9. reflexivity.
    + split; [|split; reflexivity]. constructor.
      * constructor; reflexivity.
      * exact HD.
      * exists Kp. split; [exact HKp | reflexivity].
      * exists K1. split; [exact PK1 | reflexivity].
      * reflexivity.
      * exists K2. split; [exact N2|]. split; [exact O2 | reflexivity].
      * reflexivity.
      * reflexivity.
      * reflexivity.
      * split; [exact Ndw | exact Vdw].
  - right. split; [exact Em|]. split; [|exact Es]. unfold recalc, c_solve, bind, gets. rewrite Es. reflexivity.
Qed.

Lemma moderate_above h c P : firm h c -> dist (c_siteIds c) P -> rates_moderate h c -> dbl_min < TAUS h (c_sites c) P.
Proof.
  intros [Hm Hmut Hlk Hex H2] HD Hr. pose proof dbl_min_pos as Hp.
  assert (exists m, dbl_min < m /\ forall k, In k (c_siteIds c) -> 0 < moff h (c_sites c) k -> m <= / moff h (c_sites c) k) as (m & Hmm & Hmk).
  { unfold rates_moderate in Hr. revert Hr. generalize (c_siteIds c). induction l as [|k l IH]; intros Hr.
    - exists (dbl_min + 1). split; [lra | intros ? []].
    - destruct IH as (m & A & B); [intros; apply Hr; simpl; auto|].
      destruct (Rlt_le_dec 0 (moff h (c_sites c) k)) as [Ho|Ho].
      + assert (dbl_min < / moff h (c_sites c) k).
        { rewrite <- (Rinv_inv dbl_min). apply Rinv_lt_contravar; [|apply Hr; simpl; auto].
          apply Rmult_lt_0_compat; [exact Ho | apply Rinv_0_lt_compat; exact Hp]. }
        exists (Rmin m (/ moff h (c_sites c) k)). split; [apply Rmin_glb_lt; assumption|].
        intros j [<-|Hj] Hoj; [apply Rmin_r|]. eapply Rle_trans; [apply Rmin_l | auto].
      + exists m. split; [exact A|]. intros j [<-|Hj] Hoj; [lra | auto]. }
  eapply Rlt_le_trans; [exact Hmm|]. exact (TAUS_lower h (c_sites c) P Hm HD Hlk Hex m Hmk).
Qed.

Lemma update_some fuel h c saved c1 : firm h c -> tidy c -> rates_moderate h c ->
  c_visitList (ukeys (c_svisits c)) c = Ret saved c1 ->
  (exists P c', c_update fuel h c = Ret tt c' /\ renewed h c c' P /\
     NoDup (ukeys (c_svisits c')) /\ (forall k, In k (ukeys (c_svisits c')) <-> In k (c_siteIds c)) /\
     (forall k, In k (c_siteIds c) ->
        ulookup k (c_svisits c') = Some (Fin (IZR (uget 0%Z k saved)))) /\ c_prev c' = c_prev c1) \/
  (c_method c = ByTolerance /\ c_update fuel h c = Halt Diverged /\
   solve_pon fuel (c_method c) (c_iters c) (c_tol c) (c_sites c) (c_pon c) = Bad Diverged).
Proof.
  intros So Ti Hr Ev. rewrite update_split, Ev.
  destruct (visitList_shape _ _ _ _ Ev) as (Ek & sv & pv & ->).
  set (c1 := c_with_prev pv (c_with_svisits sv c)) in *.
  assert (So1 : firm h c1) by (destruct So; constructor; assumption).
  assert (Ti1 : tidy c1) by (destruct Ti; constructor; assumption).
  destruct (recalc_some fuel h c1 So1 Ti1) as [(P & c2 & E & S & _ & Epv)|(Em & E & Es)].
  - left. rewrite E. destruct S as [Sc Sd Sp Si Sci Sn Scn St Sinc Sdw].
    assert (Es : c_sites c2 = c_sites c) by (destruct Sc; assumption).
    destruct (refill_run saved (c_siteIds c2) (c_with_svisits [] c2)) as (sv2 & E2 & N2 & K2 & L2 & O2).
    { constructor. }
    { right. cbn [c_tau c_with_svisits]. rewrite St.
      cbn [neqb XR xeqb unassigned_value ndblmin]. unfold Reqb. destruct (Req_EM_T _ _) as [X|]; [|reflexivity].
      pose proof (moderate_above h c P So Sd Hr). cbn [c1 c_sites c_with_prev c_with_svisits] in X. lra. }
    { unfold c_siteIds. rewrite Es. apply So. }
    rewrite E2. unfold c_siteIds in K2, L2. rewrite Es in K2, L2.
    destruct So as [Hm Hmut Hlk Hex H2].
    destruct (dwell_some h (c_sites c) Hm (c_with_svisits sv2 (c_with_svisits [] c2)) Es (proj1 Sdw)) as (dw & E3 & Ndw & Vdw).
    eexists P, _. split; [exact E3|]. split; [|split; [|split; [|split]]].
    + constructor; try assumption; [destruct Sc; constructor; assumption|]. split; [exact Ndw | exact Vdw].
    + exact N2.
    + intros k. cbn [c_svisits c_with_svisits c_with_idwell ukeys map In] in *. rewrite K2. unfold c_siteIds. tauto.
    + intros k Hk. cbn [c_svisits c_with_svisits c_with_idwell]. refine (eq_trans (L2 k Hk) _). unfold uget.
      destruct (ulookup k saved); reflexivity.
    + exact Epv.
  - right. rewrite E. auto.
Qed.

(** an update ends *)
Lemma update_ends h c saved c1 : tidy c -> firm h c -> rates_moderate h c ->
  c_visitList (ukeys (c_svisits c)) c = Ret saved c1 ->
  (c_method c = ByTolerance -> exists tol, c_tol c = Fin tol /\ 0 < tol) ->
  exists n, forall fuel, (n < fuel)%nat -> exists P c', c_update fuel h c = Ret tt c' /\ renewed h c c' P /\
     NoDup (ukeys (c_svisits c')) /\ (forall k, In k (ukeys (c_svisits c')) <-> In k (c_siteIds c)) /\
     (forall k, In k (c_siteIds c) ->
        ulookup k (c_svisits c') = Some (Fin (IZR (uget 0%Z k saved)))) /\ c_prev c' = c_prev c1.
Proof.
  intros Hb So Hr Ev Ht.
  assert (Hn : exists n, forall fuel, (n < fuel)%nat -> c_method c = ByTolerance -> c_update fuel h c <> Halt Diverged).
  { destruct (c_method c) eqn:Em; [exists O; intros; discriminate | exists O; intros; discriminate |].
    destruct (Ht eq_refl) as (tol & Et & Htp).
    destruct (tidy_stops h c tol Hb (fi_members _ _ So) (fi_mutual _ _ So) (fi_link _ _ So) Et Htp) as [n Hn]. exists n. auto. }
  destruct Hn as [n Hn]. exists n. intros fuel Hf.
  destruct (update_some fuel h c saved c1 So Hb Hr Ev) as [X|(Em & E & _)]; [exact X|].
  destruct (Hn fuel Hf Em E).
Qed.

(** C28 *)
Lemma update_returns h c : built c -> firm h c -> rates_moderate h c ->
  (forall k, In k (ukeys (c_svisits c)) -> exists z c2, c_getVisits k c = Ret z c2) ->
  (c_method c = ByTolerance -> exists tol, c_tol c = Fin tol /\ 0 < tol) ->
  exists n, forall fuel, (n < fuel)%nat -> exists c', c_update fuel h c = Ret tt c'.
Proof.
  intros Hb So Hr Hv Ht. destruct (visitList_ok _ _ Hv) as (saved & c1 & Ev & _).
  destruct (update_ends h c saved c1 (built_tidy c Hb) So Hr Ev Ht) as [n Hn]. exists n. intros fuel Hf.
  destruct (Hn fuel Hf) as (P & c' & E & _). eauto.
Qed.
End Weak.
