(** * Picks from a cluster *)
From Coq Require Import ZArith List Bool Reals Lra Lia Permutation Relations.
From Verif Require Import Base BaseProofs Num OrdLaws RSum SiteModel SiteSpec SiteProofs
  ClusterModel ClusterSpec ClusterFrame ClusterHist ClusterOps ClusterStay MasterEq ClusterReal ClusterTables ClusterUpdate ClusterProofs.
Import ListNotations.
Open Scope R_scope.

Section Pick.
Context {I : Impl} {G : @Rng XR}.
Implicit Types (c : @cluster XR G).

Lemma moves_tables c c' : moves c c' -> c_cint c' = c_cint c /\ c_cnbr c' = c_cnbr c.
Proof.
  induction 1 as [|w d a b c S [A B] X|w k a b c S [A B] X|k a b c S [A B] X|clock k a b c S [A B] X|clock w k a b c S [A B] X|s a b c S [A B] X];
    [auto|..]; rewrite <- A, <- B.
  - split; refine (dwell_leaves w _ _ _ _ _ _ X); reflexivity.
  - split; refine (pick_leaves w _ _ _ _ _ _ X); reflexivity.
  - apply occupy_inv in X. destruct X as (s & _ & _ & ->). auto.
  - rewrite vacate_eq in X. inversion X; subst. auto.
  - unfold c_removeWalker in X. rewrite vacate_eq in X. inversion X; subst. auto.
  - inversion X; subst. auto.
Qed.

(** every update that returns has solved the master equation *)
Lemma update_solved fuel h c c' : tidy c -> sound h c -> c_update fuel h c = Ret tt c' -> exists P, solved h c c' P.
Proof.
  intros Ti So E. rewrite update_split in E.
  destruct (c_visitList (ukeys (c_svisits c)) c) as [saved c1|? ?|?] eqn:Ev; [|discriminate|discriminate].
  destruct (visitList_shape _ _ _ _ Ev) as (Ek & sv & pv & ->).
  set (c1 := c_with_prev pv (c_with_svisits sv c)) in *.
  assert (So1 : sound h c1) by (destruct So; constructor; assumption).
  assert (Ti1 : tidy c1) by (destruct Ti; constructor; assumption).
  destruct (recalc_val fuel h c1 So1 Ti1) as [(P & c2 & Er & S & _ & Epv)|(Em & Er & Es)]; [|rewrite Er in E; discriminate].
  rewrite Er in E. exists P. destruct S as [Sc Sd Sp Si Sci Sn Scn Sh St Sinc Sdw].
  assert (Es : c_sites c2 = c_sites c) by (destruct Sc; assumption).
  match type of E with match ?m with _ => _ end = _ => destruct m as [[] c3|? ?|?] eqn:Em; [|discriminate|discriminate] end.
  apply refill_all in Em. destruct Em as (sv2 & -> & _).
  destruct So as [Hm Hmut Hlk Hex H2].
  destruct (calcDwell_val h (c_sites c) Hm Hlk (c_with_svisits sv2 (c_with_svisits [] c2)) Es (proj1 Sdw)) as (dw & E3 & Ndw & Ldw).
  rewrite E3 in E. inversion E; subst; clear E. constructor; try assumption.
  - destruct Sc. constructor; assumption.
  - split; [exact Ndw | exact Ldw].
Qed.

Lemma pickInternal_eq c u e : edraw (c_rng c) = (u, e) -> c_pickInternal c = Ret (cum_scan u (c_cint c)) (c_with_rng e c).
Proof. intros E. unfold c_pickInternal, bind, c_draw. rewrite E. reflexivity. Qed.
Lemma pickNeighbor_eq w c u e : edraw (c_rng c) = (u, e) ->
  c_pickNeighbor w c = Ret (cum_scan u (c_cnbr c)) (c_with_rng e (c_with_remaining (uremove w (c_remaining c)) c)).
Proof. intros E. unfold c_pickNeighbor, bind, modify, c_draw. cbn [c_rng c_with_remaining]. rewrite E. reflexivity. Qed.

Definition exit_prob h (sites : umap (@site XR G)) P (K2 : list Z) (n : Z) : R := wexit h sites P n / Rsum (wexit h sites P) K2.
Lemma exit_prob_dist h sites P K2 : members_ok h sites -> dist (ukeys sites) P -> has_exit sites ->
  (forall n, In n K2 <-> outside sites n) ->
  (forall n, In n K2 -> 0 < exit_prob h sites P K2 n) /\ Rsum (exit_prob h sites P K2) K2 = 1.
Proof.
  intros Hm HD (k & s & n & Hin & Hn & Ho) HK.
  assert (S : 0 < Rsum (wexit h sites P) K2).
  { apply Rsum_pos; [|intros j Hj; apply wexit_pos; auto; apply HK; exact Hj].
    intros E0. assert (In n K2) by (apply HK; split; [exact Ho | eauto]). rewrite E0 in *. auto. }
  split.
  - intros j Hj. apply Rdiv_lt_0_compat; [apply wexit_pos; auto; apply HK; exact Hj | exact S].
  - unfold exit_prob, Rdiv. rewrite Rsum_scal_r. apply Rinv_r. lra.
Qed.

Lemma solved_probOn h c c' P : members_ok h (c_sites c) -> solved h c c' P ->
  forall k, In k (c_siteIds c) -> c_probOn k c' = Ret (Fin (P k)) c'.
Proof.
  intros Hm [Sc Sd (Kp & PKp & Spon) Si Sci Sn Scn Sh St Sinc Sdw] k Hk. pose proof (sc_sites _ _ Sc) as Es.
  assert (M1 : umem k (c_sites c') = true) by (rewrite Es; apply umem_In; exact Hk).
  assert (Hk2 : In k Kp) by (eapply Permutation_in; [symmetry; exact PKp | exact Hk]).
  assert (L : ulookup k (c_pon c') = Some (Fin (P k))) by (rewrite Spon; apply tab_lookup; exact Hk2).
  assert (M2 : umem k (c_pon c') = true) by (apply umem_lookup; eauto).
  unfold c_probOn, bind, gets, cassert. rewrite M1. unfold ret. rewrite M2. unfold uget. rewrite L. reflexivity.
Qed.

(** C24: the listed probabilities follow the membership *)
Lemma listed_follow fuel h c c' : built c -> sound h c -> c_update fuel h c = Ret tt c' ->
  NoDup (c_neighborIds c') /\ (forall n, In n (c_neighborIds c') <-> outside (c_sites c) n) /\
  exists P p : Z -> R, (forall k, In k (c_siteIds c) -> c_probOn k c' = Ret (Fin (P k)) c') /\
    (forall n, p n = Rsum (fun k => P k * mprob h (c_sites c) k n) (c_siteIds c) /
       Rsum (fun m => Rsum (fun k => P k * mprob h (c_sites c) k m) (c_siteIds c)) (c_neighborIds c')) /\
    (forall n, In n (c_neighborIds c') -> 0 < p n /\ c_probToNeighbor c' n = Ok (Fin (p n))) /\
    Rsum p (c_neighborIds c') = 1.
Proof.
  intros Hb So E. destruct (update_solved fuel h c c' (built_tidy c Hb) So E) as (P & So1).
  destruct So as [Hm Hmut Hlk Hex H2]. pose proof (solved_probOn h c c' P Hm So1) as Pon.
  destruct So1 as [Sc Sd Sp Si Sci (K2 & N2 & O2 & Sn) Scn Sh St Sinc Sdw].
  assert (Ek : c_neighborIds c' = K2) by (unfold c_neighborIds; rewrite Sn; apply (tab_keys _ K2)).
  rewrite Ek. split; [exact N2|]. split; [exact O2|].
  destruct (exit_prob_dist h (c_sites c) P K2 Hm Sd Hex O2) as [A B].
  exists P, (exit_prob h (c_sites c) P K2). split; [exact Pon|]. split; [reflexivity|]. split; [|exact B]. intros n Hn. split; [apply A; exact Hn|].
  unfold c_probToNeighbor. rewrite Sn. rewrite (tab_lookup _ K2 n Hn). reflexivity.
Qed.

(** C23 *)
Lemma fresh_picks fuel h c c' : never_updated c -> sound h c -> c_update fuel h c = Ret tt c' ->
  exists P : Z -> R,
    (forall k, In k (c_siteIds c) -> 0 < P k /\ c_probOn k c' = Ret (Fin (P k)) c') /\
    let wt := fun k => P k * mtau h (c_sites c) k / Rsum (fun j => P j * mtau h (c_sites c) j) (c_siteIds c) in
    Rsum wt (c_siteIds c) = 1 /\
    (forall c2 u e, moves c' c2 -> edraw (c_rng c2) = (Fin u, e) -> 0 <= u < 1 ->
       exists k c3, c_pickInternal c2 = Ret k c3 /\ In k (c_siteIds c)) /\
    (forall k, In k (c_siteIds c) -> 0 < wt k /\ exists lo, 0 <= lo /\ lo + wt k <= 1 /\
       forall c2 u e j c3, moves c' c2 -> edraw (c_rng c2) = (Fin u, e) -> 0 <= u < 1 ->
         c_pickInternal c2 = Ret j c3 -> (j = k <-> lo <= u < lo + wt k)).
Proof.
  intros Hnu So E. destruct (never_updated_empty c Hnu) as (C1 & C2 & _).
  pose proof (never_updated_built c Hnu) as Hb.
  destruct (update_solved fuel h c c' (built_tidy c Hb) So E) as (P & [Sc Sd (Kp & PKp & Spon) (K1 & PK1 & Si) Sci Sn Scn Sh St Sinc Sdw]).
  destruct So as [Hm Hmut Hlk Hex H2].
  assert (Hne : ukeys (c_sites c) <> []) by (destruct (c_sites c); [simpl in H2; lia | discriminate]).
  assert (Es : c_sites c' = c_sites c) by (destruct Sc; assumption).
  exists P. split.
  { intros k Hk. split; [apply Sd; exact Hk|].
    assert (M1 : umem k (c_sites c') = true) by (rewrite Es; apply umem_In; exact Hk).
    assert (Hk2 : In k Kp) by (eapply Permutation_in; [symmetry; exact PKp | exact Hk]).
    assert (L : ulookup k (c_pon c') = Some (Fin (P k))) by (rewrite Spon; apply tab_lookup; exact Hk2).
    assert (M2 : umem k (c_pon c') = true) by (apply umem_lookup; eauto).
    unfold c_probOn, bind, gets, cassert. rewrite M1. unfold ret. rewrite M2. unfold uget. rewrite L. reflexivity. }
  cbn zeta. change (fun k => P k * mtau h (c_sites c) k / Rsum (fun j => P j * mtau h (c_sites c) j) (c_siteIds c)) with (wint h (c_sites c) P).
  assert (T : c_cint c' = cumulate n0 (tab (wint h (c_sites c) P) K1)) by (rewrite Sci, C1, Si; reflexivity).
  assert (W0 : forall k, In k K1 -> 0 <= wint h (c_sites c) P k).
  { intros k Hk. left. apply wint_pos; auto. eapply Permutation_in; eauto. }
  assert (W1 : Rsum (wint h (c_sites c) P) K1 = 1) by (rewrite (Rsum_perm _ _ _ PK1); apply wint_sum; auto).
  split; [apply wint_sum; auto|]. split.
  - intros c2 u e Hmv Ed Hu. rewrite (pickInternal_eq c2 _ _ Ed). destruct (moves_tables _ _ Hmv) as [-> _]. rewrite T.
    eexists _, _. split; [reflexivity|]. eapply Permutation_in; [exact PK1|]. apply cum_pick_member; assumption.
  - intros k Hk. split; [apply wint_pos; auto|].
    destruct (cum_pick_interval (wint h (c_sites c) P) K1 k) as (lo & A & B & C); auto.
    { eapply Permutation_NoDup; [symmetry; exact PK1 | apply Hm]. }
    { eapply Permutation_in; [symmetry; exact PK1 | exact Hk]. }
    exists lo. split; [exact A|]. split; [exact B|]. intros c2 u e j c3 Hmv Ed Hu Ep.
    rewrite (pickInternal_eq c2 _ _ Ed) in Ep. destruct (moves_tables _ _ Hmv) as [X _]. rewrite X, T in Ep. inversion Ep; subst.
    apply C; exact Hu.
Qed.
Lemma fresh_exits fuel h c c' w : never_updated c -> sound h c -> c_update fuel h c = Ret tt c' ->
  NoDup (c_neighborIds c') /\ (forall n, In n (c_neighborIds c') <-> outside (c_sites c) n) /\
  exists P p : Z -> R, (forall k, In k (c_siteIds c) -> c_probOn k c' = Ret (Fin (P k)) c') /\
    (forall n, p n = Rsum (fun k => P k * mprob h (c_sites c) k n) (c_siteIds c) /
       Rsum (fun m => Rsum (fun k => P k * mprob h (c_sites c) k m) (c_siteIds c)) (c_neighborIds c')) /\
    (forall n, outside (c_sites c) n -> 0 < p n /\ c_probToNeighbor c' n = Ok (Fin (p n))) /\
    Rsum p (c_neighborIds c') = 1 /\
    (forall c2 u e, moves c' c2 -> edraw (c_rng c2) = (Fin u, e) -> 0 <= u < 1 ->
       exists k c3, c_pickNeighbor w c2 = Ret k c3 /\ outside (c_sites c) k) /\
    (forall n, outside (c_sites c) n -> exists lo, 0 <= lo /\ lo + p n <= 1 /\
       forall c2 u e j c3, moves c' c2 -> edraw (c_rng c2) = (Fin u, e) -> 0 <= u < 1 ->
         c_pickNeighbor w c2 = Ret j c3 -> (j = n <-> lo <= u < lo + p n)).
Proof.
  intros Hnu So E. destruct (never_updated_empty c Hnu) as (C1 & C2 & _).
  pose proof (never_updated_built c Hnu) as Hb.
  destruct (update_solved fuel h c c' (built_tidy c Hb) So E) as (P & So1).
  destruct So as [Hm Hmut Hlk Hex H2]. pose proof (solved_probOn h c c' P Hm So1) as Pon.
  destruct So1 as [Sc Sd Sp Si Sci (K2 & N2 & O2 & Sn) Scn Sh St Sinc Sdw].
  assert (Ek : c_neighborIds c' = K2) by (unfold c_neighborIds; rewrite Sn; apply (tab_keys _ K2)).
  rewrite Ek. split; [exact N2|]. split; [exact O2|].
  destruct (exit_prob_dist h (c_sites c) P K2 Hm Sd Hex O2) as [A B].
  exists P, (exit_prob h (c_sites c) P K2). split; [exact Pon|]. split; [reflexivity|].
  assert (T : c_cnbr c' = cumulate n0 (tab (exit_prob h (c_sites c) P K2) K2)) by (rewrite Scn, C2, Sn; reflexivity).
  split; [|split; [exact B|split]].
  - intros n Hn. apply O2 in Hn. split; [apply A; exact Hn|].
    unfold c_probToNeighbor. rewrite Sn. rewrite (tab_lookup _ K2 n Hn). reflexivity.
  - intros c2 u e Hmv Ed Hu. rewrite (pickNeighbor_eq w c2 _ _ Ed). destruct (moves_tables _ _ Hmv) as [_ ->]. rewrite T.
    eexists _, _. split; [reflexivity|]. apply O2. apply cum_pick_member; [|exact B | exact Hu]. intros k Hk; left; auto.
  - intros n Hn. apply O2 in Hn.
    destruct (cum_pick_interval (exit_prob h (c_sites c) P K2) K2 n) as (lo & A' & B' & C); auto.
    { intros k Hk; left; auto. }
    exists lo. split; [exact A'|]. split; [exact B'|]. intros c2 u e j c3 Hmv Ed Hu Ep.
    rewrite (pickNeighbor_eq w c2 _ _ Ed) in Ep. destruct (moves_tables _ _ Hmv) as [_ X]. rewrite X, T in Ep. inversion Ep; subst.
    apply C; exact Hu.
Qed.

(** C24: the first tables are used for ever *)
Lemma picks_frozen fuel h c c1 c2 w u e k c3 : never_updated c -> sound h c -> c_update fuel h c = Ret tt c1 -> csteps c1 c2 ->
  edraw (c_rng c2) = (Fin u, e) -> 0 <= u < 1 ->
  (c_pickInternal c2 = Ret k c3 -> In k (c_siteIds c)) /\ (c_pickNeighbor w c2 = Ret k c3 -> outside (c_sites c) k).
Proof.
  intros Hnu So E Hs Ed Hu. destruct (never_updated_empty c Hnu) as (C1 & C2 & _).
  pose proof (never_updated_built c Hnu) as Hb.
  destruct (update_solved fuel h c c1 (built_tidy c Hb) So E) as (P & [Sc Sd Sp (K1 & PK1 & Si) Sci (K2 & N2 & O2 & Sn) Scn Sh St Sinc Sdw]).
  destruct So as [Hm Hmut Hlk Hex H2].
  assert (Hne : ukeys (c_sites c) <> []) by (destruct (c_sites c); [simpl in H2; lia | discriminate]).
  assert (T1 : c_cint c1 = cumulate n0 (tab (wint h (c_sites c) P) K1)) by (rewrite Sci, C1, Si; reflexivity).
  assert (T2 : c_cnbr c1 = cumulate n0 (tab (exit_prob h (c_sites c) P K2) K2)) by (rewrite Scn, C2, Sn; reflexivity).
  destruct (csteps_grow c1 c2 Hs) as (ti & tn & Ai & An). rewrite T1 in Ai. rewrite T2 in An.
  assert (W1 : Rsum (wint h (c_sites c) P) K1 = 1) by (rewrite (Rsum_perm _ _ _ PK1); apply wint_sum; auto).
  destruct (exit_prob_dist h (c_sites c) P K2 Hm Sd Hex O2) as [A B].
  split; intros Ep.
  - rewrite (pickInternal_eq c2 _ _ Ed), Ai in Ep.
    assert (K1 <> []) by (intros ->; simpl in W1; lra).
    destruct (cumulate_total (wint h (c_sites c) P) K1 0) as (j & _ & Hj); [assumption|].
    destruct (cum_scan_prefix (Fin u) (cumulate (Fin 0) (tab (wint h (c_sites c) P) K1)) ti) as [X Y].
    { eexists; split; [exact Hj|]. cbn [snd nltb XR xltb]. apply Rltb_true. lra. }
    rewrite n0_XR, X in Ep; assert (Ek : k = _) by (symmetry; injection Ep; intros _ Y0; exact Y0); rewrite Ek; clear Ek Ep. eapply Permutation_in; [exact PK1|]. rewrite cumulate_keys in Y.
    change (map fst (tab (wint h (c_sites c) P) K1)) with (ukeys (tab (wint h (c_sites c) P) K1)) in Y. rewrite tab_keys in Y. exact Y.
  - rewrite (pickNeighbor_eq w c2 _ _ Ed), An in Ep.
    assert (K2 <> []) by (intros E0; rewrite E0 in B; simpl in B; lra).
    destruct (cumulate_total (exit_prob h (c_sites c) P K2) K2 0) as (j & _ & Hj); [assumption|].
    destruct (cum_scan_prefix (Fin u) (cumulate (Fin 0) (tab (exit_prob h (c_sites c) P K2) K2)) tn) as [X Y].
    { eexists; split; [exact Hj|]. cbn [snd nltb XR xltb]. apply Rltb_true. lra. }
    rewrite n0_XR, X in Ep; assert (Ek : k = _) by (symmetry; injection Ep; intros _ Y0; exact Y0); rewrite Ek; clear Ek Ep. apply O2. rewrite cumulate_keys in Y.
    change (map fst (tab (exit_prob h (c_sites c) P K2) K2)) with (ukeys (tab (exit_prob h (c_sites c) P K2) K2)) in Y. rewrite tab_keys in Y. exact Y.
Qed.

(** C25 *)
Lemma time_constant fuel h c c' : built c -> sound h c -> c_update fuel h c = Ret tt c' ->
  exists (P : Z -> R) (t S : R) (wt : Z -> R), (forall k, In k (c_siteIds c) -> c_probOn k c' = Ret (Fin (P k)) c') /\
    c_getTimeConstant c' = Fin t /\ 0 < S <= 1 /\
    S = Rsum (fun k => P k * (minner h (c_sites c) k * mtau h (c_sites c) k)) (c_siteIds c) /\
    (forall k, wt k = P k * moff h (c_sites c) k * mtau h (c_sites c) k /
       Rsum (fun j => P j * moff h (c_sites c) j * mtau h (c_sites c) j) (c_siteIds c)) /\
    (forall k, In k (c_siteIds c) -> 0 <= wt k) /\ Rsum wt (c_siteIds c) = 1 /\
    (forall k, In k (c_siteIds c) -> 0 < wt k <-> 0 < moff h (c_sites c) k) /\
    t * S = Rsum (fun k => if Rltb 0 (moff h (c_sites c) k) then / moff h (c_sites c) k * wt k else 0) (c_siteIds c) /\
    (forall m, (forall k, In k (c_siteIds c) -> 0 < moff h (c_sites c) k -> m <= / moff h (c_sites c) k) -> m <= t * S) /\
    (forall m, (forall k, In k (c_siteIds c) -> 0 < moff h (c_sites c) k -> / moff h (c_sites c) k <= m) -> t * S <= m).
Proof.
  intros Hb So E. destruct (update_solved fuel h c c' (built_tidy c Hb) So E) as (P & So1).
  destruct So as [Hm Hmut Hlk Hex H2]. pose proof (solved_probOn h c c' P Hm So1) as Pon.
  destruct So1 as [Sc Sd Sp Si Sci Sn Scn Sh St Sinc Sdw]. destruct (TAU_mean h (c_sites c) P Hm Sd Hlk Hex) as (A & B & C & D & F).
  exists P, (TAU h (c_sites c) P), (SI h (c_sites c) P), (woff h (c_sites c) P). split; [exact Pon|].
  split; [exact St|]. split; [exact D|]. split; [reflexivity|]. split; [reflexivity|]. split; [exact A|]. split; [exact B|]. split; [exact C|]. split; [exact F|].
  split; intros m Hmk; [apply TAU_lower | apply TAU_upper]; auto.
Qed.
End Pick.
