(** * Time spent in a cluster, over exact arithmetic *)
From Coq Require Import ZArith List Bool Reals Lra Lia Permutation.
From Verif Require Import Base BaseProofs Num OrdLaws RSum SiteModel SiteSpec
  ClusterModel ClusterFrame ClusterHist ClusterOps ClusterStay ClusterReal.
Import ListNotations.
Open Scope R_scope.

Section Time.
Context {I : Impl} {G : @Rng XR}.
Implicit Types (c : @cluster XR G).

Definition used (tr : list (xn * xn)) : R := Rsum (fun x => realv (snd x)) tr.
Lemma used_snoc tr x : used (tr ++ [x]) = used tr + realv (snd x).
Proof. unfold used. rewrite Rsum_app. simpl. lra. Qed.

(** a budget of [T], an increment [d]: the next answer *)
Lemma dwell_step w c T d : neat c -> budget w c = Fin T -> 0 < T -> c_inc c = Fin d -> 0 < d -> c_tau c <> Fin dbl_min ->
  exists c2, c_getDwellTime w c = Ret (Fin (Rmin d T)) c2 /\ neat c2 /\ ulookup w (c_remaining c2) = Some (Fin (T - d)).
Proof.
  intros Hn Hb HT Hi Hd Ht.
  assert (E : exists x c2, c_getDwellTime w c = Ret x c2 /\ x = Fin (Rmin d T)).
  { rewrite (getDwell_eq w c (proj2 Hn)).
    assert (Et : @neqb XR (c_tau c) unassigned_value = false).
    { unfold unassigned_value. cbn [neqb XR ndblmin]. destruct (c_tau c) as [t| | |]; try reflexivity. cbn [xeqb]. unfold Reqb.
      destruct (Req_EM_T t dbl_min); [subst; congruence | reflexivity]. }
    rewrite Et. cbn zeta. rewrite Hb, Hi. cbn [nltb XR xltb]. unfold n0. cbn [nofZ XR xltb].
    destruct (Rltb d T) eqn:E1.
    - apply Rltb_true in E1. eexists _, _. split; [reflexivity|]. rewrite Rmin_left by lra. reflexivity.
    - apply Rltb_false in E1. destruct (Rltb 0 T) eqn:E2; [|apply Rltb_false in E2; lra].
      eexists _, _. split; [reflexivity|]. rewrite Rmin_right by lra. reflexivity. }
  destruct E as (x & c2 & E & ->). exists c2. split; [exact E|].
  destruct (getDwell_inv _ _ _ _ E (proj2 Hn)) as (rm & r & -> & ND & _ & L & _).
  split; [split; [apply Hn | exact ND]|]. cbn [c_remaining c_with_remaining]. rewrite L, Hb, Hi. reflexivity.
Qed.

Lemma Fin_lt0 x : @nltb XR n0 (Fin x) = Rltb 0 x. Proof. reflexivity. Qed.

Section One.
Variables (w : Z) (c : @cluster XR G) (u : R) (e : @eng XR G) (tau : R).
Hypothesis (Hn : neat c) (Hent : entering w c) (Hdraw : edraw (c_rng c) = (Fin u, e)) (Hu : 0 < u < 1)
  (Htau : c_tau c = Fin tau) (Hp : 0 < tau).
Let T := - ln u * tau.
Lemma T_pos : 0 < T.
Proof. unfold T. apply Rmult_lt_0_compat; [|exact Hp]. assert (ln u < 0) by (rewrite <- ln_1; apply ln_increasing; lra). lra. Qed.
Lemma budget_enter : budget w c = Fin T.
Proof.
  unfold budget. rewrite (proj1 (entering_iff _ _) Hent), Hdraw, Htau. cbn [fst]. unfold dwell_of, T. cbn [nmul XR nlog nofZ xlog].
  destruct (Rltb u 0) eqn:E; [apply Rltb_true in E; lra|]. unfold Reqb. destruct (Req_EM_T u 0); [lra|].
  cbn [xmul]. f_equal. lra.
Qed.

(** the state of a stay *)
Lemma staying_state tr c1 : staying w c tr c1 ->
  (forall x, In x tr -> exists d, fst x = Fin d /\ 0 < d) ->
  neat c1 /\ (forall x, In x tr -> snd x = fst x) /\ used tr < T /\ budget w c1 = Fin (T - used tr).
Proof.
  induction 1 as [|tr c1 d c2 c3 k c4 c5 S IH E O1 Ek Ep O2]; intros Hinc.
  - split; [exact Hn|]. split; [intros x []|]. split; [unfold used; simpl; apply T_pos|].
    refine (eq_trans budget_enter _). unfold used; simpl. f_equal; lra.
  - destruct IH as (N1 & A & B & Hb).
    { intros; apply Hinc. apply in_or_app; auto. }
    destruct (Hinc (c_getTimeIncrement c1, d)) as (dd & Hd & Hdp); [apply in_or_app; simpl; auto|]. cbn [fst] in Hd. unfold c_getTimeIncrement in *.
    destruct (getDwell_inv _ _ _ _ E (proj2 N1)) as (rm & r & -> & ND & _ & L & _ & D). rewrite Hb, Hd in L.
    assert (N2 : neat (c_with_remaining rm (c_with_rng r c1))) by (split; [apply N1 | exact ND]).
    pose proof (others_neat _ _ _ O1 N2) as N3. pose proof (others_lookup _ _ _ O1 N2) as L3. cbn [c_remaining c_with_remaining] in L3. rewrite L in L3.
    destruct (pick_kind w c3 _ N3 L3) as (K & _ & _). specialize (K Ek).
    change (@nsub XR (Fin (T - used tr)) (Fin dd)) with (Fin (T - used tr + - dd) : xn) in K, L3.
    rewrite Fin_lt0 in K. apply Rltb_true in K.
    assert (Ed : d = Fin dd).
    { destruct D as [[D _]|(_ & D2 & _)]; [congruence|]. rewrite Hb, Hd in D2. cbn [nltb XR xltb] in D2.
      apply Rltb_false in D2. lra. }
    destruct (pick_inv _ _ _ _ Ep) as (b & r' & Ew & _ & ->).
    unfold c_hopWithin in Ew. rewrite L3 in Ew. assert (Eb : b = @nltb XR n0 (Fin (T - used tr + - dd))) by congruence.
    rewrite Fin_lt0 in Eb. assert (Eb' : b = true) by (rewrite Eb; apply Rltb_true; exact K). clear Eb; subst b.
    assert (N4 : neat (c_with_remaining (c_remaining c3) (c_with_rng r' c3))) by exact N3.
    pose proof (others_neat _ _ _ O2 N4) as N5. pose proof (others_lookup _ _ _ O2 N4) as L5. cbn [c_remaining c_with_remaining] in L5.
    rewrite L3 in L5.
    split; [exact N5|]. split; [|split].
    + intros x Hx. apply in_app_or in Hx. destruct Hx as [Hx|[<-|[]]]; [auto|]. cbn [fst snd]. congruence.
    + rewrite used_snoc. cbn [snd]. rewrite Ed. cbn [realv]. lra.
    + unfold budget. rewrite L5. f_equal. rewrite used_snoc. cbn [snd]. rewrite Ed. cbn [realv]. lra.
Qed.

(** C26: one more question *)
Lemma stay_next tr c1 d : staying w c tr c1 ->
  (forall x, In x tr -> exists d, fst x = Fin d /\ 0 < d) ->
  c_getTimeIncrement c1 = Fin d -> 0 < d -> c_getTimeConstant c1 <> Fin dbl_min ->
  (forall x, In x tr -> snd x = fst x) /\ used tr < T /\
  exists c2, c_getDwellTime w c1 = Ret (Fin (Rmin d (T - used tr))) c2 /\
    forall c3, others w c2 c3 ->
      (used tr + d < T -> c_pick w c3 = c_pickInternal c3) /\
      (T <= used tr + d -> c_pick w c3 = c_pickNeighbor w c3).
Proof.
  intros S Hinc Hd Hdp Ht. destruct (staying_state tr c1 S Hinc) as (N1 & A & B & Hb).
  split; [exact A|]. split; [exact B|].
  destruct (dwell_step w c1 (T - used tr) d N1 Hb) as (c2 & E & N2 & L); [lra | exact Hd | exact Hdp | exact Ht|].
  exists c2. split; [exact E|]. intros c3 O. pose proof (others_neat _ _ _ O N2) as N3.
  rewrite <- (others_lookup _ _ _ O N2) in L. destruct (pick_kind w c3 _ N3 L) as (_ & _ & ->). rewrite Fin_lt0.
  split; intros X.
  - assert (Y : Rltb 0 (T - used tr - d) = true) by (apply Rltb_true; lra). rewrite Y. reflexivity.
  - assert (Y : Rltb 0 (T - used tr - d) = false) by (apply Rltb_false; lra). rewrite Y. reflexivity.
Qed.

(** C26: a complete stay *)
Lemma stay_total tr c4 : stay w c tr c4 ->
  (forall x, In x tr -> exists d, fst x = Fin d /\ 0 < d) ->
  used tr = T /\ entering w c4 /\
  (forall x, In x tr -> exists d t, x = (Fin d, Fin t) /\ 0 < t <= d) /\
  (forall d, (forall x, In x tr -> fst x = Fin d) -> (INR (length tr) - 1) * d < T <= INR (length tr) * d).
Proof.
  intros S. destruct S as [tr c1 d c2 c3 k c4 S E O Ek Ep]. intros Hinc.
  destruct (staying_state tr c1 S) as (N1 & A & B & Hb); [intros; apply Hinc; apply in_or_app; auto|].
  destruct (Hinc (c_getTimeIncrement c1, d)) as (dd & Hd & Hdp); [apply in_or_app; simpl; auto|]. cbn [fst] in Hd. unfold c_getTimeIncrement in *.
  destruct (getDwell_inv _ _ _ _ E (proj2 N1)) as (rm & r & -> & ND & _ & L & _ & D). rewrite Hb, Hd in L.
  assert (N2 : neat (c_with_remaining rm (c_with_rng r c1))) by (split; [apply N1 | exact ND]).
  pose proof (others_neat _ _ _ O N2) as N3. pose proof (others_lookup _ _ _ O N2) as L3. cbn [c_remaining c_with_remaining] in L3. rewrite L in L3.
  destruct (pick_kind w c3 _ N3 L3) as (_ & K & _). specialize (K Ek).
  change (@nsub XR (Fin (T - used tr)) (Fin dd)) with (Fin (T - used tr + - dd) : xn) in K, L3.
  rewrite Fin_lt0 in K. apply Rltb_false in K.
  assert (Ed : d = Fin (T - used tr)).
  { destruct D as [[_ D]|(D & _)]; [|congruence]. rewrite Hb, Hd in D. cbn [nltb XR xltb] in D. apply Rltb_true in D. lra. }
  assert (Eu : used (tr ++ [(c_inc c1, d)]) = T) by (rewrite used_snoc; cbn [snd]; rewrite Ed; cbn [realv]; lra).
  split; [exact Eu|]. split; [rewrite Ek in Ep; exact (pickNeighbor_leaves_none _ _ _ _ N3 Ep)|]. split.
  - intros x Hx. apply in_app_or in Hx. destruct Hx as [Hx|[<-|[]]].
    + destruct (Hinc x) as (d' & Ef & Hf); [apply in_or_app; auto|]. exists d', d'. destruct x as [x1 x2]. pose proof (A _ Hx) as Es.
      cbn [fst snd] in *. split; [exact (f_equal2 pair Ef (eq_trans Es Ef)) | lra].
    + exists dd, (T - used tr). split; [exact (f_equal2 pair Hd Ed) | lra].
  - intros d0 Hall.
    assert (X : c_inc c1 = Fin d0) by (apply (Hall (c_inc c1, d)); apply in_or_app; simpl; auto).
    assert (dd = d0) by congruence. subst dd. clear X.
    assert (U : used tr = INR (length tr) * d0).
    { clear - A Hall. unfold used. induction tr as [|x tr IH]; [simpl; lra|]. cbn [Rsum length]. rewrite IH.
      - rewrite S_INR. rewrite (A x) by (simpl; auto). rewrite (Hall x) by (simpl; auto). cbn [realv]. lra.
      - intros; apply A; simpl; auto.
      - intros y Hy. apply Hall. cbn [app In]. right. exact Hy. }
    rewrite app_length. cbn [length]. rewrite plus_INR. cbn [INR]. lra.
Qed.
End One.
End Time.
