(** * Occupation and visits of a site or cluster are counts *)
From Coq Require Import ZArith List Bool Lia.
From Verif Require Import Base BaseProofs Num SiteModel ClusterModel ClusterHist ClusterFrame ClusterOps TallyModel TallySpec.
Import ListNotations.
Open Scope Z_scope.

Section Site.
Context {I : Impl} {N : Num} {G : Rng}.
Definition counts (s : site) : Z * Z := (s_occ s, s_visits s).
Definition same {A} (m : M site A) : Prop := forall s a s', m s = Ret a s' -> counts s' = counts s.
Lemma same_bind {A B} (m : M site A) (f : A -> M site B) : same m -> (forall a, same (f a)) -> same (bind m f).
Proof. intros H F s b s' E. apply bind_ret_inv in E. destruct E as (a & s1 & E1 & E2). rewrite (F a _ _ _ E2). exact (H _ _ _ E1). Qed.
Lemma same_modify f : (forall s, counts (f s) = counts s) -> same (modify f).
Proof. intros H s a s' E. inversion E. apply H. Qed.
Lemma same_ret {A} (a : A) : same (ret a). Proof. intros s x s' E. inversion E. reflexivity. Qed.
Lemma same_gets {A} (f : site -> A) : same (gets f). Proof. intros s x s' E. inversion E. reflexivity. Qed.
Lemma same_assert b : same (cassert b). Proof. intros s x s' E. destruct b; inversion E. reflexivity. Qed.
Lemma same_mfor {A} (l : list A) f : (forall a, same (f a)) -> same (mfor l f).
Proof. intros H. induction l; cbn [mfor]; [apply same_ret|apply same_bind; auto]. Qed.
Lemma same_draw : same s_draw.
Proof. intros s a s' E. unfold s_draw in E. destruct (edraw (s_rng s)). inversion E. reflexivity. Qed.
Lemma same_calc h : same (s_calcTau h ;; s_calcProb h).
Proof.
  apply same_bind; [apply same_modify; reflexivity|]. intros _ s a s' E. unfold s_calcProb in E.
  destruct (prob_loop _ _ _ _); inversion E. reflexivity.
Qed.
Lemma site_step c s s' l : site_do c s = Ret tt s' -> s_occ s = balance l -> s_visits s = came l ->
  s_occ s' = balance (c :: l) /\ s_visits s' = came (c :: l).
Proof.
  intros E Ho Hv. assert (Q : forall m : M site unit, m s = Ret tt s' -> same m -> s_occ s' = balance l /\ s_visits s' = came l).
  { intros m Em Hm. apply Hm in Em. inversion Em. split; congruence. }
  destruct c; cbn [site_do balance came] in *.
  1-9: inversion E; subst s'; cbn; split; congruence || lia.
  - apply (Q _ E). unfold s_setRates. apply same_bind; [apply same_assert|intros _]. apply same_bind; [|intros _; apply same_calc].
    apply same_mfor. intros e. apply same_bind; [apply same_assert|intros _; apply same_modify; reflexivity].
  - apply (Q _ E). unfold s_addNeighRate. apply same_bind; [apply same_gets|intros nb]. apply same_bind; [apply same_assert|intros _].
    apply same_bind; [apply same_modify; reflexivity|intros _; apply same_calc].
  - apply (Q _ E). unfold s_resetNeighRate. apply same_bind; [apply same_modify; reflexivity|intros _; apply same_calc].
  - apply (Q _ E). unfold s_getDwellTime. apply same_bind; [|intros; apply same_ret]. apply same_bind; [apply same_draw|intros u].
    apply same_bind; [apply same_gets|intros; apply same_ret].
  - apply (Q _ E). unfold s_pick. apply same_bind; [|intros; apply same_ret]. apply same_bind; [apply same_draw|intros u].
    apply same_bind; [apply same_gets|intros; apply same_ret].
Qed.
Lemma site_counts l : forall l0 s s', mfor l site_do s = Ret tt s' -> s_occ s = balance l0 -> s_visits s = came l0 ->
  s_occ s' = balance (rev l ++ l0) /\ s_visits s' = came (rev l ++ l0).
Proof.
  induction l as [|c l IH]; intros l0 s s' E Ho Hv; cbn [mfor] in E; [inversion E; subst; auto|].
  apply bind_ret_inv in E. destruct E as ([] & s1 & E1 & E2). destruct (site_step c s s1 l0 E1 Ho Hv) as [A B].
  cbn [rev]. rewrite <- app_assoc. exact (IH (c :: l0) s1 s' E2 A B).
Qed.
Theorem site_tally clock l s : mfor l site_do (site_new clock) = Ret tt s ->
  s_isOccupied s = (0 <? balance (rev l)) /\ s_getVisitFrequency s = came (rev l).
Proof.
  intros E. destruct (site_counts l [] _ _ E eq_refl eq_refl) as [A B]. rewrite app_nil_r in A, B. unfold s_isOccupied, s_getVisitFrequency.
  rewrite A, Z.gtb_ltb. auto.
Qed.
Definition arrived (c : scall) : bool := match c with SOccupy => true | _ => false end.
Definition departed (c : scall) : bool := match c with SVacate | SRemove => true | _ => false end.
Definition number (p : scall -> bool) (l : list scall) : Z := Z.of_nat (length (filter p l)).
Lemma orderly_balance l : orderly l -> balance l = number arrived l - number departed l /\ 0 <= balance l.
Proof.
  unfold number. induction l as [|c l IH]; [cbn; lia|]. destruct c; cbn [orderly balance filter arrived departed length]; intros O;
    try contradiction; try (destruct O as [P O]); destruct (IH O) as [A B]; lia.
Qed.
Lemma filter_rev {A} (p : A -> bool) l : length (filter p (rev l)) = length (filter p l).
Proof. induction l as [|a l IH]; [reflexivity|]. cbn [rev]. rewrite filter_app, app_length, IH. cbn. destruct (p a); cbn; lia. Qed.
Theorem site_orderly clock l s : mfor l site_do (site_new clock) = Ret tt s -> orderly (rev l) ->
  (s_isOccupied s = true <-> number departed l < number arrived l) /\ number departed l <= number arrived l.
Proof.
  intros E O. destruct (site_tally clock l s E) as [A _]. destruct (orderly_balance _ O) as [B C]. rewrite A.
  unfold number in *. rewrite !filter_rev in B. split; [|lia]. rewrite Z.ltb_lt. lia.
Qed.
End Site.

Section Cluster.
Context {I : Impl} {N : Num} {G : Rng}.
Ltac lv := repeat first
  [ apply leaves_bind; [|intros ?] | apply leaves_ret | apply leaves_lift | apply leaves_gets | apply leaves_stop
  | apply leaves_assert | (apply leaves_modify; intros; reflexivity) | (apply leaves_mfor; intros ?) ].
Definition ccounts (c : cluster) : Z * Z := (c_occ c, c_visits c).
Lemma probOn_same k : leaves (c_probOn k) ccounts.
Proof.
  unfold c_probOn. lv; destruct (umem k _); lv.
Qed.
Lemma update_same fuel h : leaves (c_update fuel h) ccounts.
Proof.
  unfold c_update, c_solve, c_calcHopToInternal, c_calcHopToNeighbors, c_calcInternalDwell, c_calcSumOff, c_calcSumInt, c_calcHopOff, c_calcHopBetween, c_calcTau, c_calcITau.
  lv; try (apply visitList_leaves; reflexivity).
  destruct (ulookup _ _); [apply setVisits_leaves; reflexivity|lv].
Qed.
Lemma migrate_same fuel h c d c' d' : c_migrate fuel h (c, d) = Ret tt (c', d') -> ccounts c' = ccounts c /\ ccounts d' = ccounts d.
Proof.
  assert (F : forall {A} (m : M cluster A) p x p', leaves m ccounts -> onFst m p = Ret x p' -> ccounts (fst p') = ccounts (fst p) /\ ccounts (snd p') = ccounts (snd p)).
  { intros A m p x p' L E. unfold onFst, zoom in E. destruct (m (fst p)) as [a q|? ?|?] eqn:Em; inversion E; subst. cbn. split; [exact (L _ _ _ Em)|reflexivity]. }
  assert (S : forall {A} (m : M cluster A) p x p', leaves m ccounts -> onSnd m p = Ret x p' -> ccounts (fst p') = ccounts (fst p) /\ ccounts (snd p') = ccounts (snd p)).
  { intros A m p x p' L E. unfold onSnd, zoom in E. destruct (m (snd p)) as [a q|? ?|?] eqn:Em; inversion E; subst. cbn. split; [reflexivity|exact (L _ _ _ Em)]. }
  assert (K : forall {A B} (m : M (cluster * cluster) A) (f : A -> M (cluster * cluster) B),
    (forall p x p', m p = Ret x p' -> ccounts (fst p') = ccounts (fst p) /\ ccounts (snd p') = ccounts (snd p)) ->
    (forall a p x p', f a p = Ret x p' -> ccounts (fst p') = ccounts (fst p) /\ ccounts (snd p') = ccounts (snd p)) ->
    forall p x p', bind m f p = Ret x p' -> ccounts (fst p') = ccounts (fst p) /\ ccounts (snd p') = ccounts (snd p)).
  { intros A B m f Hm Hf p x p' E. apply bind_ret_inv in E. destruct E as (a & p1 & E1 & E2).
    destruct (Hm _ _ _ E1) as [A1 A2]. destruct (Hf _ _ _ _ E2) as [B1 B2]. split; congruence. }
  assert (Ge : forall {A} (f : cluster * cluster -> A) p x p', gets f p = Ret x p' -> ccounts (fst p') = ccounts (fst p) /\ ccounts (snd p') = ccounts (snd p)).
  { intros A f p x p' E. inversion E. auto. }
  assert (Q : forall p x p', c_migrate fuel h p = Ret x p' -> ccounts (fst p') = ccounts (fst p) /\ ccounts (snd p') = ccounts (snd p)).
  { unfold c_migrate. apply K; [apply Ge|intros i]. apply K; [intros p x p'; apply S; lv|intros _]. apply K; [apply Ge|intros ids].
    apply K; [intros p x p'; apply S; apply visitList_leaves; reflexivity|intros vs]. apply K; [apply Ge|intros mv].
    apply K; [intros p x p'; apply F; lv|intros _]. apply K; [intros p x p'; apply S; lv|intros _].
    apply K; [intros p x p'; apply F; apply update_same|intros _].
    induction vs as [|e vs IH]; cbn [mfor]; [intros p x p' E; inversion E; auto|]. apply K; [|intros _; exact IH].
    intros p x p'. apply F. apply setVisits_leaves. reflexivity. }
  intros E. exact (Q (c, d) tt (c', d') E).
Qed.

Theorem cluster_counts c i o v : ctally c i o v -> c_occ c = i - o /\ c_visits c = v /\ 0 <= i /\ 0 <= o.
Proof.
  assert (Q : forall (A : Type) (m : M cluster A) c c' (x : A) i o v, leaves m ccounts -> m c = Ret x c' ->
    c_occ c = i - o /\ c_visits c = v /\ 0 <= i /\ 0 <= o -> c_occ c' = i - o /\ c_visits c' = v /\ 0 <= i /\ 0 <= o).
  { intros A m a b x i' o' v' L E H. specialize (L _ _ _ E). inversion L. split; [|split]; [lia|lia|tauto]. }
  assert (V : forall clock k c c', c_vacate clock k c = Ret tt c' -> c_occ c' = c_occ c - 1 /\ c_visits c' = c_visits c).
  { intros clock k a b E. unfold c_vacate, c_vacate0, bind, modify in E. inversion E. auto. }
  induction 1 as [? ?|c i o v c' _ IH E|k c i o v c' _ IH E|c i o v c' _ IH E|clock k c i o v c' _ IH E|clock w k c i o v c' _ IH E|n c i o v c' _ IH E
    |m c i o v c' _ IH E|t c i o v c' _ IH E|n c i o v c' _ IH E|r c i o v c' _ IH E|s c i o v c' _ IH E|l c i o v c' _ IH E|fuel h c i o v c' _ IH E
    |k x c i o v c' _ IH E|k x c i o v c' _ IH E|k p c i o v c' _ IH E|w d c i o v c' _ IH E|w k c i o v c' _ IH E|fuel h c d c' d' i o v _ IH E|fuel h c d c' d' i o v _ IH E].
  - cbn. lia.
  - inversion E. cbn. lia.
  - assert (L : c_occ c' = c_occ c /\ c_visits c' = c_visits c + 1); [|lia].
    unfold c_occupy in E. apply bind_ret_inv in E. destruct E as (c1 & s1 & E1 & E). inversion E1; subst c1 s1.
    apply bind_ret_inv in E. destruct E as ([] & s1 & E2 & E). unfold cassert in E2. destruct (umem k (c_svisits c)); inversion E2; subst s1.
    destruct (ulookup k (c_sites c)); inversion E. auto.
  - inversion E. cbn. lia.
  - destruct (V _ _ _ _ E). lia.
  - destruct (V _ _ _ _ E). lia.
  - inversion E. cbn. lia.
  - refine (Q _ _ _ _ _ _ _ _ _ E IH). unfold c_setMethod; lv.
  - refine (Q _ _ _ _ _ _ _ _ _ E IH). unfold c_setTolerance; lv.
  - refine (Q _ _ _ _ _ _ _ _ _ E IH). unfold c_setIterations; lv.
  - refine (Q _ _ _ _ _ _ _ _ _ E IH). unfold c_setResolution; lv.
  - refine (Q _ _ _ _ _ _ _ _ _ E IH). unfold c_setRandomSeed; lv.
  - refine (Q _ _ _ _ _ _ _ _ _ E IH). unfold c_addSites. apply leaves_mfor. intros s. unfold c_addSite. lv.
  - refine (Q _ _ _ _ _ _ _ _ _ E IH). apply update_same.
  - refine (Q _ _ _ _ _ _ _ _ _ E IH). apply getVisits_leaves; reflexivity.
  - refine (Q _ _ _ _ _ _ _ _ _ E IH). apply setVisits_leaves; reflexivity.
  - refine (Q _ _ _ _ _ _ _ _ _ E IH). apply probOn_same.
  - refine (Q _ _ _ _ _ _ _ _ _ E IH). apply dwell_leaves; reflexivity.
  - refine (Q _ _ _ _ _ _ _ _ _ E IH). apply pick_leaves; reflexivity.
  - destruct (migrate_same _ _ _ _ _ _ E) as [A _]. inversion A. lia.
  - destruct (migrate_same _ _ _ _ _ _ E) as [_ A]. inversion A. lia.
Qed.
Theorem cluster_tally c i o v : ctally c i o v ->
  c_isOccupied0 c = (o <? i) /\ c_getVisits0 c = v /\ 0 <= i /\ 0 <= o.
Proof.
  intros T. destruct (cluster_counts c i o v T) as (A & B & C). unfold c_isOccupied0, c_getVisits0. rewrite A, B. split; [|auto].
  rewrite Z.gtb_ltb. destruct (Z.ltb_spec 0 (i - o)), (Z.ltb_spec o i); auto; lia.
Qed.
Theorem built_tally c : built c -> exists i o v, ctally c i o v.
Proof.
  induction 1 as [i clock|c c' _ (i & o & v & T) S|fuel h c d c' d' _ (i & o & v & T) E].
  - do 3 eexists. apply ct_new.
  - destruct S as [lab c c' S|w d c c' E|w k c c' E]; [destruct S as [m c c' E|t c c' E|n c c' E|r c c' E|s c c' E|l c c' E|fuel h c c' E|k c c' E|clock k c c' E|c c' E|c c' E|clock w k c c' E|k x c c' E|k x c c' E|k p c c' E|fuel h c d c' d' E]|..]; do 3 eexists.
    + eapply ct_method; [exact T|exact E].
    + eapply ct_tol; [exact T|exact E].
    + eapply ct_iters; [exact T|exact E].
    + eapply ct_res; [exact T|exact E].
    + eapply ct_seed; [exact T|exact E].
    + eapply ct_add; [exact T|exact E].
    + eapply ct_update; [exact T|exact E].
    + eapply ct_occupy; [exact T|exact E].
    + eapply ct_vacate; [exact T|exact E].
    + eapply ct_occupy0; [exact T|exact E].
    + eapply ct_vacate0; [exact T|exact E].
    + eapply ct_remove; [exact T|exact E].
    + eapply ct_getVisits; [exact T|exact E].
    + eapply ct_setVisits; [exact T|exact E].
    + eapply ct_probOn; [exact T|exact E].
    + eapply ct_merge; [exact T|exact E].
    + eapply ct_dwell; [exact T|exact E].
    + eapply ct_pick; [exact T|exact E].
  - do 3 eexists. eapply ct_merged; eassumption.
Qed.
End Cluster.
