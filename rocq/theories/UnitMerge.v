(** * Updating, creating and merging clusters in another unit of time *)
From Coq Require Import ZArith List Bool Reals Lra Lia.
From Verif Require Import Base BaseProofs Num WalkerModel SiteModel SiteProofs ClusterModel ClusterFrame
  ContainerModel SystemQuery QuerySpec UnitSpec UnitNum UnitCluster UnitUpdate.
Import ListNotations.
Open Scope Z_scope.

Section Unit.
Context {I : Impl} {N : Num} {G : @Rng N}.
Hypothesis K : keys_only.
Variable c : lawful N.
Notation rt := (rt c).
Notation tm := (tm c).
Notation su := (su c).
Notation skew := (skew c).
Notation loose := (loose c).
Notation crel := (crel c).
Variables h h' : @heap N.
Hypothesis Hh : forall a, h' a = rt (h a).

Ltac fields := cbn [UnitUpdate.skew c_id c_occ c_visits c_prev c_tau c_rng c_res c_iters c_tol c_method c_inc c_itau c_remaining c_pnbr c_cnbr c_idwell c_svisits c_sumoff c_sumint c_sites c_hopoff c_hopbet c_pon c_pint c_cint].
Ltac done_l := eexists _, _, _, _, _, _; unfold UnitUpdate.skew; fields; reflexivity.
Ltac done_c := eexists _, _, _, _, _, _; (split; [unfold UnitUpdate.skew; fields; reflexivity|]); fields; try assumption.
Ltac open_l := intros d d' (sv & pv & iw & it & t & i & ->).
Ltac self_l := eapply agr_bind; [apply agree_gets with (Q := loose) (R := loose); auto|]; open_l; fields.

Lemma lu_hopToInternal : agr loose loose eq c_calcHopToInternal c_calcHopToInternal.
Proof.
  unfold c_calcHopToInternal. self_l. rewrite (u_weigh c). destruct (weigh_tau (c_sites d) (c_pon d)) as [w| |]; [|intros ? ? ? ? ? ? _ E; discriminate E|intros ? ? ? ? ? ? _ E; discriminate E].
  eapply agr_bind with (R1 := loose) (Q := fun x y => x = w /\ y = vmap tm w).
  { intros x x' a y a' y' Hx E E'. inversion E; inversion E'; subst. auto. }
  intros a a' [-> ->]. rewrite (u_summ c), (u_umap_of K).
  replace (map (fun e => (fst e, ndiv (snd e) (tm (sum_snd w)))) (vmap tm (umap_of w))) with (map (fun e => (fst e, ndiv (snd e) (sum_snd w))) (umap_of w)).
  2:{ unfold vmap. rewrite map_map. apply map_ext. intros e. cbn [fst snd]. rewrite (m_divb c). reflexivity. }
  eapply agr_eq; [apply agree_lift with (R := loose)|intros l]. apply agree_modify with (R := loose).
  clear. open_l. unfold c_with_cint, c_with_pint. fields. done_l.
Qed.
Lemma lu_hopToNeighbors : agr loose loose eq c_calcHopToNeighbors c_calcHopToNeighbors.
Proof.
  unfold c_calcHopToNeighbors. self_l. rewrite u_exit_weights.
  eapply agr_eq; [apply agree_lift with (R := loose)|intros w]. eapply agr_eq; [apply agree_lift with (R := loose)|intros l].
  apply agree_modify with (R := loose). clear. open_l. unfold c_with_cnbr, c_with_pnbr. fields. done_l.
Qed.
Lemma lu_idwell : agr loose loose eq (c_calcInternalDwell h) (c_calcInternalDwell h').
Proof. apply agree_modify with (R := loose). open_l. unfold c_with_idwell. fields. done_l. Qed.
Lemma lu_solve f f' : agr loose loose eq (c_solve f h) (c_solve f' h').
Proof.
  unfold c_solve. self_l.
  eapply agr_bind with (R1 := loose) (Q := eq).
  { intros x x' a y a' y' Hx E E'.
    destruct (solve_pon f _ _ _ _ _) as [p| |] eqn:E1; inversion E; subst.
    destruct (solve_pon f' _ _ _ _ _) as [p'| |] eqn:E2; inversion E'; subst.
    split; [symmetry; eapply (u_solve c); eauto|exact Hx]. }
  intros p ? <-. eapply agr_eq; [apply agree_modify with (R := loose); clear; open_l; unfold c_with_pon; fields; done_l|intros _].
  eapply agr_eq; [apply lu_hopToInternal|intros _]. eapply agr_eq; [apply lu_hopToNeighbors|intros _]. apply lu_idwell.
Qed.
Lemma lu_sumoff : agr loose loose eq (c_calcSumOff h) (c_calcSumOff h').
Proof.
  apply agree_modify with (R := loose). open_l. unfold c_with_sumoff. fields. rewrite (u_ext K c h h' Hh).
  replace (map (fun e => (fst e, sum_first (snd e))) (vmap (vmap rt) (ext_rates h (c_sites d)))) with (vmap rt (map (fun e => (fst e, sum_first (snd e))) (ext_rates h (c_sites d)))).
  2:{ unfold vmap at 1 2. rewrite !map_map. apply map_ext. intros e. cbn [fst snd]. rewrite (u_sum_first c). reflexivity. }
  rewrite (u_umap_of K). done_l.
Qed.
Lemma lu_sumint : agr loose loose eq (c_calcSumInt h) (c_calcSumInt h').
Proof.
  apply agree_modify with (R := loose). open_l. unfold c_with_sumint. fields. rewrite (u_int K c h h' Hh).
  replace (map (fun e => (fst e, nadd n0 (sum_snd (snd e)))) (vmap (vmap rt) (int_rates h (c_sites d)))) with (vmap rt (map (fun e => (fst e, nadd n0 (sum_snd (snd e)))) (int_rates h (c_sites d)))).
  2:{ unfold vmap at 1 2. rewrite !map_map. apply map_ext. intros e. cbn [fst snd]. rewrite (u_sum c), <- (r_add c), (r_0 c). reflexivity. }
  rewrite (u_umap_of K). done_l.
Qed.
Lemma lu_hopoff : agr loose loose eq (c_calcHopOff h) (c_calcHopOff h').
Proof.
  unfold c_calcHopOff. self_l. eapply agr_eq; [apply agree_assert with (R := loose)|intros _].
  rewrite (u_ext K c h h' Hh), (u_sr c).
  eapply agr_bind with (R1 := loose) (Q := fun x y => y = tm x).
  { intros x x' a y a' y' Hx E E'. rewrite <- (m_0 c) in E'. rewrite (u_sum_taus c) in E'.
    destruct (sum_taus (c_sites d) (c_pon d) n0); inversion E; inversion E'; subst. auto. }
  intros st ? ->. rewrite (u_hopoff c). eapply agr_eq; [apply agree_lift with (R := loose)|intros raw].
  apply agree_modify with (R := loose). clear. open_l. unfold c_with_hopoff. fields. done_l.
Qed.
Lemma lu_hopbet : agr loose loose eq (c_calcHopBetween h) (c_calcHopBetween h').
Proof.
  unfold c_calcHopBetween. self_l. eapply agr_eq; [apply agree_assert with (R := loose)|intros _].
  rewrite (u_int K c h h' Hh), (u_hopbet c). eapply agr_eq; [apply agree_lift with (R := loose)|intros raw].
  apply agree_modify with (R := loose). clear. open_l. unfold c_with_hopoff, c_with_hopbet. fields. done_l.
Qed.
(** the time constant *)
Lemma lu_tau : agr loose crel eq (c_calcTau h) (c_calcTau h').
Proof.
  intros s s' a t a' t' (sv & pv & iw & it & t0 & i & ->) E E'. unfold c_calcTau, modify in E, E'. inversion E; inversion E'; subst. clear E E'.
  split; [reflexivity|]. fields. rewrite (u_ext K c h h' Hh). unfold c_with_inc, c_with_tau. fields.
  eexists _, _, _, _, _, _. split; [unfold UnitUpdate.skew; fields; reflexivity|]. fields.
  destruct (ext_rates h (c_sites s)) as [|e l]; [left; reflexivity|right].
  cbn [vmap map]. rewrite (u_mean c), (m_div c). split; reflexivity.
Qed.
Lemma cu_itau : agr crel crel eq (c_calcITau h) (c_calcITau h').
Proof. apply agree_modify with (R := crel). intros d d' (sv & pv & iw & it & t & i & -> & H). unfold c_with_itau. fields. done_c. Qed.
Lemma cu_idwell : agr crel crel eq (c_calcInternalDwell h) (c_calcInternalDwell h').
Proof. apply agree_modify with (R := crel). intros d d' (sv & pv & iw & it & t & i & -> & H). unfold c_with_idwell. fields. done_c. Qed.
Lemma vis_svisits (sv : umap nm) (k : @cluster N G) : vis k (c_with_svisits sv k).
Proof. exists sv, (c_prev k). destruct k; reflexivity. Qed.
Lemma lu_update f f' : agr loose crel eq (c_update f h) (c_update f' h').
Proof.
  unfold c_update.
  eapply agr_bind; [apply agree_gets with (Q := any) (R := loose); intros; exact Logic.I|]. intros keys keys' _.
  eapply agr_bind; [apply (agr_vis c); intros; eapply vis_list; eauto|]. intros saved saved' _.
  eapply agr_eq; [apply lu_solve|intros _]. eapply agr_eq; [apply lu_sumoff|intros _]. eapply agr_eq; [apply lu_sumint|intros _].
  eapply agr_eq; [apply lu_hopoff|intros _]. eapply agr_eq; [apply lu_hopbet|intros _]. eapply agr_eq; [apply lu_tau|intros _].
  eapply agr_eq; [apply cu_itau|intros _].
  eapply agr_bind with (R1 := crel) (Q := any).
  { apply (agr_vis c); intros k v k' E; inversion E; subst; apply vis_svisits. }
  intros _ _ _. eapply agr_bind; [apply agree_gets with (Q := any) (R := crel); intros; exact Logic.I|]. intros ids ids' _.
  eapply agr_bind with (R1 := crel) (Q := any); [|intros; apply cu_idwell].
  apply (agr_vis c); intros k v k'; apply vis_mfor; intros x y z w E; apply bind_ret_inv in E; destruct E as (x1 & y1 & E1 & E2);
    inversion E1; subst.
  all: eapply vis_trans; [apply vis_svisits|].
  1: destruct (ulookup x saved). 3: destruct (ulookup x saved').
  all: first [eapply vis_set; exact E2|inversion E2; subst; apply vis_refl].
Qed.

Lemma lu_addSite s : agr loose loose any (c_addSite s) (c_addSite (su s)) /\ agr crel crel any (c_addSite s) (c_addSite (su s)).
Proof.
  assert (X : forall d a t sv pv iw it tt i a' t', c_addSite s d = Ret a t -> c_addSite (su s) (skew sv pv iw it tt i d) = Ret a' t' ->
    t' = skew sv pv iw it tt i t /\ c_tau t = c_tau d /\ c_inc t = c_inc d).
  { intros d a t sv pv iw it tt i a' t' E E'. unfold c_addSite, bind, lift, gets, cassert, ret, modify in E, E'.
    change (s_getId (su s)) with (s_getId s) in E'. destruct (s_getId s) as [k| |]; try discriminate.
    revert E'. fields. intros E'. rewrite vm_mem in E'. destruct (negb (umem k (c_sites d))); [|discriminate].
    inversion E; inversion E'; subst. unfold c_with_sites. fields. split; [|split; reflexivity].
    change (s_with_cluster (c_id d) (su s)) with (su (s_with_cluster (c_id d) s)). rewrite (vm_set K). reflexivity. }
  split; intros d d' a t a' t'.
  - intros (sv & pv & iw & it & tt & i & ->) E E'. destruct (X _ _ _ _ _ _ _ _ _ _ _ E E') as (-> & _ & _). split; [exact Logic.I|].
    exists sv, pv, iw, it, tt, i. reflexivity.
  - intros (sv & pv & iw & it & tt & i & -> & H) E E'. destruct (X _ _ _ _ _ _ _ _ _ _ _ E E') as (-> & E1 & E2). split; [exact Logic.I|].
    exists sv, pv, iw, it, tt, i. rewrite E1, E2. auto.
Qed.
Lemma lu_addSites l : agr loose loose any (c_addSites l) (c_addSites (map su l)) /\ agr crel crel any (c_addSites l) (c_addSites (map su l)).
Proof.
  unfold c_addSites. induction l as [|s l [IH1 IH2]]; cbn [map mfor].
  - split; [apply agree_ret with (R := loose)|apply agree_ret with (R := crel)]; exact Logic.I.
  - split; (eapply agr_bind; [|intros ? ? _; first [exact IH1|exact IH2]]).
    + eapply agr_bind; [apply lu_addSite|]. intros. apply agree_ret with (R := loose). instantiate (1 := any). exact Logic.I.
    + eapply agr_bind; [apply lu_addSite|]. intros. apply agree_ret with (R := crel). instantiate (1 := any). exact Logic.I.
Qed.

(** ** A merger *)
Definition crel2 (p p' : cluster * cluster) : Prop := crel (fst p) (fst p') /\ crel (snd p) (snd p').
Definition loose2 (p p' : cluster * cluster) : Prop := loose (fst p) (fst p') /\ loose (snd p) (snd p').
Definition half2 (p p' : cluster * cluster) : Prop := crel (fst p) (fst p') /\ loose (snd p) (snd p').
Lemma agr_fst {A B} (R R' T : cluster -> cluster -> Prop) (Q : A -> B -> Prop) m m' : agr R R' Q m m' ->
  agr (fun p p' => R (fst p) (fst p') /\ T (snd p) (snd p')) (fun p p' => R' (fst p) (fst p') /\ T (snd p) (snd p')) Q (onFst m) (onFst m').
Proof.
  intros H [a b] [a' b'] x t x' t' [Ha Hb] E E'. unfold onFst, zoom in *. cbn [fst snd] in *.
  destruct (m a) eqn:E1; inversion E; subst. destruct (m' a') eqn:E2; inversion E'; subst.
  destruct (H _ _ _ _ _ _ Ha E1 E2). split; [assumption|split; assumption].
Qed.
Lemma agr_snd {A B} (R R' T : cluster -> cluster -> Prop) (Q : A -> B -> Prop) m m' : agr R R' Q m m' ->
  agr (fun p p' => T (fst p) (fst p') /\ R (snd p) (snd p')) (fun p p' => T (fst p) (fst p') /\ R' (snd p) (snd p')) Q (onSnd m) (onSnd m').
Proof.
  intros H [a b] [a' b'] x t x' t' [Ha Hb] E E'. unfold onSnd, zoom in *. cbn [fst snd] in *.
  destruct (m b) eqn:E1; inversion E; subst. destruct (m' b') eqn:E2; inversion E'; subst.
  destruct (H _ _ _ _ _ _ Hb E1 E2). split; [assumption|split; assumption].
Qed.
Lemma u_moved moved : forall m, fold_left (fun m e => if umem (fst e) m then m else uset m (fst e) (snd e)) (vmap su moved) (vmap su m) =
  vmap su (fold_left (fun m e => if umem (fst e) m then m else uset m (fst e) (snd e)) moved m).
Proof.
  induction moved as [|[k s] l IH]; intros m; [reflexivity|]. cbn [vmap map fold_left fst snd].
  change (map (fun e => (fst e, su (snd e))) l) with (vmap su l). change (map (fun e => (fst e, su (snd e))) m) with (vmap su m).
  rewrite vm_mem. destruct (umem k m); [apply IH|]. rewrite (vm_set K). apply IH.
Qed.
Lemma agr_pre {S A B} (R R1 R2 : S -> S -> Prop) (Q : A -> B -> Prop) m m' : (forall s s', R s s' -> R1 s s') -> agr R1 R2 Q m m' -> agr R R2 Q m m'.
Proof. intros H1 H s s' a t a' t' Hs. apply H, H1, Hs. Qed.
Lemma lu_migrate f f' : agr crel2 half2 any (c_migrate f h) (c_migrate f' h').
Proof.
  apply agr_pre with (R1 := fun p p' => loose (fst p) (fst p') /\ loose (snd p) (snd p')).
  { intros p p' [H1 H2]. split; apply crel_loose; assumption. }
  unfold c_migrate.
  eapply agr_eq; [apply agree_gets with (R := loose2); intros p p' [(sv & pv & iw & it & t & i & ->) _]; reflexivity|intros ci].
  eapply agr_eq; [apply agr_snd with (R := loose) (R' := loose) (T := loose)|intros _].
  { apply agree_modify with (R := loose). open_l. unfold c_with_sites. fields.
    replace (map (fun e => (fst e, s_with_cluster ci (snd e))) (vmap su (c_sites d))) with (vmap su (map (fun e => (fst e, s_with_cluster ci (snd e))) (c_sites d))).
    2:{ unfold vmap. rewrite !map_map. reflexivity. }
    done_l. }
  eapply agr_bind; [apply agree_gets with (Q := any) (R := loose2); intros; exact Logic.I|]. intros ids ids' _.
  eapply agr_bind; [apply agr_snd with (R := loose) (R' := loose) (T := loose); apply (agr_vis c); intros; eapply vis_list; eauto|]. intros vs vs' _.
  eapply agr_bind; [apply agree_gets with (Q := fun x y => y = vmap su x) (R := loose2); intros p p' [_ (sv & pv & iw & it & t & i' & ->)]; reflexivity|intros moved ? ->].
  eapply agr_eq; [apply agr_fst with (R := loose) (R' := loose) (T := loose)|intros _].
  { apply agree_modify with (R := loose). open_l. unfold c_with_sites. fields. rewrite u_moved. done_l. }
  eapply agr_eq; [apply agr_snd with (R := loose) (R' := loose) (T := loose)|intros _].
  { apply agree_modify with (R := loose). open_l.
    exists [], pv, [], unassigned_value, unassigned_value, i. destruct d. reflexivity. }
  eapply agr_eq; [apply agr_fst with (R := loose) (R' := crel) (T := loose); apply lu_update|intros _].
  apply (agr_weak _ (fun p p' => crel (fst p) (fst p') /\ loose (snd p) (snd p')) (fun p p' => crel (fst p) (fst p') /\ loose (snd p) (snd p')) _ any any); auto.
  assert (V : forall l (p : cluster * cluster) v q, mfor l (fun e => onFst (c_setVisits (snd e) (fst e))) p = Ret v q -> vis (fst p) (fst q) /\ snd q = snd p).
  { induction l as [|e l IH]; intros p v q E; cbn [mfor] in E; [inversion E; subst; split; [apply vis_refl|reflexivity]|].
    apply bind_ret_inv in E. destruct E as (x & y & E1 & E). apply IH in E. destruct E as [V1 V2].
    unfold onFst, zoom in E1. destruct (c_setVisits _ _ (fst p)) eqn:E2; inversion E1; subst. cbn [fst snd] in *. split; [|exact V2].
    eapply vis_trans; [eapply vis_set; exact E2|exact V1]. }
  intros p p' x t x' t' [H1 H2] E E'. split; [exact Logic.I|]. apply V in E, E'. destruct E as [E1 E2], E' as [E1' E2'].
  split; [eapply vis_crel; eauto|]. rewrite E2, E2'. exact H2.
Qed.

(** ** A new cluster *)
Lemma lu_method m : agr loose loose eq (c_setMethod m) (c_setMethod m).
Proof. apply agree_modify with (R := loose). open_l. unfold c_with_method. fields. done_l. Qed.
Lemma lu_tolerance x : agr loose loose eq (c_setTolerance x) (c_setTolerance x).
Proof.
  unfold c_setTolerance. eapply agr_eq; [apply agree_assert with (R := loose)|intros _].
  apply agree_modify with (R := loose). open_l. unfold c_with_tol. fields. done_l.
Qed.
Lemma cu_resolution x : agr crel crel eq (c_setResolution x) (c_setResolution x).
Proof.
  unfold c_setResolution. eapply agr_eq; [apply agree_assert with (R := crel)|intros _].
  apply agree_modify with (R := crel). intros d d' (sv & pv & iw & it & t & i & -> & H). unfold c_with_inc, c_with_res. fields.
  eexists _, _, _, _, _, _. split; [unfold UnitUpdate.skew; fields; reflexivity|]. fields.
  destruct H as [H|[-> ->]]; [left; exact H|right]. rewrite (m_div c). auto.
Qed.
Lemma loose_new i t : loose (cluster_new i t) (cluster_new i t).
Proof. exists [], 0, [], n0, n0, n0. reflexivity. Qed.
End Unit.
