(** * Clusters in another unit of time *)
From Coq Require Import ZArith List Bool Reals Lra Lia.
From Verif Require Import Base BaseProofs Num WalkerModel SiteModel SiteProofs ClusterModel ClusterFrame
  ContainerModel SystemQuery QuerySpec UnitSpec UnitNum UnitCluster.
Import ListNotations.
Open Scope Z_scope.

(** ** Two runs, with different relations before and after *)
Definition agr {S A B} (R R' : S -> S -> Prop) (Q : A -> B -> Prop) (m : M S A) (m' : M S B) : Prop :=
  forall s s' a t a' t', R s s' -> m s = Ret a t -> m' s' = Ret a' t' -> Q a a' /\ R' t t'.
Section Agr.
Context {S : Type}.
Lemma agr_bind {A A' B B'} (R R1 R2 : S -> S -> Prop) (Q : A -> A' -> Prop) (P : B -> B' -> Prop) m m' k k' :
  agr R R1 Q m m' -> (forall a a', Q a a' -> agr R1 R2 P (k a) (k' a')) -> agr R R2 P (bind m k) (bind m' k').
Proof.
  intros H1 H2 s s' a t a' t' Hs E E'. apply bind_ret_inv in E. apply bind_ret_inv in E'.
  destruct E as (x & u & E1 & E2), E' as (x' & u' & E1' & E2').
  destruct (H1 _ _ _ _ _ _ Hs E1 E1') as [Hq Hu]. eapply H2; eauto.
Qed.
Lemma agr_eq {A B} (R R1 R2 : S -> S -> Prop) (P : B -> B -> Prop) (m : M S A) m' k k' :
  agr R R1 eq m m' -> (forall a, agr R1 R2 P (k a) (k' a)) -> agr R R2 P (bind m k) (bind m' k').
Proof. intros H1 H2. eapply agr_bind; [exact H1|]. intros a a' <-. apply H2. Qed.
Lemma agr_agree {A B} (R : S -> S -> Prop) (Q : A -> B -> Prop) m m' : agree R Q m m' -> agr R R Q m m'.
Proof. intros H. exact H. Qed.
Lemma agr_weak {A B} (R R1 R2 R3 : S -> S -> Prop) (Q Q' : A -> B -> Prop) m m' :
  (forall s s', R s s' -> R1 s s') -> (forall s s', R2 s s' -> R3 s s') -> (forall a b, Q a b -> Q' a b) -> agr R1 R2 Q m m' -> agr R R3 Q' m m'.
Proof. intros H1 H2 H3 H s s' a t a' t' Hs E E'. destruct (H _ _ _ _ _ _ (H1 _ _ Hs) E E'). auto. Qed.
End Agr.

Section Unit.
Context {I : Impl} {N : Num} {G : @Rng N}.
Hypothesis K : keys_only.
Variable c : lawful N.
Notation rt := (rt c).
Notation tm := (tm c).
Notation su := (su c).

(** ** The same cluster in the new unit *)
Definition skew (sv : umap nm) (pv : Z) (iw : umap nm) (it t i : nm) (k : @cluster N G) : cluster :=
  mkCluster (c_id k) (c_occ k) (c_visits k) pv t (c_rng k) (c_res k) (c_iters k) (c_tol k) (c_method k) i it
    (vmap tm (c_remaining k)) (c_pnbr k) (c_cnbr k) iw sv (vmap rt (c_sumoff k)) (vmap rt (c_sumint k)) (vmap su (c_sites k))
    (c_hopoff k) (c_hopbet k) (c_pon k) (c_pint k) (c_cint k).
(** apart from times and visit counts *)
Definition loose (k k' : cluster) : Prop := exists sv pv iw it t i, k' = skew sv pv iw it t i k.
(** apart from visit counts; a time constant may also not be set *)
Definition crel (k k' : cluster) : Prop := exists sv pv iw it t i,
  k' = skew sv pv iw it t i k /\ (c_tau k = @ndblmin N \/ t = tm (c_tau k) /\ i = tm (c_inc k)).
Lemma crel_loose k k' : crel k k' -> loose k k'.
Proof. intros (sv & pv & iw & it & t & i & -> & _). exists sv, pv, iw, it, t, i. reflexivity. Qed.

(** ** Visit counts *)
Definition vis (k k' : cluster) : Prop := exists sv pv, k' = other sv pv k.
Lemma vis_refl k : vis k k.
Proof. exists (c_svisits k), (c_prev k). destruct k; reflexivity. Qed.
Lemma vis_trans a b d : vis a b -> vis b d -> vis a d.
Proof. intros (s & p & ->) (s' & p' & ->). exists s', p'. reflexivity. Qed.
Lemma vis_visits k a v b : c_getVisits k a = Ret v b -> vis a b.
Proof. intros E. apply visits_alike in E. destruct E as (sv & pv & -> & _). exists sv, pv. reflexivity. Qed.
Lemma vis_list l : forall a v b, c_visitList l a = Ret v b -> vis a b.
Proof.
  induction l as [|k l IH]; intros a v b E; cbn [c_visitList] in E; [inversion E; subst; apply vis_refl|].
  apply bind_ret_inv in E. destruct E as (x & y & E1 & E). apply bind_ret_inv in E. destruct E as (z & w & E2 & E). inversion E; subst.
  eapply vis_trans; [eapply vis_visits; exact E1|eapply IH; exact E2].
Qed.
Lemma vis_set f k a v b : c_setVisits f k a = Ret v b -> vis a b.
Proof.
  intros E. unfold c_setVisits, bind, gets, cassert, modify in E. destruct (umem k (c_svisits a)); [|discriminate]. unfold ret in E.
  destruct (negb _); [|discriminate]. inversion E; subst. exists (uset (c_svisits a) k (nofZ f)), (c_prev a). destruct a; reflexivity.
Qed.
Lemma vis_mfor {A} (l : list A) b : (forall x k v k', b x k = Ret v k' -> vis k k') -> forall k v k', mfor l b k = Ret v k' -> vis k k'.
Proof.
  intros H. induction l as [|x l IH]; intros k v k' E; cbn [mfor] in E; [inversion E; subst; apply vis_refl|].
  apply bind_ret_inv in E. destruct E as (y & z & E1 & E). eapply vis_trans; [eapply H; exact E1|eapply IH; exact E].
Qed.
Lemma vis_crel k k' d d' : crel k k' -> vis k d -> vis k' d' -> crel d d'.
Proof.
  intros (sv & pv & iw & it & t & i & -> & H) (s & p & ->) (s' & p' & ->). exists s', p', iw, it, t, i.
  split; [reflexivity|exact H].
Qed.
Lemma vis_loose k k' d d' : loose k k' -> vis k d -> vis k' d' -> loose d d'.
Proof.
  intros (sv & pv & iw & it & t & i & ->) (s & p & ->) (s' & p' & ->). exists s', p', iw, it, t, i. reflexivity.
Qed.
Definition any {A B} (x : A) (y : B) : Prop := True.
Lemma agr_vis {A B} m m' : (forall k v k', m k = Ret v k' -> vis k k') -> (forall k v k', m' k = Ret v k' -> vis k k') ->
  agr crel crel (@any A B) m m' /\ agr loose loose (@any A B) m m'.
Proof.
  intros H H'. split; intros k k' a t a' t' Hr E E'; (split; [exact Logic.I|]); [eapply vis_crel|eapply vis_loose]; eauto.
Qed.

Ltac fields := cbn [skew c_id c_occ c_visits c_prev c_tau c_rng c_res c_iters c_tol c_method c_inc c_itau c_remaining c_pnbr c_cnbr c_idwell c_svisits c_sumoff c_sumint c_sites c_hopoff c_hopbet c_pon c_pint c_cint].
Ltac done_skew := eexists _, _, _, _, _, _; (split; [unfold skew; fields; reflexivity|]); fields; try assumption.

(** ** Operations that keep the time constant *)
Lemma cu_occupied k : agr crel crel eq (d <- gets (fun d => d) ;; lift (c_isOccupied d k)) (d <- gets (fun d => d) ;; lift (c_isOccupied d k)).
Proof.
  intros d d' a t a' t' Hr E E'. pose proof Hr as (sv & pv & iw & it & tt0 & i & -> & H). unfold bind, gets, lift, c_isOccupied in E, E'.
  revert E'. fields. intros E'. rewrite vm_lookup in E'. destruct (ulookup k (c_sites d)); [|discriminate]. cbn in E, E'.
  inversion E; inversion E'; subst. split; [reflexivity|exact Hr].
Qed.
Lemma cu_occupy k : agr crel crel eq (c_occupy k) (c_occupy k).
Proof.
  intros d d' a t a' t' Hr E E'. pose proof Hr as (sv & pv & iw & it & tt0 & i & -> & H). unfold c_occupy, bind, gets, cassert, ret in E, E'.
  revert E'. fields. intros E'. rewrite vm_lookup in E'.
  destruct (umem k (c_svisits d)); [|discriminate]. destruct (umem k sv); [|discriminate].
  destruct (ulookup k (c_sites d)) as [s|]; [|discriminate]. cbn [option_map] in E'. unfold modify in E, E'. inversion E; inversion E'; subst.
  split; [reflexivity|]. unfold c_with_sites, c_with_visits. fields.
  change (s_setToOccupied (su s)) with (su (s_setToOccupied s)). rewrite (vm_set K). done_skew.
Qed.
Lemma cu_occupy0 : agr crel crel eq c_occupy0 c_occupy0.
Proof. apply agree_modify. intros d d' (sv & pv & iw & it & t & i & -> & H). unfold c_with_visits, c_with_occ. fields. done_skew. Qed.
Lemma cu_vacate u k : agr crel crel eq (c_vacate u k) (c_vacate u k).
Proof.
  unfold c_vacate, c_vacate0. eapply agr_eq; [apply agree_modify with (R := crel)|intros _; apply agree_modify with (R := crel)].
  - intros d d' (sv & pv & iw & it & t & i & -> & H). unfold c_with_sites. fields. rewrite vm_lookup.
    destruct (ulookup k (c_sites d)) as [s|]; cbn [option_map].
    + change (s_with_occ (s_occ (su s) - 1) (su s)) with (su (s_with_occ (s_occ s - 1) s)). rewrite (vm_set K). done_skew.
    + assert (E : s_with_occ (s_occ (site_new u) - 1) (site_new u) = su (s_with_occ (s_occ (site_new u) - 1) (site_new u))).
      { rewrite <- (su_new c u) at 2. reflexivity. }
      rewrite E at 2. rewrite (vm_set K). done_skew.
  - intros d d' (sv & pv & iw & it & t & i & -> & H). unfold c_with_occ. fields. done_skew.
Qed.
Lemma cu_draw : agr crel crel eq c_draw c_draw.
Proof.
  intros d d' a t a' t' Hr E E'. pose proof Hr as (sv & pv & iw & it & tt0 & i & -> & H). unfold c_draw in E, E'.
  revert E'. fields. intros E'. destruct (edraw (c_rng d)). inversion E; inversion E'; subst. split; [reflexivity|].
  unfold c_with_rng. fields. done_skew.
Qed.
Lemma cu_seed x : agr crel crel eq (c_setRandomSeed x) (c_setRandomSeed x).
Proof. apply agree_modify. intros d d' (sv & pv & iw & it & t & i & -> & H). unfold c_with_rng. fields. done_skew. Qed.

(** with a time constant that is set *)
Definition srelc (k k' : cluster) : Prop := exists sv pv iw it, k' = skew sv pv iw it (tm (c_tau k)) (tm (c_inc k)) k.
Lemma srelc_crel k k' : srelc k k' -> crel k k'.
Proof. intros (sv & pv & iw & it & ->). exists sv, pv, iw, it, (tm (c_tau k)), (tm (c_inc k)). auto. Qed.
Ltac done_s := eexists _, _, _, _; unfold skew; fields; reflexivity.
Lemma su_draw : agr srelc srelc eq c_draw c_draw.
Proof.
  intros d d' a t a' t' Hr E E'. pose proof Hr as (sv & pv & iw & it & ->). unfold c_draw in E, E'.
  revert E'. fields. intros E'. destruct (edraw (c_rng d)). inversion E; inversion E'; subst. split; [reflexivity|].
  unfold c_with_rng. fields. done_s.
Qed.
Lemma cu_dwell w : agr crel crel (timed c) (c_getDwellTime w) (c_getDwellTime w).
Proof.
  assert (X : agr srelc srelc (timed c) (c_getDwellTime w) (c_getDwellTime w)).
  { unfold c_getDwellTime. eapply agr_bind; [apply agree_gets with (Q := srelc) (R := srelc); auto|]. intros d d' (sv & pv & iw & it & ->).
    eapply agr_eq; [apply agree_assert with (R := srelc)|intros _]. fields. rewrite vm_mem.
    eapply agr_eq; [|intros _].
    { destruct (umem w (c_remaining d)); [apply agree_ret with (R := srelc); reflexivity|].
      eapply agr_eq; [apply su_draw|intros u]. apply agree_modify with (R := srelc).
      intros e e' (sv' & pv' & iw' & it' & ->). unfold c_with_remaining. fields. rewrite u_dwell_of. rewrite (vm_set K). done_s. }
    eapply agr_bind; [apply agree_gets with (Q := srelc) (R := srelc); auto|]. intros e e' (sv' & pv' & iw' & it' & ->). fields.
    rewrite (u_ugetm c), (m_ltb c).
    eapply agr_eq; [apply agree_modify with (R := srelc); intros f f' (sv2 & pv2 & iw2 & it2 & ->); unfold c_with_remaining; fields; rewrite (m_sub c), (vm_set K); done_s|intros _].
    destruct (nltb (c_inc e) (uget n0 w (c_remaining e))); [apply agree_ret with (R := srelc); reflexivity|].
    eapply agr_eq; [apply agree_assert with (R := srelc)|intros _]. apply agree_ret with (R := srelc). reflexivity. }
  intros d d' a t a' t' Hr E E'. pose proof Hr as (sv & pv & iw & it & t0 & i & -> & [H|[-> ->]]).
  - unfold c_getDwellTime, bind, gets, cassert in E. rewrite H in E.
    change (@unassigned_value N) with (@ndblmin N) in E. rewrite (l_mark c) in E. discriminate.
  - destruct (X d _ a t a' t' ltac:(exists sv, pv, iw, it; reflexivity) E E') as [Hq Ht]. split; [exact Hq|apply srelc_crel, Ht].
Qed.
Lemma cu_pick w : agr crel crel eq (c_pick w) (c_pick w).
Proof.
  unfold c_pick, c_pickInternal, c_pickNeighbor.
  eapply agr_bind; [apply agree_gets with (Q := crel) (R := crel); auto|]. intros d d' (sv & pv & iw & it & t & i & -> & H).
  assert (E : c_hopWithin (skew sv pv iw it t i d) w = c_hopWithin d w).
  { unfold c_hopWithin. fields. rewrite vm_lookup. destruct (ulookup w (c_remaining d)); [|reflexivity]. cbn [option_map]. rewrite (m_ltb0 c). reflexivity. }
  rewrite E. eapply agr_eq; [apply agree_lift with (R := crel)|intros b]. destruct b.
  - eapply agr_eq; [apply cu_draw|intros u]. eapply agr_eq; [apply agree_gets with (R := crel); intros ? ? (sv' & pv' & iw' & it' & t' & i' & -> & _); reflexivity|intros l].
    apply agree_ret with (R := crel). reflexivity.
  - eapply agr_eq; [apply agree_modify with (R := crel)|intros _].
    { intros e e' (sv' & pv' & iw' & it' & t' & i' & -> & H'). unfold c_with_remaining. fields. rewrite vm_remove. done_skew. }
    eapply agr_eq; [apply cu_draw|intros u]. eapply agr_eq; [apply agree_gets with (R := crel); intros ? ? (sv' & pv' & iw' & it' & t' & i' & -> & _); reflexivity|intros l].
    apply agree_ret with (R := crel). reflexivity.
Qed.
End Unit.
