(** * Walkers and occupation in a cluster *)
From Coq Require Import ZArith List Bool Lia Permutation.
From Verif Require Import Base BaseProofs Num SiteModel ClusterModel ClusterFrame ClusterSpec ClusterHist ClusterOps.
Import ListNotations.
Open Scope Z_scope.

Section Stay.
Context {I : Impl} {N : Num} {G : Rng}.
Implicit Types (c : cluster).

Ltac lv := repeat first
  [ apply leaves_bind; [|intros ?] | apply leaves_ret | apply leaves_lift | apply leaves_gets | apply leaves_stop
  | apply leaves_assert | (apply leaves_modify; intros; reflexivity) | (apply leaves_mfor; intros ?) ].

(** ** What a merge does to the receiving cluster *)
Definition take_in (moved sites : umap site) : umap site :=
  fold_left (fun m e => if umem (fst e) m then m else uset m (fst e) (snd e)) moved sites.
Lemma take_in_NoDup moved : forall sites, NoDup (ukeys sites) -> NoDup (ukeys (take_in moved sites)).
Proof.
  unfold take_in. induction moved as [|e l IH]; intros sites ND; cbn [fold_left]; [exact ND|].
  apply IH. destruct (umem _ _); [exact ND | apply uset_NoDup; exact ND].
Qed.
Lemma take_in_lookup moved k s : forall sites, NoDup (ukeys sites) -> ulookup k sites = Some s ->
  ulookup k (take_in moved sites) = Some s.
Proof.
  unfold take_in. induction moved as [|e l IH]; intros sites ND E; cbn [fold_left]; [exact E|].
  destruct (umem (fst e) sites) eqn:Em; [apply IH; assumption|]. apply IH; [apply uset_NoDup; exact ND|].
  rewrite uset_lookup_other; [exact E | exact ND |]. intros ->.
  apply umem_false_lookup in Em. congruence.
Qed.

Lemma migrate_fst fuel h c d c' d' : c_migrate fuel h (c, d) = Ret tt (c', d') ->
  c_remaining c' = c_remaining c /\ c_rng c' = c_rng c /\ c_occ c' = c_occ c /\ c_res c' = c_res c /\ c_id c' = c_id c /\
  c_sites c' = take_in (map (fun e => (fst e, s_with_cluster (c_id c) (snd e))) (c_sites d)) (c_sites c) /\
  c_remaining d' = c_remaining d /\ c_sites d' = [].
Proof.
  intros E. unfold c_migrate in E.
  apply bind_ret_inv in E. destruct E as (i & s0 & E0 & E). inversion E0; subst i s0; clear E0.
  apply bind_ret_inv in E. destruct E as (u & s0 & E0 & E). unfold onSnd, zoom in E0. rewrite modify_eq in E0. inversion E0; subst u s0; clear E0.
  apply bind_ret_inv in E. destruct E as (ids & s0 & E0 & E). inversion E0; subst ids s0; clear E0.
  apply bind_ret_inv in E. destruct E as (vs & s1 & E0 & E).
  apply bind_ret_inv in E. destruct E as (mv & s2 & E1 & E). inversion E1; subst mv s2; clear E1.
  apply bind_ret_inv in E. destruct E as (u & s3 & E1 & E). unfold onFst, zoom in E1. rewrite modify_eq in E1. inversion E1; subst u s3; clear E1.
  apply bind_ret_inv in E. destruct E as (u & s4 & E1 & E). unfold onSnd, zoom in E1. rewrite modify_eq in E1. inversion E1; subst u s4; clear E1.
  unfold onSnd, zoom in E0. cbn [fst snd] in E0. destruct (c_visitList _ _) as [x c2|? ?|?] eqn:Ev in E0; inversion E0; subst; clear E0.
  pose proof (keeps_visitList _ _ _ _ Ev) as KV. cbn [fst snd] in E.
  apply bind_ret_inv in E. destruct E as (u & s5 & E1 & E). unfold onFst, zoom in E1. cbn [fst snd] in E1.
  destruct (c_update _ _ _) as [[] c3|? ?|?] eqn:Eu in E1; inversion E1; subst; clear E1.
  pose proof (keeps_update _ _ _ _ _ Eu) as KU.
  set (b0 := c_clearMigrated c2) in *.
  assert (Gen : forall vs c3, mfor vs (fun e => onFst (c_setVisits (snd e) (fst e))) (c3, b0) = Ret tt (c', d') -> same_core c3 c' /\ d' = b0).
  { clear. induction vs as [|e vs IH]; cbn [mfor]; intros c3 E; [inversion E; subst; split; [apply same_core_refl | reflexivity]|].
    apply bind_ret_inv in E. destruct E as (u & s5 & E1 & E). unfold onFst, zoom in E1. cbn [fst snd] in E1.
    destruct (c_setVisits _ _ _) as [[] c4|? ?|?] eqn:Eu in E1; inversion E1; subst; clear E1.
    destruct (IH _ E) as [A B]. split; [|exact B]. eapply same_core_trans; [apply (keeps_setVisits _ _ _ _ _ Eu) | exact A]. }
  destruct (Gen _ _ E) as [KE ->]. destruct KV as [_ _ _ _ _ _ _ _ Hvr Hv]. cbn [c_sites c_remaining c_with_sites] in Hv, Hvr.
  destruct KU as [U1 U2 U3 U4 U5 U6 U7 U8 U9 U10]. destruct KE as [V1 V2 V3 V4 V5 V6 V7 V8 V9 V10].
  cbn [c_id c_occ c_visits c_rng c_res c_iters c_tol c_method c_remaining c_sites c_with_sites] in *.
  split; [congruence|]. split; [congruence|]. split; [congruence|]. split; [congruence|]. split; [congruence|].
  split; [rewrite V10, U10, Hv; reflexivity|]. split; [exact Hvr | reflexivity].
Qed.

(** ** Keys are unique *)
Definition neat c : Prop := NoDup (ukeys (c_sites c)) /\ NoDup (ukeys (c_remaining c)).

Lemma occupy_inv k c c' : c_occupy k c = Ret tt c' ->
  exists s, ulookup k (c_sites c) = Some s /\ umem k (c_svisits c) = true /\
    c' = c_with_sites (uset (c_sites c) k (s_setToOccupied s)) (c_with_visits (c_visits c + 1) c).
Proof.
  unfold c_occupy. intros E. apply bind_ret_inv in E. destruct E as (c0 & s0 & E0 & E). inversion E0; subst c0 s0; clear E0.
  apply bind_ret_inv in E. destruct E as (u & s1 & E1 & E). unfold cassert in E1.
  destruct (umem k (c_svisits c)) eqn:Em; inversion E1; subst; clear E1.
  destruct (ulookup k (c_sites s1)) as [s|] eqn:El; [|discriminate]. rewrite modify_eq in E. inversion E; subst.
  exists s. auto.
Qed.
Lemma vacate_eq clock k c : c_vacate clock k c =
  Ret tt (c_with_occ (c_occ c - 1) (c_with_sites (uset (c_sites c) k
    (let s := match ulookup k (c_sites c) with Some s => s | None => site_new clock end in s_with_occ (s_occ s - 1) s)) c)).
Proof. reflexivity. Qed.

Lemma addSites_grow l : forall c c', c_addSites l c = Ret tt c' -> NoDup (ukeys (c_sites c)) ->
  c_remaining c' = c_remaining c /\ NoDup (ukeys (c_sites c')) /\
  forall k s, ulookup k (c_sites c) = Some s -> ulookup k (c_sites c') = Some s.
Proof.
  unfold c_addSites. induction l as [|s l IH]; cbn [mfor]; intros c c' E ND; [inversion E; subst; auto|].
  apply bind_ret_inv in E. destruct E as ([] & c1 & E1 & E).
  apply bind_ret_inv in E1. destruct E1 as (s' & c2 & E1 & E2). inversion E2; subst c2; clear E2.
  unfold c_addSite in E1. apply bind_ret_inv in E1. destruct E1 as (i & c2 & E2 & E1).
  unfold lift in E2. destruct (s_getId s) eqn:Ei; inversion E2; subst; clear E2.
  apply bind_ret_inv in E1. destruct E1 as (c3 & c4 & E2 & E1). inversion E2; subst c3 c4; clear E2.
  apply bind_ret_inv in E1. destruct E1 as (u & c4 & E2 & E1). unfold cassert in E2.
  destruct (umem i (c_sites c2)) eqn:Em; inversion E2; subst; clear E2.
  apply bind_ret_inv in E1. destruct E1 as (u & c5 & E2 & E1). rewrite modify_eq in E2. inversion E2; subst; clear E2.
  inversion E1; subst; clear E1.
  destruct (IH _ _ E) as (A & B & C); [cbn [c_sites c_with_sites]; apply uset_NoDup; exact ND|].
  cbn [c_remaining c_sites c_with_sites] in *. split; [exact A|]. split; [exact B|].
  intros k s0 E0. apply C. rewrite uset_lookup_other; [exact E0 | exact ND |].
  intros ->. apply umem_false_lookup in Em. congruence.
Qed.

Lemma sstep_remaining o c c' : sstep o c c' -> NoDup (ukeys (c_sites c)) -> c_remaining c' = c_remaining c.
Proof.
  destruct 1; intros ND; try (match goal with X : _ = Ret _ _ |- _ => inversion X; subst; reflexivity end).
  - assert (L : leaves (c_setTolerance t) c_remaining) by (unfold c_setTolerance; lv). eapply L; eauto.
  - assert (L : leaves (c_setIterations n) c_remaining) by (unfold c_setIterations; lv). eapply L; eauto.
  - assert (L : leaves (c_setResolution r) c_remaining) by (unfold c_setResolution; lv). eapply L; eauto.
  - eapply addSites_grow; eauto.
  - match goal with X : _ = Ret _ _ |- _ => apply keeps_update in X; destruct X; assumption end.
  - match goal with X : _ = Ret _ _ |- _ => apply occupy_inv in X; destruct X as (s & _ & _ & ->); reflexivity end.
  - match goal with X : _ = Ret _ _ |- _ => apply keeps_getVisits in X; destruct X; assumption end.
  - match goal with X : _ = Ret _ _ |- _ => apply keeps_setVisits in X; destruct X; assumption end.
  - assert (L : leaves (c_probOn k) c_remaining).
    { unfold c_probOn. lv. match goal with |- leaves (if ?b then _ else _) _ => destruct b end; lv. }
    eapply L; eauto.
  - match goal with X : _ = Ret _ _ |- _ => apply migrate_fst in X; apply X end.
Qed.

(** a member stays a member, with the same occupation unless the operation sets it *)
Lemma sstep_sites o c c' : sstep o c c' -> NoDup (ukeys (c_sites c)) ->
  NoDup (ukeys (c_sites c')) /\
  forall k s, o <> Some k -> ulookup k (c_sites c) = Some s -> ulookup k (c_sites c') = Some s.
Proof.
  destruct 1; intros ND; try (match goal with X : _ = Ret _ _ |- _ => inversion X; subst; cbn; auto end; fail).
  - assert (L : leaves (c_setTolerance t) c_sites) by (unfold c_setTolerance; lv). rewrite (L _ _ _ H); auto.
  - assert (L : leaves (c_setIterations n) c_sites) by (unfold c_setIterations; lv). rewrite (L _ _ _ H); auto.
  - assert (L : leaves (c_setResolution r) c_sites) by (unfold c_setResolution; lv). rewrite (L _ _ _ H); auto.
  - destruct (addSites_grow _ _ _ H ND) as (_ & A & B). auto.
  - apply keeps_update in H. destruct H as [_ _ _ _ _ _ _ _ _ ->]. auto.
  - apply occupy_inv in H. destruct H as (s & El & _ & ->). cbn [c_sites c_with_sites c_with_visits].
    split; [apply uset_NoDup; exact ND|]. intros j s' Hj E. rewrite uset_lookup_other; [exact E | exact ND | congruence].
  - rewrite vacate_eq in H. inversion H; subst. cbn [c_sites c_with_sites c_with_occ].
    split; [apply uset_NoDup; exact ND|]. intros j s' Hj E. rewrite uset_lookup_other; [exact E | exact ND | congruence].
  - unfold c_removeWalker in H. rewrite vacate_eq in H. inversion H; subst. cbn [c_sites c_with_sites c_with_occ].
    split; [apply uset_NoDup; exact ND|]. intros j s' Hj E. rewrite uset_lookup_other; [exact E | exact ND | congruence].
  - apply keeps_getVisits in H. destruct H as [_ _ _ _ _ _ _ _ _ ->]. auto.
  - apply keeps_setVisits in H. destruct H as [_ _ _ _ _ _ _ _ _ ->]. auto.
  - assert (L : leaves (c_probOn k) c_sites).
    { unfold c_probOn. lv. match goal with |- leaves (if ?b then _ else _) _ => destruct b end; lv. }
    rewrite (L _ _ _ H); auto.
  - apply migrate_fst in H. destruct H as (_ & _ & _ & _ & _ & -> & _). split; [apply take_in_NoDup; exact ND|].
    intros j s _ E. apply take_in_lookup; assumption.
Qed.
Lemma sstep_neat o c c' : sstep o c c' -> neat c -> neat c'.
Proof.
  intros S [A B]. split; [apply (sstep_sites o c c' S A)|]. rewrite (sstep_remaining o c c' S A). exact B.
Qed.

(** ** A walker asking for its dwell time *)
(** time the walker still has to stay: what is left, or a fresh draw *)
Definition budget w c : num := match ulookup w (c_remaining c) with Some d => d | None => dwell_of (fst (edraw (c_rng c))) (c_tau c) end.
Definition after_draw w c : cluster :=
  if umem w (c_remaining c) then c
  else c_with_remaining (uset (c_remaining c) w (dwell_of (fst (edraw (c_rng c))) (c_tau c))) (c_with_rng (snd (edraw (c_rng c))) c).
Lemma getDwell_eq w c : NoDup (ukeys (c_remaining c)) ->
  c_getDwellTime w c =
    if neqb (c_tau c) unassigned_value then Halt AssertFailed
    else
      let d := budget w c in
      let c1 := after_draw w c in
      let c2 := c_with_remaining (uset (c_remaining c1) w (nsub d (c_inc c))) c1 in
      if nltb (c_inc c) d then Ret (c_inc c) c2
      else if nltb n0 d then Ret d c2 else Halt AssertFailed.
Proof.
  intros ND. unfold c_getDwellTime, bind, gets, cassert. destruct (neqb _ _); [reflexivity|]. cbn [negb]. unfold ret at 1.
  unfold budget, after_draw.
  destruct (umem w (c_remaining c)) eqn:Em.
  - unfold ret at 1. unfold modify. unfold uget. destruct (proj1 (umem_lookup _ _) Em) as (v & ->).
    destruct (nltb (c_inc c) v); [reflexivity|]. destruct (nltb n0 v); reflexivity.
  - apply umem_false_lookup in Em. rewrite Em. unfold c_draw. destruct (edraw (c_rng c)) as [u e] eqn:Ed. cbn [fst snd].
    unfold modify. cbn [c_remaining c_with_remaining c_with_rng c_inc c_tau]. unfold uget.
    rewrite (uset_lookup_same _ _ _ ND).
    destruct (nltb (c_inc c) _); [reflexivity|]. destruct (nltb n0 _); reflexivity.
Qed.
Lemma after_draw_lookup w c j : NoDup (ukeys (c_remaining c)) -> j <> w ->
  NoDup (ukeys (c_remaining (after_draw w c))) /\
  ulookup j (c_remaining (after_draw w c)) = ulookup j (c_remaining c).
Proof.
  intros ND Hj. unfold after_draw. destruct (umem _ _); [auto|]. cbn [c_remaining c_with_remaining].
  split; [apply uset_NoDup; exact ND | apply uset_lookup_other; auto].
Qed.
Lemma getDwell_inv w c d c' : c_getDwellTime w c = Ret d c' -> NoDup (ukeys (c_remaining c)) ->
  exists rm r, c' = c_with_remaining rm (c_with_rng r c) /\ NoDup (ukeys rm) /\
    (umem w (c_remaining c) = true -> r = c_rng c) /\
    ulookup w rm = Some (nsub (budget w c) (c_inc c)) /\
    (forall j, j <> w -> ulookup j rm = ulookup j (c_remaining c)) /\
    (d = c_inc c /\ nltb (c_inc c) (budget w c) = true \/
     d = budget w c /\ nltb (c_inc c) (budget w c) = false /\ nltb n0 (budget w c) = true).
Proof.
  intros E ND. rewrite (getDwell_eq w c ND) in E. destruct (neqb _ _); [discriminate|]. cbn zeta in E.
  assert (NA : NoDup (ukeys (c_remaining (after_draw w c)))).
  { unfold after_draw. destruct (umem _ _); [exact ND|]. apply uset_NoDup; exact ND. }
  exists (uset (c_remaining (after_draw w c)) w (nsub (budget w c) (c_inc c))), (c_rng (after_draw w c)).
  split.
  { assert (X : c' = c_with_remaining (uset (c_remaining (after_draw w c)) w (nsub (budget w c) (c_inc c))) (after_draw w c)).
    { destruct (nltb (c_inc c) _); [congruence|]. destruct (nltb n0 _); [congruence | discriminate]. }
    rewrite X. unfold after_draw. destruct (umem _ _); [destruct c; reflexivity | reflexivity]. }
  split; [apply uset_NoDup; exact NA|]. split; [|split; [|split]].
  - intros Em. unfold after_draw. rewrite Em. reflexivity.
  - apply uset_lookup_same; exact NA.
  - intros j Hj. rewrite (uset_lookup_other _ _ _ _ NA Hj). apply after_draw_lookup; auto.
  - destruct (nltb (c_inc c) _); [left; split; [congruence | reflexivity]|].
    destruct (nltb n0 _); [right; split; [congruence | auto] | discriminate].
Qed.
(** with a remembered walker the random engine is not consulted *)
Lemma getDwell_no_draw w c e : umem w (c_remaining c) = true ->
  c_getDwellTime w (c_with_rng e c) =
  match c_getDwellTime w c with
  | Ret d c2 => Ret d (c_with_rng e c2) | Thr x c2 => Thr x (c_with_rng e c2) | Halt b => Halt b
  end.
Proof.
  intros Em. unfold c_getDwellTime, bind, gets, cassert. cbn [c_tau c_with_rng c_remaining].
  destruct (neqb _ _); [reflexivity|]. cbn [negb]. unfold ret, stop, modify. rewrite Em.
  cbn [c_remaining c_with_rng c_inc]. destruct (nltb (c_inc c) _); [reflexivity|]. destruct (nltb n0 _); reflexivity.
Qed.

Lemma pick_inv w c k c' : c_pick w c = Ret k c' ->
  exists b r, c_hopWithin c w = Ok b /\
    c_pick w c = (if b then c_pickInternal c else c_pickNeighbor w c) /\
    c' = c_with_remaining (if b then c_remaining c else uremove w (c_remaining c)) (c_with_rng r c).
Proof.
  intros E. unfold c_pick, bind, gets in E |- *. unfold lift in *. destruct (c_hopWithin c w) as [b|x|x]; [|discriminate|discriminate].
  exists b. destruct b.
  - unfold c_pickInternal, bind, c_draw in E |- *. destruct (edraw (c_rng c)) as [u e]. exists e. split; [reflexivity|]. split; [reflexivity|].
    unfold gets, ret in E. inversion E; subst. destruct c; reflexivity.
  - unfold c_pickNeighbor, bind, modify, c_draw in E |- *. cbn [c_rng c_with_remaining] in *. destruct (edraw (c_rng c)) as [u e].
    exists e. split; [reflexivity|]. split; [reflexivity|]. unfold gets, ret in E. inversion E; subst. reflexivity.
Qed.

Lemma cstep_neat c c' : cstep c c' -> neat c -> neat c'.
Proof.
  destruct 1; intros Hn.
  - eapply sstep_neat; eauto.
  - destruct Hn as [A B]. destruct (getDwell_inv _ _ _ _ H B) as (rm & r & -> & ND & _). split; [exact A | exact ND].
  - destruct Hn as [A B]. destruct (pick_inv _ _ _ _ H) as (b & r & _ & _ & ->). split; [exact A|].
    cbn [c_remaining c_with_remaining]. destruct b; [exact B | apply uremove_NoDup; exact B].
Qed.
Lemma csteps_neat c c' : csteps c c' -> neat c -> neat c'.
Proof. induction 1; intros; [assumption | eapply cstep_neat; eauto]. Qed.
Lemma built_neat c : built c -> neat c.
Proof.
  induction 1.
  - split; constructor.
  - eapply cstep_neat; eauto.
  - match goal with X : c_migrate _ _ _ = _ |- _ => apply migrate_fst in X; destruct X as (_ & _ & _ & _ & _ & _ & A & B) end.
    unfold neat. rewrite A, B. split; [constructor | apply IHbuilt].
Qed.

(** ** Other walkers do not disturb *)
Lemma others_neat w c c' : others w c c' -> neat c -> neat c'.
Proof.
  induction 1 as [|o a b c S IH X|j d a b c S IH Hj X|j k a b c S IH Hj X]; intros Hn; [assumption|..];
    apply (cstep_neat b c); auto.
  - eapply cs_sys; eauto.
  - eapply cs_dwell; eauto.
  - eapply cs_pick; eauto.
Qed.
Lemma others_lookup w c c' : others w c c' -> neat c -> ulookup w (c_remaining c') = ulookup w (c_remaining c).
Proof.
  induction 1 as [|o a b c S IH X|j d a b c S IH Hj X|j k a b c S IH Hj X]; intros Hn; [reflexivity|..];
    rewrite <- (IH Hn); destruct (others_neat _ _ _ S Hn) as [A B].
  - rewrite (sstep_remaining _ _ _ X A). reflexivity.
  - destruct (getDwell_inv _ _ _ _ X B) as (rm & r & -> & _ & _ & _ & L & _). apply L. congruence.
  - destruct (pick_inv _ _ _ _ X) as (b' & r & _ & _ & ->). cbn [c_remaining c_with_remaining].
    destruct b'; [reflexivity|]. rewrite (uremove_lookup _ _ _ B). destruct (Z.eqb_spec w j); congruence.
Qed.
Lemma entering_iff w c : entering w c <-> ulookup w (c_remaining c) = None.
Proof. symmetry. apply ulookup_None. Qed.

(** the two kinds of pick differ for a walker inside *)
Lemma pick_kind w c d : neat c -> ulookup w (c_remaining c) = Some d ->
  (c_pick w c = c_pickInternal c -> nltb n0 d = true) /\ (c_pick w c = c_pickNeighbor w c -> nltb n0 d = false) /\
  c_pick w c = if nltb n0 d then c_pickInternal c else c_pickNeighbor w c.
Proof.
  intros [_ ND] E.
  assert (X : c_pick w c = if nltb n0 d then c_pickInternal c else c_pickNeighbor w c).
  { unfold c_pick, bind, gets, c_hopWithin. rewrite E. unfold lift. destruct (nltb n0 d); reflexivity. }
  assert (D : c_pickInternal c <> c_pickNeighbor w c).
  { unfold c_pickInternal, c_pickNeighbor, bind, modify, c_draw, gets, ret. cbn [c_rng c_with_remaining].
    destruct (edraw _) as [u e]. intros Y.
    assert (Z0 : c_remaining (c_with_rng e c) = c_remaining (c_with_rng e (c_with_remaining (uremove w (c_remaining c)) c))) by congruence.
    cbn [c_remaining c_with_rng c_with_remaining] in Z0. rewrite Z0, (uremove_lookup _ _ _ ND), Z.eqb_refl in E. discriminate. }
  split; [|split; [|exact X]]; intros Y; rewrite Y in X; destruct (nltb n0 d); congruence.
Qed.
Lemma pickNeighbor_leaves_none w c k c' : neat c -> c_pickNeighbor w c = Ret k c' -> entering w c'.
Proof.
  intros [_ ND]. unfold c_pickNeighbor, bind, modify, c_draw, gets, ret. destruct (edraw _) as [u e]. intros E. inversion E; subst.
  apply entering_iff. cbn [c_remaining c_with_rng c_with_remaining]. rewrite (uremove_lookup _ _ _ ND), Z.eqb_refl. reflexivity.
Qed.

(** C27 *)
Lemma removed_remembered w k clock c0 d c c1 c2 c3 e d' c4 : built c0 ->
  c_getDwellTime w c0 = Ret d c -> others w c c1 -> c_removeWalker clock w k c1 = Ret tt c2 -> others w c2 c3 ->
  c_getDwellTime w c3 = Ret d' c4 -> c_getDwellTime w (c_with_rng e c3) = Ret d' (c_with_rng e c4).
Proof.
  intros Hb E O1 R O2 E2. pose proof (built_neat _ Hb) as Hn. destruct (getDwell_inv _ _ _ _ E (proj2 Hn)) as (rm & r & -> & ND & _ & L & _).
  assert (N1 : neat (c_with_remaining rm (c_with_rng r c0))) by (split; [apply Hn | exact ND]).
  pose proof (others_lookup _ _ _ O1 N1) as L1. cbn [c_remaining c_with_remaining] in L1. rewrite L in L1.
  pose proof (others_neat _ _ _ O1 N1) as N2.
  assert (O3 : others w c1 c2) by (eapply ot_sys; [apply ot_refl | eapply ss_remove; exact R]).
  pose proof (others_lookup _ _ _ O3 N2) as L2. pose proof (others_neat _ _ _ O3 N2) as N3.
  pose proof (others_lookup _ _ _ O2 N3) as L3.
  rewrite getDwell_no_draw; [rewrite E2; reflexivity|]. apply umem_lookup. eexists. rewrite L3, L2, L1. reflexivity.
Qed.
(** leaving through an exit forgets the walker *)
Lemma left_forgotten w c k c1 c2 d c3 : built c -> c_pickNeighbor w c = Ret k c1 -> others w c1 c2 ->
  c_getDwellTime w c2 = Ret d c3 ->
  d = c_inc c2 \/ d = dwell_of (fst (edraw (c_rng c2))) (c_tau c2).
Proof.
  intros Hb E O E2. pose proof (built_neat _ Hb) as Hn. pose proof (proj1 (entering_iff _ _) (pickNeighbor_leaves_none _ _ _ _ Hn E)) as L.
  assert (N1 : neat c1).
  { unfold c_pickNeighbor, bind, modify, c_draw, gets, ret in E. destruct (edraw _) as [u e]. inversion E; subst.
    split; [apply Hn | cbn [c_remaining c_with_rng c_with_remaining]; apply uremove_NoDup, Hn]. }
  rewrite <- (others_lookup _ _ _ O N1) in L. pose proof (others_neat _ _ _ O N1) as N2.
  destruct (getDwell_inv _ _ _ _ E2 (proj2 N2)) as (rm & r & _ & _ & _ & _ & _ & [[-> _]|[-> _]]); [auto|].
  right. unfold budget. rewrite L. reflexivity.
Qed.

(** C29 *)
Lemma site_marks k c x c' y : marks k c x c' y -> neat c ->
  (exists s, ulookup k (c_sites c) = Some s /\ s_occ s <= 1) -> c_isOccupied c k = Ok x ->
  neat c' /\ (exists s, ulookup k (c_sites c') = Some s /\ s_occ s <= 1) /\ c_isOccupied c' k = Ok y.
Proof.
  intros Hm Hn Hs Hx. unfold c_isOccupied in *.
  induction Hm as [|a x b y c Hm IH X|clock a x b y c Hm IH X|clock w a x b y c Hm IH X|o a x b y c Hm IH Ho X|w d a x b y c Hm IH X|w j a x b y c Hm IH X];
    [auto|..]; destruct (IH Hn Hs Hx) as (Nb & (s & El & Hle) & Hy); rewrite El in Hy.
  - assert (Nc : neat c) by (eapply cstep_neat; [eapply cs_sys, ss_occupy; eauto | exact Nb]). split; [exact Nc|].
    apply occupy_inv in X. destruct X as (s' & El' & _ & ->). cbn [c_sites c_with_sites c_with_visits].
    rewrite (uset_lookup_same _ _ _ (proj1 Nb)). split; [eexists; split; [reflexivity | simpl; lia] | reflexivity].
  - assert (Nc : neat c) by (eapply cstep_neat; [eapply cs_sys, ss_vacate; eauto | exact Nb]). split; [exact Nc|].
    rewrite vacate_eq in X. inversion X; subst. cbn [c_sites c_with_sites c_with_occ].
    rewrite (uset_lookup_same _ _ _ (proj1 Nb)), El. split; [eexists; split; [reflexivity | simpl; lia]|].
    f_equal. unfold s_isOccupied. cbn [s_occ s_with_occ]. lia.
  - unfold c_removeWalker in X. assert (Nc : neat c) by (eapply cstep_neat; [eapply cs_sys, ss_vacate; eauto | exact Nb]). split; [exact Nc|].
    rewrite vacate_eq in X. inversion X; subst. cbn [c_sites c_with_sites c_with_occ].
    rewrite (uset_lookup_same _ _ _ (proj1 Nb)), El. split; [eexists; split; [reflexivity | simpl; lia]|].
    f_equal. unfold s_isOccupied. cbn [s_occ s_with_occ]. lia.
  - split; [eapply sstep_neat; eauto|]. destruct (sstep_sites _ _ _ X (proj1 Nb)) as [_ L]. rewrite (L k s Ho El). eauto.
  - split; [eapply cstep_neat; [eapply cs_dwell; eauto | exact Nb]|].
    destruct (getDwell_inv _ _ _ _ X (proj2 Nb)) as (rm & r & -> & _). cbn [c_sites c_with_remaining c_with_rng]. rewrite El. eauto.
  - split; [eapply cstep_neat; [eapply cs_pick; eauto | exact Nb]|].
    destruct (pick_inv _ _ _ _ X) as (b' & r & _ & _ & ->). cbn [c_sites c_with_remaining c_with_rng]. rewrite El. eauto.
Qed.
Lemma occupied_unseen k c c' : c_isOccupied0 c = false -> NoDup (c_siteIds c) -> c_occupy k c = Ret tt c' ->
  c_isOccupied c' k = Ok true /\ c_isOccupied0 c' = false.
Proof.
  intros H0 ND E. apply occupy_inv in E. destruct E as (s & El & _ & ->). unfold c_isOccupied, c_isOccupied0.
  cbn [c_sites c_with_sites c_with_visits c_occ]. rewrite (uset_lookup_same _ _ _ ND). split; [reflexivity | exact H0].
Qed.
End Stay.
