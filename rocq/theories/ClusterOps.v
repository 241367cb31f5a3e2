(** * Histories of cluster operations, for every arithmetic *)
From Coq Require Import ZArith List Bool Lia Permutation.
From Verif Require Import Base BaseProofs Num SiteModel ClusterModel ClusterFrame ClusterSpec ClusterHist.
Import ListNotations.
Open Scope Z_scope.

Section Ops.
Context {I : Impl} {N : Num} {G : Rng}.

(** ** The occupation map only has members as keys *)
Record tidy (c : cluster) : Prop := {
  td_pon : NoDup (ukeys (c_pon c));
  td_sub : forall k, In k (ukeys (c_pon c)) -> In k (c_siteIds c);
  td_idwell : NoDup (ukeys (c_idwell c)) }.

Lemma tidy_core c c' : tidy c -> c_pon c' = c_pon c -> c_idwell c' = c_idwell c ->
  (forall k, In k (c_siteIds c) -> In k (c_siteIds c')) -> tidy c'.
Proof. intros [A B C] Ep Ed Es. constructor; rewrite ?Ep, ?Ed; auto. Qed.

Lemma fold_uset_tidy {V W} (g : Z * W -> V) (l : list (Z * W)) : forall m, NoDup (ukeys m) ->
  NoDup (ukeys (fold_left (fun m e => uset m (fst e) (g e)) l m)) /\
  forall k, In k (ukeys (fold_left (fun m e => uset m (fst e) (g e)) l m)) <-> In k (map fst l) \/ In k (ukeys m).
Proof.
  induction l as [|e l IH]; intros m NM; cbn [fold_left]; [simpl; tauto|].
  destruct (IH _ (uset_NoDup m (fst e) (g e) NM)) as [A B]. split; [exact A|].
  intros k. rewrite B, uset_keys_In. simpl. intuition.
Qed.

Lemma it_temps_keys sites pon l ts : it_temps sites pon l = Ok ts -> map fst ts = map fst l.
Proof.
  revert ts; induction l as [|e l IH]; cbn [it_temps]; intros ts E; [inversion E; reflexivity|].
  apply rbind_ok_inv in E. destruct E as (t & _ & E). apply rbind_ok_inv in E. destruct E as (r & E1 & E).
  inversion E; subst. cbn [map fst]. rewrite (IH _ E1). reflexivity.
Qed.

Definition good_pon (sites : umap site) (pon : umap num) : Prop :=
  NoDup (ukeys pon) /\ forall k, In k (ukeys pon) -> In k (ukeys sites).
Lemma iterate_good sites pon pon' : good_pon sites pon -> iterate sites pon = Ok pon' -> good_pon sites pon'.
Proof.
  intros [A B] E. unfold iterate in E. apply rbind_ok_inv in E. destruct E as (ts & Et & E). inversion E; subst; clear E.
  match goal with |- good_pon _ (fold_left (fun m e => uset m (fst e) (@?g e)) ?l pon) =>
    destruct (fold_uset_tidy g l pon A) as [C D] end.
  split; [exact C|]. intros k Hk. apply D in Hk. destruct Hk as [Hk|Hk]; [|auto].
  rewrite map_map in Hk. assert (Hk' : In k (map fst ts)) by exact Hk. rewrite (it_temps_keys _ _ _ _ Et) in Hk'. exact Hk'.
Qed.
Lemma iterate_n_good sites n : forall pon pon', good_pon sites pon -> iterate_n n sites pon = Ok pon' -> good_pon sites pon'.
Proof.
  induction n as [|n IH]; cbn [iterate_n]; intros pon pon' Hg E; [inversion E; subst; exact Hg|].
  apply rbind_ok_inv in E. destruct E as (p1 & E1 & E). eapply IH; [|exact E]. eapply iterate_good; eauto.
Qed.
Lemma iterate_tol_good sites tol f : forall err pon pon', good_pon sites pon -> iterate_tol f tol err sites pon = Ok pon' -> good_pon sites pon'.
Proof.
  induction f as [|n IH]; cbn [iterate_tol]; intros err pon pon' Hg E; destruct (nltb tol err); try discriminate;
    try (inversion E; subst; exact Hg).
  apply rbind_ok_inv in E. destruct E as (p1 & E1 & E). eapply IH; [|exact E]. eapply iterate_good; eauto.
Qed.
Lemma solve_good sites fuel m it tol pon pon' : good_pon sites pon ->
  solve_pon fuel m it tol sites pon = Ok pon' -> good_pon sites pon'.
Proof.
  intros [A B] E. unfold solve_pon in E.
  assert (Hi : good_pon sites (init_pon sites pon)).
  { destruct (fold_uset_tidy (fun _ : Z * site => ndiv n1 (nofZ (Z.of_nat (length sites)))) sites pon A) as [C D].
    split; [exact C|]. intros k Hk. apply D in Hk. destruct Hk; auto. }
  destruct m; [eapply iterate_n_good | eapply iterate_n_good | eapply iterate_tol_good]; eauto.
Qed.

(** fields of the cluster that a computation leaves alone *)
Definition leaves {A B} (m : M cluster A) (f : cluster -> B) : Prop := forall c a c', m c = Ret a c' -> f c' = f c.
Lemma leaves_ret {A B} (a : A) (f : cluster -> B) : leaves (ret a) f.
Proof. intros c b c' E; inversion E; reflexivity. Qed.
Lemma leaves_lift {A B} (r : res A) (f : cluster -> B) : leaves (lift r) f.
Proof. intros c b c' E. unfold lift in E. destruct r; inversion E; reflexivity. Qed.
Lemma leaves_gets {A B} (g : cluster -> A) (f : cluster -> B) : leaves (gets g) f.
Proof. intros c b c' E; inversion E; reflexivity. Qed.
Lemma leaves_stop {A B} x (f : cluster -> B) : leaves (stop (A := A) x) f.
Proof. intros c b c' E; discriminate. Qed.
Lemma leaves_assert {B} b (f : cluster -> B) : leaves (cassert b) f.
Proof. unfold cassert. destruct b; [apply leaves_ret | apply leaves_stop]. Qed.
Lemma leaves_bind {A C B} (m : M cluster A) (g : A -> M cluster C) (f : cluster -> B) :
  leaves m f -> (forall a, leaves (g a) f) -> leaves (bind m g) f.
Proof.
  intros Hm Hg c b c'' E. apply bind_ret_inv in E. destruct E as (a & c' & E1 & E2).
  rewrite (Hg a _ _ _ E2). apply (Hm _ _ _ E1).
Qed.
Lemma leaves_modify {B} g (f : cluster -> B) : (forall c, f (g c) = f c) -> leaves (modify g) f.
Proof. intros Hg c b c' E; inversion E; subst; apply Hg. Qed.
Lemma leaves_mfor {A B} (l : list A) (body : A -> M cluster unit) (f : cluster -> B) :
  (forall x, leaves (body x) f) -> leaves (mfor l body) f.
Proof. intros Hb. induction l; cbn [mfor]; [apply leaves_ret | apply leaves_bind; auto]. Qed.

Ltac lv := repeat first
  [ apply leaves_bind; [|intros ?] | apply leaves_ret | apply leaves_lift | apply leaves_gets | apply leaves_stop
  | apply leaves_assert | (apply leaves_modify; intros; reflexivity) | (apply leaves_mfor; intros ?) ].

Lemma getVisits_leaves {B} k (f : cluster -> B) :
  (forall c v w, f (c_with_prev v (c_with_svisits w c)) = f c) -> leaves (c_getVisits k) f.
Proof.
  intros Hf. unfold c_getVisits. lv.
  - destruct (_ =? _); [lv|]. lv. apply leaves_modify. intros c. apply Hf.
  - destruct (ntrunc _); lv.
Qed.
Lemma visitList_leaves {B} l (f : cluster -> B) :
  (forall c v w, f (c_with_prev v (c_with_svisits w c)) = f c) -> leaves (c_visitList l) f.
Proof.
  intros Hf. induction l; cbn [c_visitList]; [lv|]. apply leaves_bind; [apply getVisits_leaves; exact Hf|].
  intros v. apply leaves_bind; [exact IHl|]. intros; lv.
Qed.
Lemma setVisits_leaves {B} v k (f : cluster -> B) : (forall c w, f (c_with_svisits w c) = f c) -> leaves (c_setVisits v k) f.
Proof. intros Hf. unfold c_setVisits. lv. apply leaves_modify. intros; apply Hf. Qed.

Lemma calcDwell_tidy h c c' : c_calcInternalDwell h c = Ret tt c' -> tidy c -> tidy c'.
Proof.
  unfold c_calcInternalDwell. rewrite modify_eq. intros E [A B C].
  match type of E with Ret tt ?x = _ => assert (Ec : c' = x) by congruence end. subst c'; clear E. constructor; [exact A | exact B |].
  exact (proj1 (fold_uset_tidy (fun e : Z * umap num => ndiv n1 (sum_snd (snd e))) (int_rates h (c_sites c)) (c_idwell c) C)).
Qed.

Lemma leaves_tidy {A} (m : M cluster A) : leaves m c_pon -> leaves m c_idwell -> leaves m c_siteIds ->
  forall c a c', m c = Ret a c' -> tidy c -> tidy c'.
Proof.
  intros Lp Ld Ls c a c' E T. apply (tidy_core c c' T (Lp _ _ _ E) (Ld _ _ _ E)).
  intros k. rewrite (Ls _ _ _ E). auto.
Qed.

Definition keeps_tidy {A} (m : M cluster A) : Prop := forall c a c', m c = Ret a c' -> tidy c -> tidy c'.
Lemma kt_bind {A B} (m : M cluster A) (g : A -> M cluster B) : keeps_tidy m -> (forall a, keeps_tidy (g a)) -> keeps_tidy (bind m g).
Proof. intros Hm Hg c b c'' E T. apply bind_ret_inv in E. destruct E as (a & c' & E1 & E2). eapply Hg; eauto. Qed.
Lemma kt_leaves {A} (m : M cluster A) : leaves m c_pon -> leaves m c_idwell -> leaves m c_siteIds -> keeps_tidy m.
Proof. intros X Y Z c a c' E T. exact (leaves_tidy m X Y Z c a c' E T). Qed.
Ltac ktl := apply kt_leaves; lv.

Lemma kt_calcDwell h : keeps_tidy (c_calcInternalDwell h).
Proof. intros c [] c' E T. eapply calcDwell_tidy; eauto. Qed.
Lemma kt_solve fuel h : keeps_tidy (c_solve fuel h).
Proof.
  intros c a c' E T. unfold c_solve in E. apply bind_ret_inv in E. destruct E as (c0 & s0 & E0 & E). inversion E0; subst c0 s0; clear E0.
  apply bind_ret_inv in E. destruct E as (pon & s1 & E1 & E). unfold lift in E1.
  destruct (solve_pon _ _ _ _ _ _) eqn:Es; inversion E1; subst; clear E1.
  apply bind_ret_inv in E. destruct E as (u & s2 & E2 & E). rewrite modify_eq in E2. inversion E2; subst; clear E2.
  assert (T1 : tidy (c_with_pon pon s1)).
  { destruct T as [A B C]. destruct (solve_good _ _ _ _ _ _ _ (conj A B) Es) as [D F]. constructor; assumption. }
  revert E T1. generalize (c_with_pon pon s1). intros c2 E T1.
  assert (KT : keeps_tidy (c_calcHopToInternal ;; c_calcHopToNeighbors ;; c_calcInternalDwell h)).
  { apply kt_bind; [unfold c_calcHopToInternal; ktl|]. intros _.
    apply kt_bind; [unfold c_calcHopToNeighbors; ktl|]. intros _. apply kt_calcDwell. }
  exact (KT _ _ _ E T1).
Qed.
Lemma kt_setVisits v k : keeps_tidy (c_setVisits v k).
Proof. apply kt_leaves; apply setVisits_leaves; reflexivity. Qed.
Lemma kt_getVisits k : keeps_tidy (c_getVisits k).
Proof. apply kt_leaves; apply getVisits_leaves; reflexivity. Qed.
Lemma kt_visitList l : keeps_tidy (c_visitList l).
Proof. apply kt_leaves; apply visitList_leaves; reflexivity. Qed.
Lemma kt_mfor {A} (l : list A) body : (forall x, keeps_tidy (body x)) -> keeps_tidy (mfor l body).
Proof. intros Hb. induction l; cbn [mfor]; [ktl | apply kt_bind; auto]. Qed.
Lemma kt_update fuel h : keeps_tidy (c_update fuel h).
Proof.
  unfold c_update. apply kt_bind; [ktl|]. intros ?. apply kt_bind; [apply kt_visitList|]. intros saved.
  apply kt_bind; [apply kt_solve|]. intros _.
  unfold c_calcSumOff, c_calcSumInt, c_calcHopOff, c_calcHopBetween, c_calcTau, c_calcITau.
  apply kt_bind; [ktl|]. intros _. apply kt_bind; [ktl|]. intros _. apply kt_bind; [ktl|]. intros _.
  apply kt_bind; [ktl|]. intros _. apply kt_bind; [ktl|]. intros _. apply kt_bind; [ktl|]. intros _.
  apply kt_bind; [ktl|]. intros _. apply kt_bind; [ktl|]. intros ids.
  apply kt_bind; [|intros _; apply kt_calcDwell].
  apply kt_mfor. intros k. apply kt_bind; [ktl|]. intros _. destruct (ulookup k saved); [apply kt_setVisits | ktl].
Qed.
Lemma kt_addSite s : keeps_tidy (c_addSite s).
Proof.
  unfold c_addSite. apply kt_bind; [ktl|]. intros i. apply kt_bind; [ktl|]. intros c0. apply kt_bind; [ktl|]. intros _.
  apply kt_bind; [|intros; ktl].
  intros c [] c' E T. rewrite modify_eq in E. inversion E; subst. apply (tidy_core c _ T); try reflexivity.
  intros k Hk. unfold c_siteIds. cbn [c_sites c_with_sites]. apply uset_keys_In. auto.
Qed.
Lemma kt_addSites l : keeps_tidy (c_addSites l).
Proof. apply kt_mfor. intros s. apply kt_bind; [apply kt_addSite | intros; ktl]. Qed.
Lemma kt_occupy k : keeps_tidy (c_occupy k).
Proof.
  intros c a c' E T. unfold c_occupy in E. apply bind_ret_inv in E. destruct E as (c0 & s0 & E0 & E). inversion E0; subst c0 s0; clear E0.
  apply bind_ret_inv in E. destruct E as (u & s1 & E1 & E). unfold cassert in E1. destruct (umem k (c_svisits c)); inversion E1; subst; clear E1.
  destruct (ulookup k (c_sites s1)); [|discriminate]. rewrite modify_eq in E. inversion E; subst.
  apply (tidy_core s1 _ T); try reflexivity. intros j Hj. unfold c_siteIds. cbn [c_sites c_with_sites]. apply uset_keys_In. auto.
Qed.
Lemma kt_vacate clock k : keeps_tidy (c_vacate clock k).
Proof.
  unfold c_vacate, c_vacate0. apply kt_bind; [|intros; ktl].
  intros c [] c' E T. rewrite modify_eq in E. inversion E; subst. apply (tidy_core c _ T); try reflexivity.
  intros j Hj. unfold c_siteIds. cbn [c_sites c_with_sites]. apply uset_keys_In. auto.
Qed.
Lemma draw_leaves {B} (f : cluster -> B) : (forall c v, f (c_with_rng v c) = f c) -> leaves c_draw f.
Proof. intros Hf c a c' E. unfold c_draw in E. destruct (edraw _). inversion E; subst. apply Hf. Qed.
Lemma dwell_leaves {B} w (f : cluster -> B) : (forall c v, f (c_with_rng v c) = f c) ->
  (forall c v, f (c_with_remaining v c) = f c) -> leaves (c_getDwellTime w) f.
Proof.
  intros Hf Hg. unfold c_getDwellTime. lv.
  - destruct (umem w _); [lv|]. apply leaves_bind; [apply draw_leaves; exact Hf|]. intros u. apply leaves_modify. intros; apply Hg.
  - apply leaves_modify. intros; apply Hg.
  - destruct (nltb _ _); lv.
Qed.
Lemma pick_leaves {B} w (f : cluster -> B) : (forall c v, f (c_with_rng v c) = f c) ->
  (forall c v, f (c_with_remaining v c) = f c) -> leaves (c_pick w) f.
Proof.
  intros Hf Hg. unfold c_pick. lv. match goal with |- leaves (if ?b then _ else _) _ => destruct b end.
  - unfold c_pickInternal. apply leaves_bind; [apply draw_leaves; exact Hf|]. intros; lv.
  - unfold c_pickNeighbor. apply leaves_bind; [apply leaves_modify; intros; apply Hg|]. intros _.
    apply leaves_bind; [apply draw_leaves; exact Hf|]. intros; lv.
Qed.
Lemma kt_dwell w : keeps_tidy (c_getDwellTime w).
Proof. apply kt_leaves; apply dwell_leaves; reflexivity. Qed.
Lemma kt_pick w : keeps_tidy (c_pick w).
Proof. apply kt_leaves; apply pick_leaves; reflexivity. Qed.
Lemma kt_probOn k : keeps_tidy (c_probOn k).
Proof.
  intros c a c' E T. unfold c_probOn in E. apply bind_ret_inv in E. destruct E as (c0 & s0 & E0 & E). inversion E0; subst c0 s0; clear E0.
  apply bind_ret_inv in E. destruct E as (u & s1 & E1 & E). unfold cassert in E1.
  destruct (umem k (c_sites c)) eqn:Em; inversion E1; subst; clear E1.
  apply bind_ret_inv in E. destruct E as (u & s2 & E1 & E). inversion E; subst; clear E.
  destruct (umem k (c_pon s1)); [inversion E1; subst; exact T|]. rewrite modify_eq in E1. inversion E1; subst.
  destruct T as [A B C]. constructor; cbn [c_pon c_with_pon c_idwell]; [apply uset_NoDup; exact A| |exact C].
  intros j Hj. apply uset_keys_In in Hj. destruct Hj as [->|Hj]; [apply umem_In; exact Em | apply B; exact Hj].
Qed.

(** both clusters of a merge *)
Lemma migrate_snd fuel h p p' : c_migrate fuel h p = Ret tt p' -> tidy (snd p').
Proof.
  intros E. unfold c_migrate in E.
  apply bind_ret_inv in E. destruct E as (i & s0 & E0 & E). inversion E0; subst i s0; clear E0.
  apply bind_ret_inv in E. destruct E as (u & s0 & E0 & E). unfold onSnd, zoom in E0. rewrite modify_eq in E0. inversion E0; subst u s0; clear E0.
  apply bind_ret_inv in E. destruct E as (ids & s0 & E0 & E). inversion E0; subst ids s0; clear E0.
  apply bind_ret_inv in E. destruct E as (vs & s1 & E0 & E).
  apply bind_ret_inv in E. destruct E as (mv & s2 & E1 & E). inversion E1; subst mv s2; clear E1.
  apply bind_ret_inv in E. destruct E as (u & s3 & E1 & E). unfold onFst, zoom in E1. rewrite modify_eq in E1. inversion E1; subst u s3; clear E1.
  apply bind_ret_inv in E. destruct E as (u & s4 & E1 & E). unfold onSnd, zoom in E1. rewrite modify_eq in E1. inversion E1; subst u s4; clear E1.
  cbn [fst snd] in E.
  apply bind_ret_inv in E. destruct E as (u & s5 & E1 & E). unfold onFst, zoom in E1. cbn [fst snd] in E1.
  destruct (c_update _ _ _) as [[] c3|? ?|?] eqn:Eu in E1; inversion E1; subst; clear E1.
  set (b0 := c_clearMigrated (snd s1)) in *.
  assert (Gen : forall vs c3, mfor vs (fun e => onFst (c_setVisits (snd e) (fst e))) (c3, b0) = Ret tt p' -> snd p' = b0).
  { clear. induction vs as [|e vs IH]; cbn [mfor]; intros c3 E; [inversion E; subst; auto|].
    apply bind_ret_inv in E. destruct E as (u & s5 & E1 & E). unfold onFst, zoom in E1. cbn [fst snd] in E1.
    destruct (c_setVisits _ _ _) as [[] c4|? ?|?] eqn:Eu in E1; inversion E1; subst; clear E1.
    eapply IH; exact E. }
  rewrite (Gen vs c3 E). constructor; cbn; [constructor | intros ? [] | constructor].
Qed.
Lemma migrate_tidy fuel h p p' : c_migrate fuel h p = Ret tt p' -> tidy (fst p) -> tidy (fst p') /\ tidy (snd p').
Proof.
  intros E T1. unfold c_migrate in E.
  apply bind_ret_inv in E. destruct E as (i & s0 & E0 & E). inversion E0; subst i s0; clear E0.
  apply bind_ret_inv in E. destruct E as (u & s0 & E0 & E). unfold onSnd, zoom in E0. rewrite modify_eq in E0. inversion E0; subst u s0; clear E0.
  apply bind_ret_inv in E. destruct E as (ids & s0 & E0 & E). inversion E0; subst ids s0; clear E0.
  apply bind_ret_inv in E. destruct E as (vs & s1 & E0 & E).
  apply bind_ret_inv in E. destruct E as (mv & s2 & E1 & E). inversion E1; subst mv s2; clear E1.
  apply bind_ret_inv in E. destruct E as (u & s3 & E1 & E). unfold onFst, zoom in E1. rewrite modify_eq in E1. inversion E1; subst u s3; clear E1.
  apply bind_ret_inv in E. destruct E as (u & s4 & E1 & E). unfold onSnd, zoom in E1. rewrite modify_eq in E1. inversion E1; subst u s4; clear E1.
  unfold onSnd, zoom in E0. destruct (c_visitList _ _) as [x c2|? ?|?] eqn:Ev in E0; inversion E0; subst; clear E0.
  cbn [fst snd] in E.
  match type of E with bind _ _ (?a, ?b) = _ => assert (Ta : tidy a); [|assert (Tb : tidy b)] end.
  { apply (tidy_core (fst p) _ T1); try reflexivity. unfold c_siteIds. cbn [c_sites c_with_sites].
    intros k Hk. generalize (c_sites c2). intros mv.
    assert (Gen : forall mv m, In k (ukeys m) -> In k (ukeys (fold_left (fun m (e : Z * site) => if umem (fst e) m then m else uset m (fst e) (snd e)) mv m))).
    { induction mv0 as [|e mv0 IH]; intros m Hm; [exact Hm|]. cbn [fold_left]. apply IH.
      destruct (umem (fst e) m); [exact Hm | apply uset_keys_In; auto]. }
    apply Gen. exact Hk. }
  { constructor; cbn; [constructor | intros ? [] | constructor]. }
  apply bind_ret_inv in E. destruct E as (u & s5 & E1 & E). unfold onFst, zoom in E1. cbn [fst snd] in E1.
  destruct (c_update _ _ _) as [[] c3|? ?|?] eqn:Eu in E1; inversion E1; subst; clear E1.
  pose proof (kt_update fuel h _ _ _ Eu Ta) as T3.
  set (b0 := c_clearMigrated c2) in *.
  assert (Gen : forall vs c3, tidy c3 -> mfor vs (fun e => onFst (c_setVisits (snd e) (fst e))) (c3, b0) = Ret tt p' -> tidy (fst p') /\ snd p' = b0).
  { clear. induction vs as [|e vs IH]; cbn [mfor]; intros c3 T3 E; [inversion E; subst; auto|].
    apply bind_ret_inv in E. destruct E as (u & s5 & E1 & E). unfold onFst, zoom in E1. cbn [fst snd] in E1.
    destruct (c_setVisits _ _ _) as [[] c4|? ?|?] eqn:Eu in E1; inversion E1; subst; clear E1.
    eapply IH; [|exact E]. eapply kt_setVisits; eauto. }
  destruct (Gen vs c3 T3 E) as [A B]. split; [exact A|]. rewrite B. exact Tb.
Qed.

(** ** Histories *)
Lemma never_updated_built c : never_updated c -> built c.
Proof.
  induction 1; [constructor|..]; (eapply built_step; [eassumption|]).
  - eapply cs_sys; eapply ss_method; eauto.
  - eapply cs_sys; eapply ss_tol; eauto.
  - eapply cs_sys; eapply ss_iters; eauto.
  - eapply cs_sys; eapply ss_res; eauto.
  - eapply cs_sys; eapply ss_seed; eauto.
  - eapply cs_sys; eapply ss_add; eauto.
Qed.

Lemma sstep_tidy o c c' : sstep o c c' -> tidy c -> tidy c'.
Proof.
  destruct 1; intros T.
  - assert (K : keeps_tidy (c_setMethod m)) by (unfold c_setMethod; ktl). eapply K; eauto.
  - assert (K : keeps_tidy (c_setTolerance t)) by (unfold c_setTolerance; ktl). eapply K; eauto.
  - assert (K : keeps_tidy (c_setIterations n)) by (unfold c_setIterations; ktl). eapply K; eauto.
  - assert (K : keeps_tidy (c_setResolution r)) by (unfold c_setResolution; ktl). eapply K; eauto.
  - assert (K : keeps_tidy (c_setRandomSeed s)) by (unfold c_setRandomSeed; ktl). eapply K; eauto.
  - eapply kt_addSites; eauto.
  - eapply kt_update; eauto.
  - eapply kt_occupy; eauto.
  - eapply kt_vacate; eauto.
  - assert (K : keeps_tidy c_occupy0) by (unfold c_occupy0; ktl). eapply K; eauto.
  - assert (K : keeps_tidy c_vacate0) by (unfold c_vacate0; ktl). eapply K; eauto.
  - eapply kt_vacate; eauto.
  - eapply kt_getVisits; eauto.
  - eapply kt_setVisits; eauto.
  - eapply kt_probOn; eauto.
  - exact (proj1 (migrate_tidy fuel h (c, d) (c', d') H T)).
Qed.
Lemma cstep_tidy c c' : cstep c c' -> tidy c -> tidy c'.
Proof.
  destruct 1; intros T; [eapply sstep_tidy | eapply kt_dwell | eapply kt_pick]; eauto.
Qed.
Lemma built_tidy c : built c -> tidy c.
Proof.
  induction 1.
  - constructor; cbn; [constructor | intros ? [] | constructor].
  - eapply cstep_tidy; eauto.
  - eapply (migrate_snd _ _ (c, d) (c', d')); eassumption.
Qed.

(** ** The cumulative tables only ever grow *)
Definition grows {A} (m : M cluster A) : Prop := forall c a c', m c = Ret a c' ->
  exists ti tn, c_cint c' = c_cint c ++ ti /\ c_cnbr c' = c_cnbr c ++ tn.
Lemma gr_leaves {A} (m : M cluster A) : leaves m c_cint -> leaves m c_cnbr -> grows m.
Proof. intros L1 L2 c a c' E. exists [], []. rewrite (L1 _ _ _ E), (L2 _ _ _ E), !app_nil_r. auto. Qed.
Lemma gr_bind {A B} (m : M cluster A) (g : A -> M cluster B) : grows m -> (forall a, grows (g a)) -> grows (bind m g).
Proof.
  intros Hm Hg c b c'' E. apply bind_ret_inv in E. destruct E as (a & c' & E1 & E2).
  destruct (Hm _ _ _ E1) as (t1 & t2 & A1 & A2). destruct (Hg _ _ _ _ E2) as (t3 & t4 & A3 & A4).
  exists (t1 ++ t3), (t2 ++ t4). rewrite A3, A4, A1, A2, !app_assoc. auto.
Qed.
Lemma gr_mfor {A} (l : list A) body : (forall x, grows (body x)) -> grows (mfor l body).
Proof. intros Hb. induction l; cbn [mfor]; [apply gr_leaves; lv | apply gr_bind; auto]. Qed.
Ltac grl := apply gr_leaves; lv.
Lemma gr_setVisits v k : grows (c_setVisits v k).
Proof. apply gr_leaves; apply setVisits_leaves; reflexivity. Qed.
Lemma gr_update fuel h : grows (c_update fuel h).
Proof.
  unfold c_update. apply gr_bind; [grl|]. intros ?. apply gr_bind; [apply gr_leaves; apply visitList_leaves; reflexivity|]. intros saved.
  apply gr_bind.
  { unfold c_solve. apply gr_bind; [grl|]. intros c0. apply gr_bind; [grl|]. intros pon. apply gr_bind; [grl|]. intros _.
    apply gr_bind; [|intros _; apply gr_bind; [|intros _; unfold c_calcInternalDwell; grl]].
    - unfold c_calcHopToInternal. apply gr_bind; [grl|]. intros c1. apply gr_bind; [grl|]. intros w. apply gr_bind; [grl|]. intros l.
      intros c2 [] c3 E. rewrite modify_eq in E. inversion E; subst. exists (cumulate n0 l), []. rewrite app_nil_r. split; reflexivity.
    - unfold c_calcHopToNeighbors. apply gr_bind; [grl|]. intros c1. apply gr_bind; [grl|]. intros w. apply gr_bind; [grl|]. intros l.
      intros c2 [] c3 E. rewrite modify_eq in E. inversion E; subst. exists [], (cumulate n0 l). rewrite app_nil_r. split; reflexivity. }
  intros _. unfold c_calcSumOff, c_calcSumInt, c_calcHopOff, c_calcHopBetween, c_calcTau, c_calcITau.
  apply gr_bind; [grl|]. intros _. apply gr_bind; [grl|]. intros _. apply gr_bind; [grl|]. intros _.
  apply gr_bind; [grl|]. intros _. apply gr_bind; [grl|]. intros _. apply gr_bind; [grl|]. intros _.
  apply gr_bind; [grl|]. intros _. apply gr_bind; [grl|]. intros ids.
  apply gr_bind; [|intros _; unfold c_calcInternalDwell; grl].
  apply gr_mfor. intros k. apply gr_bind; [grl|]. intros _. destruct (ulookup k saved); [apply gr_setVisits | grl].
Qed.
Lemma migrate_grows fuel h p p' : c_migrate fuel h p = Ret tt p' ->
  exists ti tn, c_cint (fst p') = c_cint (fst p) ++ ti /\ c_cnbr (fst p') = c_cnbr (fst p) ++ tn.
Proof.
  intros E. unfold c_migrate in E.
  apply bind_ret_inv in E. destruct E as (i & s0 & E0 & E). inversion E0; subst i s0; clear E0.
  apply bind_ret_inv in E. destruct E as (u & s0 & E0 & E). unfold onSnd, zoom in E0. rewrite modify_eq in E0. inversion E0; subst u s0; clear E0.
  apply bind_ret_inv in E. destruct E as (ids & s0 & E0 & E). inversion E0; subst ids s0; clear E0.
  apply bind_ret_inv in E. destruct E as (vs & s1 & E0 & E).
  apply bind_ret_inv in E. destruct E as (mv & s2 & E1 & E). inversion E1; subst mv s2; clear E1.
  apply bind_ret_inv in E. destruct E as (u & s3 & E1 & E). unfold onFst, zoom in E1. rewrite modify_eq in E1. inversion E1; subst u s3; clear E1.
  apply bind_ret_inv in E. destruct E as (u & s4 & E1 & E). unfold onSnd, zoom in E1. rewrite modify_eq in E1. inversion E1; subst u s4; clear E1.
  unfold onSnd, zoom in E0. destruct (c_visitList _ _) as [x c2|? ?|?] eqn:Ev in E0; inversion E0; subst; clear E0.
  cbn [fst snd] in E.
  apply bind_ret_inv in E. destruct E as (u & s5 & E1 & E). unfold onFst, zoom in E1. cbn [fst snd] in E1.
  destruct (c_update _ _ _) as [[] c3|? ?|?] eqn:Eu in E1; inversion E1; subst; clear E1.
  destruct (gr_update fuel h _ _ _ Eu) as (t1 & t2 & A1 & A2). cbn [c_cint c_cnbr c_with_sites] in A1, A2.
  set (b0 := c_clearMigrated c2) in *.
  assert (Gen : forall vs c3, mfor vs (fun e => onFst (c_setVisits (snd e) (fst e))) (c3, b0) = Ret tt p' ->
     c_cint (fst p') = c_cint c3 /\ c_cnbr (fst p') = c_cnbr c3).
  { clear. induction vs as [|e vs IH]; cbn [mfor]; intros c3 E; [inversion E; subst; auto|].
    apply bind_ret_inv in E. destruct E as (u & s5 & E1 & E). unfold onFst, zoom in E1. cbn [fst snd] in E1.
    destruct (c_setVisits _ _ _) as [[] c4|? ?|?] eqn:Eu in E1; inversion E1; subst; clear E1.
    destruct (IH _ E) as [A B]. apply setVisits_inv in Eu. destruct Eu as (-> & _). auto. }
  destruct (Gen _ _ E) as [B1 B2]. exists t1, t2. rewrite B1, B2. auto.
Qed.

Lemma sstep_grows o c c' : sstep o c c' -> exists ti tn, c_cint c' = c_cint c ++ ti /\ c_cnbr c' = c_cnbr c ++ tn.
Proof.
  destruct 1.
  - assert (K : grows (c_setMethod m)) by (unfold c_setMethod; grl). eapply K; eauto.
  - assert (K : grows (c_setTolerance t)) by (unfold c_setTolerance; grl). eapply K; eauto.
  - assert (K : grows (c_setIterations n)) by (unfold c_setIterations; grl). eapply K; eauto.
  - assert (K : grows (c_setResolution r)) by (unfold c_setResolution; grl). eapply K; eauto.
  - assert (K : grows (c_setRandomSeed s)) by (unfold c_setRandomSeed; grl). eapply K; eauto.
  - assert (K : grows (c_addSites l)).
    { apply gr_mfor. intros s. unfold c_addSite. grl. }
    eapply K; eauto.
  - eapply gr_update; eauto.
  - assert (K : grows (c_occupy k)).
    { unfold c_occupy. apply gr_bind; [grl|]. intros c0. apply gr_bind; [grl|]. intros _.
      destruct (ulookup k (c_sites c0)); grl. }
    eapply K; eauto.
  - assert (K : grows (c_vacate clock k)) by (unfold c_vacate, c_vacate0; grl). eapply K; eauto.
  - assert (K : grows c_occupy0) by (unfold c_occupy0; grl). eapply K; eauto.
  - assert (K : grows c_vacate0) by (unfold c_vacate0; grl). eapply K; eauto.
  - assert (K : grows (c_vacate clock k)) by (unfold c_vacate, c_vacate0; grl). eapply K; eauto.
  - assert (K : grows (c_getVisits k)) by (apply gr_leaves; apply getVisits_leaves; reflexivity). eapply K; eauto.
  - eapply gr_setVisits; eauto.
  - assert (K : grows (c_probOn k)).
    { unfold c_probOn. apply gr_bind; [grl|]. intros c0. apply gr_bind; [grl|]. intros _.
      apply gr_bind; [|intros _; grl]. destruct (umem k (c_pon c0)); grl. }
    eapply K; eauto.
  - exact (migrate_grows fuel h (c, d) (c', d') H).
Qed.
Lemma cstep_grows c c' : cstep c c' -> exists ti tn, c_cint c' = c_cint c ++ ti /\ c_cnbr c' = c_cnbr c ++ tn.
Proof.
  destruct 1.
  - eapply sstep_grows; eassumption.
  - assert (K : grows (c_getDwellTime w)) by (apply gr_leaves; apply dwell_leaves; reflexivity). eapply K; eauto.
  - assert (K : grows (c_pick w)) by (apply gr_leaves; apply pick_leaves; reflexivity). eapply K; eauto.
Qed.
Lemma csteps_grow c c' : csteps c c' -> exists ti tn, c_cint c' = c_cint c ++ ti /\ c_cnbr c' = c_cnbr c ++ tn.
Proof.
  induction 1 as [|a b c S (t1 & t2 & A1 & A2) E]; [exists [], []; rewrite !app_nil_r; auto|].
  destruct (cstep_grows b c E) as (t3 & t4 & A3 & A4). exists (t1 ++ t3), (t2 ++ t4).
  rewrite A3, A4, A1, A2, !app_assoc. auto.
Qed.
Lemma never_updated_empty c : never_updated c -> c_cint c = [] /\ c_cnbr c = [] /\ c_pint c = [] /\ c_pnbr c = [] /\
  c_svisits c = [] /\ c_pon c = [] /\ c_idwell c = [] /\ c_visits c = 0 /\ c_prev c = 0 /\ c_remaining c = [].
Proof.
  set (f := fun c : cluster => (c_cint c, c_cnbr c, c_pint c, c_pnbr c, c_svisits c, c_pon c, c_idwell c, c_visits c, c_prev c, c_remaining c)).
  assert (X : never_updated c -> f c = ([], [], [], [], [], [], [], 0, 0, [])).
  { induction 1 as [|m c c' _ IH E|t c c' _ IH E|n c c' _ IH E|r c c' _ IH E|s c c' _ IH E|l c c' _ IH E]; [reflexivity|..].
    - assert (L : leaves (c_setMethod m) f) by (unfold c_setMethod; lv). rewrite (L _ _ _ E). exact IH.
    - assert (L : leaves (c_setTolerance t) f) by (unfold c_setTolerance; lv). rewrite (L _ _ _ E). exact IH.
    - assert (L : leaves (c_setIterations n) f) by (unfold c_setIterations; lv). rewrite (L _ _ _ E). exact IH.
    - assert (L : leaves (c_setResolution r) f) by (unfold c_setResolution; lv). rewrite (L _ _ _ E). exact IH.
    - assert (L : leaves (c_setRandomSeed s) f) by (unfold c_setRandomSeed; lv). rewrite (L _ _ _ E). exact IH.
    - assert (L : leaves (c_addSites l) f).
      { unfold c_addSites. apply leaves_mfor. intros s. unfold c_addSite. lv. }
      rewrite (L _ _ _ E). exact IH. }
  intros H. specialize (X H). unfold f in X. inversion X. auto 12.
Qed.
End Ops.
