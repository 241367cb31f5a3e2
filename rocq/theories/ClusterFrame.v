(** * What the cluster operations leave alone, for every arithmetic *)
From Coq Require Import ZArith List Bool Lia Permutation.
From Verif Require Import Base BaseProofs Num SiteModel ClusterModel.
Import ListNotations.
Open Scope Z_scope.

Section Frame.
Context {I : Impl} {N : Num} {G : Rng}.

(** everything the update does not touch *)
Record same_core (c c' : cluster) : Prop := {
  sc_id : c_id c' = c_id c; sc_occ : c_occ c' = c_occ c; sc_visits : c_visits c' = c_visits c;
  sc_rng : c_rng c' = c_rng c; sc_res : c_res c' = c_res c; sc_iters : c_iters c' = c_iters c;
  sc_tol : c_tol c' = c_tol c; sc_method : c_method c' = c_method c;
  sc_remaining : c_remaining c' = c_remaining c; sc_sites : c_sites c' = c_sites c }.

Lemma same_core_refl c : same_core c c.
Proof. constructor; reflexivity. Qed.
Lemma same_core_trans a b c : same_core a b -> same_core b c -> same_core a c.
Proof. intros [] []. constructor; congruence. Qed.

(** a computation that keeps the core whenever it returns *)
Definition keeps {A} (m : M cluster A) : Prop := forall c a c', m c = Ret a c' -> same_core c c'.

Lemma keeps_ret {A} (a : A) : keeps (ret a).
Proof. intros c b c' E; inversion E; subst; apply same_core_refl. Qed.
Lemma keeps_stop {A} h : keeps (stop (A := A) h).
Proof. intros c b c' E; discriminate. Qed.
Lemma keeps_lift {A} (r : res A) : keeps (lift r).
Proof. intros c b c' E. unfold lift in E. destruct r; inversion E; subst; apply same_core_refl. Qed.
Lemma keeps_gets {A} (f : cluster -> A) : keeps (gets f).
Proof. intros c b c' E; inversion E; subst; apply same_core_refl. Qed.
Lemma keeps_assert b : keeps (cassert b).
Proof. unfold cassert. destruct b; [apply keeps_ret | apply keeps_stop]. Qed.
Lemma keeps_bind {A B} (m : M cluster A) (f : A -> M cluster B) :
  keeps m -> (forall a, keeps (f a)) -> keeps (bind m f).
Proof.
  intros Hm Hf c b c'' E. apply bind_ret_inv in E. destruct E as (a & c' & E1 & E2).
  eapply same_core_trans; [apply (Hm _ _ _ E1) | apply (Hf _ _ _ _ E2)].
Qed.
Lemma keeps_modify f : (forall c, same_core c (f c)) -> keeps (modify f).
Proof. intros Hf c b c' E; inversion E; subst; apply Hf. Qed.
Lemma keeps_mfor {A} (l : list A) (body : A -> M cluster unit) : (forall x, keeps (body x)) -> keeps (mfor l body).
Proof. intros Hb. induction l; simpl; [apply keeps_ret | apply keeps_bind; auto]. Qed.

Ltac kp := repeat first
  [ apply keeps_bind; [|intros ?] | apply keeps_ret | apply keeps_stop | apply keeps_lift | apply keeps_gets
  | apply keeps_assert | (apply keeps_modify; intros; constructor; reflexivity)
  | (apply keeps_mfor; intros ?) ].

Lemma keeps_getVisits k : keeps (c_getVisits k).
Proof.
  unfold c_getVisits. kp; [|destruct (ntrunc _); kp]. destruct (_ =? _); kp.
Qed.
Lemma keeps_visitList l : keeps (c_visitList l).
Proof.
  induction l; cbn [c_visitList]; [apply keeps_ret|].
  apply keeps_bind; [apply keeps_getVisits|]. intros v. apply keeps_bind; [exact IHl|]. intros; apply keeps_ret.
Qed.
Lemma keeps_setVisits f k : keeps (c_setVisits f k).
Proof. unfold c_setVisits. kp. Qed.
Lemma keeps_solve fuel h : keeps (c_solve fuel h).
Proof. unfold c_solve, c_calcHopToInternal, c_calcHopToNeighbors, c_calcInternalDwell. kp. Qed.
Lemma keeps_update fuel h : keeps (c_update fuel h).
Proof.
  unfold c_update.
  apply keeps_bind; [apply keeps_gets|intros ?].
  apply keeps_bind; [apply keeps_visitList|intros ?].
  apply keeps_bind; [apply keeps_solve|intros ?].
  unfold c_calcSumOff, c_calcSumInt, c_calcHopOff, c_calcHopBetween, c_calcTau, c_calcITau, c_calcInternalDwell.
  kp. destruct (ulookup _ _); [apply keeps_setVisits | kp].
Qed.

(** ** site_visits_ after an update has exactly the members as keys *)
Lemma modify_eq {S} (f : S -> S) s : modify f s = Ret tt (f s).
Proof. reflexivity. Qed.

Lemma setVisits_inv f k c c' : c_setVisits f k c = Ret tt c' ->
  c' = c_with_svisits (uset (c_svisits c) k (nofZ f)) c /\ umem k (c_svisits c) = true /\
  neqb (c_tau c) unassigned_value = false.
Proof.
  unfold c_setVisits. intros E. apply bind_ret_inv in E. destruct E as (c1 & s1 & E1 & E).
  inversion E1; subst c1 s1. unfold cassert in E.
  destruct (umem k (c_svisits c)) eqn:Em; [|discriminate].
  apply bind_ret_inv in E. destruct E as ([] & s1 & E2 & E). inversion E2; subst s1.
  destruct (neqb (c_tau c) unassigned_value) eqn:Et; [discriminate|].
  apply bind_ret_inv in E. destruct E as ([] & s1 & E3 & E). inversion E3; subst s1.
  inversion E; subst. auto.
Qed.

Definition refill (saved : umap Z) (k : Z) : M cluster unit :=
    modify (fun c => c_with_svisits (uset (c_svisits c) k n0) c) ;;
    match ulookup k saved with
    | Some v => c_setVisits v k
    | None => ret tt
    end.

Lemma refill_one saved k c c' : refill saved k c = Ret tt c' ->
  exists sv, c' = c_with_svisits sv c /\ (NoDup (ukeys (c_svisits c)) -> NoDup (ukeys sv)) /\
    (forall j, In j (ukeys sv) <-> j = k \/ In j (ukeys (c_svisits c))).
Proof.
  unfold refill. intros E. apply bind_ret_inv in E. destruct E as ([] & s1 & E1 & E).
  rewrite modify_eq in E1. inversion E1; subst s1; clear E1.
  destruct (ulookup k saved) as [v|].
  - apply setVisits_inv in E. destruct E as (-> & _). cbn [c_svisits c_with_svisits].
    eexists. split; [reflexivity|]. split.
    + intros ND. apply uset_NoDup, uset_NoDup, ND.
    + intros j. rewrite !uset_keys_In. tauto.
  - inversion E; subst. eexists. split; [reflexivity|]. split.
    + apply uset_NoDup.
    + intros j. apply uset_keys_In.
Qed.

Lemma refill_all saved l : forall c c', mfor l (refill saved) c = Ret tt c' ->
  exists sv, c' = c_with_svisits sv c /\ (NoDup (ukeys (c_svisits c)) -> NoDup (ukeys sv)) /\
    (forall j, In j (ukeys sv) <-> In j l \/ In j (ukeys (c_svisits c))).
Proof.
  induction l as [|k l IH]; cbn [mfor]; intros c c' E.
  - inversion E; subst. exists (c_svisits c'). split; [destruct c'; reflexivity|]. simpl. split; [auto|tauto].
  - apply bind_ret_inv in E. destruct E as ([] & c1 & E1 & E).
    apply refill_one in E1. destruct E1 as (sv & -> & ND & K).
    apply IH in E. destruct E as (sv' & -> & ND' & K'). cbn [c_svisits c_with_svisits] in *.
    exists sv'. split; [reflexivity|]. split; [auto|]. intros j. rewrite K', K. simpl. intuition.
Qed.

Lemma refill_keys l saved c c' :
  mfor l (refill saved) c = Ret tt c' -> c_svisits c = [] ->
  NoDup (ukeys (c_svisits c')) /\ forall j, In j (ukeys (c_svisits c')) <-> In j l.
Proof.
  intros E H0. apply refill_all in E. destruct E as (sv & -> & ND & K). cbn [c_svisits c_with_svisits].
  rewrite H0 in *. split; [apply ND; constructor|]. intros j. rewrite K. simpl. tauto.
Qed.

Lemma update_svisits fuel h c c' : c_update fuel h c = Ret tt c' ->
  NoDup (ukeys (c_svisits c')) /\ forall j, In j (ukeys (c_svisits c')) <-> In j (c_siteIds c).
Proof.
  intros E. pose proof (keeps_update fuel h c tt c' E) as KC.
  unfold c_update in E.
  repeat (apply bind_ret_inv in E; destruct E as (? & ? & ? & E)).
  repeat match goal with u : unit |- _ => destruct u end.
  repeat match goal with X : modify _ _ = Ret _ _ |- _ => rewrite modify_eq in X; inversion X; subst; clear X end.
  match goal with X : gets c_siteIds _ = Ret _ _ |- _ => inversion X; subst; clear X end.
  unfold c_calcInternalDwell in E. rewrite modify_eq in E. inversion E; subst; clear E.
  match goal with X : mfor _ _ _ = Ret _ _ |- _ => rename X into EM end.
  pose proof EM as EM'. apply refill_keys in EM'; [|reflexivity]. cbn [c_svisits c_with_idwell].
  destruct EM' as [ND K]. split; [exact ND|]. intros j. rewrite K.
  apply refill_all in EM. destruct EM as (sv & Ec & _). 
  unfold c_siteIds. destruct KC as [_ _ _ _ _ _ _ _ _ Hs]. cbn [c_sites c_with_idwell] in Hs.
  rewrite <- Hs, Ec. reflexivity.
Qed.
End Frame.
