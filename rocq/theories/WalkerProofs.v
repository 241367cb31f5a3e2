(** * Proofs about Walker and Identity *)
From Coq Require Import ZArith List Bool Lia.
From Verif Require Import Base Num WalkerModel.
Import ListNotations.
Open Scope Z_scope.

(** ** Specification: the last value passed to a setter *)
Fixpoint last_of {A B} (f : A -> option B) (ops : list A) : option B :=
  match ops with
  | [] => None
  | o :: r => match last_of f r with Some b => Some b | None => f o end
  end.
Definition site_given {N : Num} (o : wop) : option Z :=
  match o with WOccupy s => Some s | _ => None end.
Definition potential_given {N : Num} (o : wop) : option Z :=
  match o with WPotential s => Some s | _ => None end.
Definition dwell_given {N : Num} (o : wop) : option num :=
  match o with WDwell t => Some t | _ => None end.

Lemma last_of_snoc {A B} (f : A -> option B) l x :
  last_of f (l ++ [x]) = match f x with Some b => Some b | None => last_of f l end.
Proof.
  induction l as [|a l IH]; simpl.
  - destruct (f x); reflexivity.
  - rewrite IH. destruct (f x); reflexivity.
Qed.

Section W.
Context {N : Num}.

Lemma w_exec_spec ops :
  w_cur (w_exec ops) = match last_of site_given ops with Some s => s | None => unassignedId end /\
  w_pot (w_exec ops) = match last_of potential_given ops with Some s => s | None => unassignedId end /\
  w_dwell (w_exec ops) = match last_of dwell_given ops with Some s => s | None => nofZ (-1) end.
Proof.
  induction ops as [|o ops IH] using rev_ind; [repeat split|].
  unfold w_exec in *. rewrite fold_left_app; simpl. rewrite !last_of_snoc.
  destruct IH as (A & B & C).
  set (w := fold_left _ ops walker_new) in *.
  destruct o; simpl; auto; unfold w_getSite, w_getPotentialSite, w_getDwellTime, gets; simpl;
    repeat match goal with |- context [if ?b then _ else _] => destruct b end; simpl; auto.
Qed.

Lemma walker_site ops :
  match last_of site_given ops with
  | Some s => s <> unassignedId -> w_getSite (w_exec ops) = Ret s (w_exec ops)
  | None => w_getSite (w_exec ops) = Thr RuntimeError (w_exec ops)
  end.
Proof.
  destruct (w_exec_spec ops) as (A & _ & _). unfold w_getSite. rewrite A.
  destruct (last_of site_given ops); [|reflexivity].
  intros H. destruct (Z.eqb_spec z unassignedId); [contradiction|reflexivity].
Qed.

Lemma walker_potential ops :
  match last_of potential_given ops with
  | Some s => s <> unassignedId -> w_getPotentialSite (w_exec ops) = Ret s (w_exec ops)
  | None => w_getPotentialSite (w_exec ops) = Thr RuntimeError (w_exec ops)
  end.
Proof.
  destruct (w_exec_spec ops) as (_ & A & _). unfold w_getPotentialSite. rewrite A.
  destruct (last_of potential_given ops); [|reflexivity].
  intros H. destruct (Z.eqb_spec z unassignedId); [contradiction|reflexivity].
Qed.

Lemma walker_dwell ops :
  w_getDwellTime (w_exec ops) =
  Ret (match last_of dwell_given ops with Some t => t | None => nofZ (-1) end) (w_exec ops).
Proof. destruct (w_exec_spec ops) as (_ & _ & A). unfold w_getDwellTime, gets. rewrite A. reflexivity. Qed.

(** the reserved id is not a site *)
Lemma walker_reserved ops :
  last_of site_given ops = Some unassignedId ->
  w_getSite (w_exec ops) = Thr RuntimeError (w_exec ops).
Proof.
  intros L. destruct (w_exec_spec ops) as (A & _ & _). unfold w_getSite. rewrite A, L. reflexivity.
Qed.
End W.

Lemma identity_spec junk ids :
  match last_of Some ids with
  | Some v => id_getId (id_exec junk ids) = Ret v (id_exec junk ids)
  | None => id_getId (id_exec junk ids) = Thr RuntimeError (id_exec junk ids)
  end.
Proof.
  induction ids as [|v ids IH] using rev_ind; [reflexivity|].
  rewrite last_of_snoc. unfold id_exec. rewrite fold_left_app. reflexivity.
Qed.
