(** * Finite sums of reals over lists, and their link to the model's loops *)
From Coq Require Import ZArith List Bool Reals Lra Lia Permutation.
From Verif Require Import Base Num.
Import ListNotations.
Open Scope R_scope.

(** lets [Fin r] be read as a number of the exact instance *)
Canonical Structure XR.

Fixpoint Rsum {A} (f : A -> R) (l : list A) : R :=
  match l with [] => 0 | x :: r => f x + Rsum f r end.

Section S.
Context {A : Type}.
Implicit Types (f g : A -> R) (l : list A).

Lemma Rsum_app f l l' : Rsum f (l ++ l') = Rsum f l + Rsum f l'.
Proof. induction l; simpl; [lra | rewrite IHl; lra]. Qed.

Lemma Rsum_perm f l l' : Permutation l l' -> Rsum f l = Rsum f l'.
Proof. induction 1; simpl; lra. Qed.

Lemma Rsum_ext f g l : (forall x, In x l -> f x = g x) -> Rsum f l = Rsum g l.
Proof.
  induction l as [|a l IH]; simpl; intros E; [reflexivity|].
  rewrite (E a) by auto. rewrite IH by auto. reflexivity.
Qed.

Lemma Rsum_plus f g l : Rsum (fun x => f x + g x) l = Rsum f l + Rsum g l.
Proof. induction l; simpl; [lra | rewrite IHl; lra]. Qed.

Lemma Rsum_minus f g l : Rsum (fun x => f x - g x) l = Rsum f l - Rsum g l.
Proof. induction l; simpl; [lra | rewrite IHl; lra]. Qed.

Lemma Rsum_scal c f l : Rsum (fun x => c * f x) l = c * Rsum f l.
Proof. induction l; simpl; [lra | rewrite IHl; lra]. Qed.

Lemma Rsum_scal_r c f l : Rsum (fun x => f x * c) l = Rsum f l * c.
Proof. induction l; simpl; [lra | rewrite IHl; lra]. Qed.

Lemma Rsum_zero l : Rsum (fun _ => 0) l = 0.
Proof. induction l; simpl; [lra | rewrite IHl; lra]. Qed.

Lemma Rsum_const c l : Rsum (fun _ => c) l = INR (length l) * c.
Proof.
  induction l as [|a l IH]; [simpl; lra|].
  cbn [Rsum length]. rewrite IH, S_INR. lra.
Qed.

Lemma Rsum_nonneg f l : (forall x, In x l -> 0 <= f x) -> 0 <= Rsum f l.
Proof.
  induction l as [|a l IH]; simpl; intros E; [lra|].
  assert (0 <= f a) by auto. assert (0 <= Rsum f l) by auto. lra.
Qed.

Lemma Rsum_le f g l : (forall x, In x l -> f x <= g x) -> Rsum f l <= Rsum g l.
Proof.
  induction l as [|a l IH]; simpl; intros E; [lra|].
  assert (f a <= g a) by auto. assert (Rsum f l <= Rsum g l) by auto. lra.
Qed.

Lemma Rsum_ge_elem f l x : (forall y, In y l -> 0 <= f y) -> In x l -> f x <= Rsum f l.
Proof.
  induction l as [|a l IH]; simpl; [tauto|].
  intros E [->|Hx].
  - assert (0 <= Rsum f l) by (apply Rsum_nonneg; auto). lra.
  - assert (0 <= f a) by auto. assert (f x <= Rsum f l) by auto. lra.
Qed.

Lemma Rsum_pos f l : l <> [] -> (forall x, In x l -> 0 < f x) -> 0 < Rsum f l.
Proof.
  intros Hl E. destruct l as [|a l]; [congruence|]. simpl.
  assert (0 < f a) by (apply E; simpl; auto).
  assert (0 <= Rsum f l) by (apply Rsum_nonneg; intros; apply Rlt_le, E; simpl; auto). lra.
Qed.

Lemma Rsum_pos_ex f l x : (forall y, In y l -> 0 <= f y) -> In x l -> 0 < f x -> 0 < Rsum f l.
Proof. intros E Hx Hp. pose proof (Rsum_ge_elem f l x E Hx). lra. Qed.

Lemma Rsum_split f l (p : A -> bool) :
  Rsum f l = Rsum f (filter p l) + Rsum f (filter (fun x => negb (p x)) l).
Proof. induction l as [|a l IH]; simpl; [lra|]. destruct (p a); simpl; lra. Qed.

Lemma Rsum_filter f l (p : A -> bool) :
  Rsum f (filter p l) = Rsum (fun x => if p x then f x else 0) l.
Proof. induction l as [|a l IH]; simpl; [lra|]. destruct (p a); simpl; lra. Qed.
End S.

Lemma Rsum_map {A B} (g : A -> B) (f : B -> R) l : Rsum f (map g l) = Rsum (fun x => f (g x)) l.
Proof. induction l; simpl; [reflexivity | rewrite IHl; reflexivity]. Qed.

Lemma Rsum_swap {A B} (f : A -> B -> R) la lb :
  Rsum (fun a => Rsum (f a) lb) la = Rsum (fun b => Rsum (fun a => f a b) la) lb.
Proof.
  induction la as [|a la IH]; simpl.
  - rewrite Rsum_zero; reflexivity.
  - rewrite Rsum_plus, IH; reflexivity.
Qed.

(** sum += v over a loop, in exact arithmetic *)
Lemma fold_nadd {A} (v : A -> @num XR) (f : A -> R) (l : list A) a :
  (forall x, In x l -> v x = Fin (f x)) ->
  fold_left (fun acc x => @nadd XR acc (v x)) l (Fin a) = Fin (a + Rsum f l).
Proof.
  revert a; induction l as [|x l IH]; simpl; intros a E; [f_equal; lra|].
  rewrite (E x) by auto. simpl. rewrite IH by auto. f_equal; lra.
Qed.

Lemma xdiv_Fin a b : b <> 0 -> @ndiv XR (Fin a) (Fin b) = Fin (a / b).
Proof. intros Hb; simpl. unfold Reqb; destruct (Req_EM_T b 0); [contradiction | reflexivity]. Qed.

Lemma n0_XR : @n0 XR = Fin 0. Proof. reflexivity. Qed.
Lemma n1_XR : @n1 XR = Fin 1. Proof. reflexivity. Qed.
