(** * Order laws of the arithmetic instances

    The two facts about [<] on doubles that order-related theorems need; both
    hold for IEEE comparison including NaN.  Shown for [XR] and for binary64. *)
From Coq Require Import ZArith List Bool Reals Lra Lia Floats.
From Verif Require Import Base Num F64.

Class OrdLaws (N : Num) := {
  ord_trans : forall x y z : num, nltb x y = true -> nltb y z = true -> nltb x z = true;
  ord_irrefl : forall x : num, nltb x x = false;
  ord_negtrans : forall x y z : num, neqb y y = true ->
    nltb x y = false -> nltb y z = false -> nltb x z = false
}.

Lemma Rltb_true x y : Rltb x y = true <-> (x < y)%R.
Proof. unfold Rltb; destruct (Rlt_dec x y); split; intros; auto; discriminate. Qed.
Lemma Rltb_false x y : Rltb x y = false <-> (y <= x)%R.
Proof.
  unfold Rltb; destruct (Rlt_dec x y); split; intros; auto; try discriminate; lra.
Qed.
Lemma Reqb_true x y : Reqb x y = true <-> x = y.
Proof. unfold Reqb; destruct (Req_EM_T x y); split; intros; auto; discriminate. Qed.
Lemma Reqb_false x y : Reqb x y = false <-> x <> y.
Proof. unfold Reqb; destruct (Req_EM_T x y); split; intros; auto; try discriminate; contradiction. Qed.
Lemma Rleb_true x y : Rleb x y = true <-> (x <= y)%R.
Proof. unfold Rleb; destruct (Rle_dec x y); split; intros; auto; discriminate. Qed.
Lemma Rleb_false x y : Rleb x y = false <-> (y < x)%R.
Proof. unfold Rleb; destruct (Rle_dec x y); split; intros; auto; try discriminate; lra. Qed.

Lemma XR_ord : OrdLaws XR.
Proof.
  split; simpl.
  - intros [] [] []; simpl; try discriminate; auto.
    rewrite !Rltb_true; lra.
  - intros []; simpl; auto. apply Rltb_false; lra.
  - intros [] [] []; simpl; try discriminate; auto.
    rewrite !Rltb_false; lra.
Qed.

Lemma SF_trans x y z : SFltb x y = true -> SFltb y z = true -> SFltb x z = true.
Proof.
  unfold SFltb.
  destruct x as [[]|[]| |[] mx ex], y as [[]|[]| |[] my ey], z as [[]|[]| |[] mz ez];
    simpl; try discriminate; auto;
    change (Pos.compare_cont Eq) with Pos.compare in *;
    repeat match goal with
    | |- context [Z.compare ?a ?b] => destruct (Z.compare_spec a b); simpl
    | |- context [Pos.compare ?a ?b] => destruct (Pos.compare_spec a b); simpl
    end; try discriminate; subst; intros; try discriminate; try lia; auto.
Qed.

Lemma SF_negtrans x y z : SFeqb y y = true ->
  SFltb x y = false -> SFltb y z = false -> SFltb x z = false.
Proof.
  unfold SFltb, SFeqb.
  destruct x as [[]|[]| |[] mx ex], y as [[]|[]| |[] my ey], z as [[]|[]| |[] mz ez];
    simpl; try discriminate; auto;
    change (Pos.compare_cont Eq) with Pos.compare in *;
    repeat match goal with
    | |- context [Z.compare ?a ?b] => destruct (Z.compare_spec a b); simpl
    | |- context [Pos.compare ?a ?b] => destruct (Pos.compare_spec a b); simpl
    end; try discriminate; subst; intros; try discriminate; try lia; auto.
Qed.

Lemma SF_irrefl x : SFltb x x = false.
Proof.
  unfold SFltb. destruct x as [[]|[]| |[] m e]; simpl; auto;
  change (Pos.compare_cont Eq) with Pos.compare;
  rewrite Z.compare_refl, Pos.compare_refl; reflexivity.
Qed.

Lemma F64_ord lnf : OrdLaws (F64 lnf).
Proof.
  split; simpl; intros.
  - rewrite ltb_spec in *. eapply SF_trans; eauto.
  - rewrite ltb_spec. apply SF_irrefl.
  - rewrite ltb_spec in *. rewrite eqb_spec in H. eapply SF_negtrans; eauto.
Qed.
