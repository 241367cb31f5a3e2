(** * Facts about outcomes and unordered maps *)
From Coq Require Import ZArith List Bool Lia Permutation.
From Verif Require Import Base.
Import ListNotations.
Open Scope Z_scope.

(** ** Outcomes *)

Lemma bind_ret_inv {S A B} (m : M S A) (f : A -> M S B) s b s'' :
  bind m f s = Ret b s'' -> exists a s', m s = Ret a s' /\ f a s' = Ret b s''.
Proof. unfold bind; destruct (m s); intros; try discriminate; eauto. Qed.

Lemma rbind_ok_inv {A B} (m : res A) (f : A -> res B) b :
  rbind m f = Ok b -> exists a, m = Ok a /\ f a = Ok b.
Proof. destruct m; simpl; intros; try discriminate; eauto. Qed.

Lemma chk_ok z : in_int z = true -> chk z = Ok z.
Proof. unfold chk; intros ->; reflexivity. Qed.

Lemma chk_inv z z' : chk z = Ok z' -> z = z' /\ in_int z = true.
Proof. unfold chk; destruct (in_int z) eqn:E; intros H; inversion H; subst; auto. Qed.

Lemma in_int_iff z : in_int z = true <-> INT_MIN <= z <= INT_MAX.
Proof. unfold in_int; rewrite andb_true_iff, !Z.leb_le; tauto. Qed.

(** ** Unordered maps *)

Section Umap.
Context {V : Type}.
Implicit Types (m : umap V) (k : Z) (v : V).

Lemma ulookup_In k v m : ulookup k m = Some v -> In (k, v) m.
Proof.
  induction m as [|[k' v'] m IH]; simpl; [discriminate|].
  destruct (Z.eqb_spec k k'); intros H; [inversion H; subst; auto | auto].
Qed.

Lemma ulookup_In_key k v m : ulookup k m = Some v -> In k (ukeys m).
Proof. intros H; apply ulookup_In in H; apply (in_map fst) in H; exact H. Qed.

Lemma In_ulookup k v m : NoDup (ukeys m) -> In (k, v) m -> ulookup k m = Some v.
Proof.
  induction m as [|[k' v'] m IH]; simpl; [tauto|].
  intros ND [H|H].
  - inversion H; subst; rewrite Z.eqb_refl; reflexivity.
  - inversion ND; subst.
    destruct (Z.eqb_spec k k'); subst; [|auto].
    exfalso; apply H2; apply (in_map fst) in H; exact H.
Qed.

Lemma ulookup_None k m : ulookup k m = None <-> ~ In k (ukeys m).
Proof.
  induction m as [|[k' v'] m IH]; simpl; [tauto|].
  destruct (Z.eqb_spec k k'); subst.
  - split; [discriminate | intros H; exfalso; apply H; auto].
  - rewrite IH; intuition.
Qed.

Lemma ukeys_In k m : In k (ukeys m) <-> exists v, ulookup k m = Some v.
Proof.
  destruct (ulookup k m) eqn:E.
  - split; [eauto | intros _; eapply ulookup_In_key; eauto].
  - apply ulookup_None in E; split; [tauto | intros [v H]; discriminate].
Qed.

Lemma umem_In k m : umem k m = true <-> In k (ukeys m).
Proof.
  unfold umem; rewrite ukeys_In.
  destruct (ulookup k m); split; intros; eauto; try discriminate.
  destruct H; discriminate.
Qed.

Lemma umem_false k m : umem k m = false <-> ~ In k (ukeys m).
Proof. rewrite <- umem_In; destruct (umem k m); intuition congruence. Qed.

Lemma umem_lookup k m : umem k m = true <-> exists v, ulookup k m = Some v.
Proof. rewrite umem_In; apply ukeys_In. Qed.

Lemma umem_false_lookup k m : umem k m = false <-> ulookup k m = None.
Proof. rewrite umem_false; symmetry; apply ulookup_None. Qed.

Lemma ureplace_keys k v m : ukeys (ureplace k v m) = ukeys m.
Proof.
  induction m as [|[k' v'] m IH]; simpl; [reflexivity|].
  destruct (k =? k'); simpl; [reflexivity | f_equal; exact IH].
Qed.

Lemma ureplace_lookup k v m k2 :
  ulookup k2 (ureplace k v m) =
  if (k2 =? k) && umem k m then Some v else ulookup k2 m.
Proof.
  induction m as [|[k' v'] m IH]; simpl.
  - rewrite andb_false_r; reflexivity.
  - unfold umem; simpl.
    destruct (Z.eqb_spec k k'); simpl; subst.
    + rewrite andb_true_r. destruct (Z.eqb_spec k2 k'); reflexivity.
    + rewrite IH. destruct (Z.eqb_spec k2 k'); subst.
      * destruct (Z.eqb_spec k' k); [congruence | reflexivity].
      * reflexivity.
Qed.

Lemma perm_lookup m m' k :
  NoDup (ukeys m) -> Permutation m m' -> ulookup k m = ulookup k m'.
Proof.
  intros ND P.
  assert (ND' : NoDup (ukeys m')).
  { eapply Permutation_NoDup; [apply Permutation_map; exact P | exact ND]. }
  destruct (ulookup k m) eqn:E.
  - symmetry; apply In_ulookup; [exact ND'|].
    eapply Permutation_in; [exact P | apply ulookup_In; exact E].
  - symmetry; apply ulookup_None; apply ulookup_None in E.
    intros H; apply E. eapply Permutation_in; [|exact H].
    apply Permutation_map, Permutation_sym; exact P.
Qed.

Lemma uremove_lookup k m k2 :
  NoDup (ukeys m) ->
  ulookup k2 (uremove k m) = if k2 =? k then None else ulookup k2 m.
Proof.
  induction m as [|[k' v'] m IH]; simpl; intros ND.
  - destruct (k2 =? k); reflexivity.
  - inversion ND; subst.
    destruct (Z.eqb_spec k k'); subst.
    + destruct (Z.eqb_spec k2 k'); subst; [apply ulookup_None; assumption | reflexivity].
    + simpl; rewrite IH by assumption.
      destruct (Z.eqb_spec k2 k'); subst; [|reflexivity].
      destruct (Z.eqb_spec k' k); [congruence | reflexivity].
Qed.

Lemma uremove_incl k m x : In x (uremove k m) -> In x m.
Proof.
  induction m as [|[k' v'] m IH]; simpl; [tauto|].
  destruct (k =? k'); simpl; intuition.
Qed.

Lemma uremove_NoDup k m : NoDup (ukeys m) -> NoDup (ukeys (uremove k m)).
Proof.
  induction m as [|[k' v'] m IH]; simpl; intros ND; [constructor|].
  inversion ND; subst.
  destruct (k =? k'); [assumption|].
  simpl; constructor; [|auto].
  intros H; apply H1. unfold ukeys in *.
  rewrite in_map_iff in *. destruct H as (x & Hx & Hin).
  exists x; split; [exact Hx | eapply uremove_incl; eauto].
Qed.

Context `{Impl}.

Lemma uset_keys_In m k v k2 :
  In k2 (ukeys (uset m k v)) <-> k2 = k \/ In k2 (ukeys m).
Proof.
  unfold uset. destruct (umem k m) eqn:E.
  - rewrite ureplace_keys. apply umem_In in E. intuition congruence.
  - split.
    + intros Hin. apply (Permutation_in _ (Permutation_map fst (hplace_perm V m k v))) in Hin.
      simpl in Hin. intuition.
    + intros Hin.
      apply (Permutation_in _ (Permutation_sym (Permutation_map fst (hplace_perm V m k v)))).
      simpl. intuition.
Qed.

Lemma uset_NoDup m k v : NoDup (ukeys m) -> NoDup (ukeys (uset m k v)).
Proof.
  intros ND. unfold uset. destruct (umem k m) eqn:E.
  - rewrite ureplace_keys; exact ND.
  - eapply Permutation_NoDup.
    + apply Permutation_sym, (Permutation_map fst), hplace_perm.
    + simpl; constructor; [apply umem_false; exact E | exact ND].
Qed.

Lemma uset_lookup m k v k2 :
  NoDup (ukeys m) ->
  ulookup k2 (uset m k v) = if k2 =? k then Some v else ulookup k2 m.
Proof.
  intros ND. unfold uset. destruct (umem k m) eqn:E.
  - rewrite ureplace_lookup, E, andb_true_r; reflexivity.
  - rewrite <- (perm_lookup ((k, v) :: m)).
    + reflexivity.
    + simpl; constructor; [apply umem_false; exact E | exact ND].
    + apply Permutation_sym, hplace_perm.
Qed.

Lemma uset_lookup_same m k v : NoDup (ukeys m) -> ulookup k (uset m k v) = Some v.
Proof. intros; rewrite uset_lookup by assumption; rewrite Z.eqb_refl; reflexivity. Qed.

Lemma uset_lookup_other m k v k2 :
  NoDup (ukeys m) -> k2 <> k -> ulookup k2 (uset m k v) = ulookup k2 m.
Proof.
  intros; rewrite uset_lookup by assumption.
  destruct (Z.eqb_spec k2 k); [congruence | reflexivity].
Qed.

Lemma uset_perm_new m k v :
  umem k m = false -> Permutation (uset m k v) ((k, v) :: m).
Proof. intros E; unfold uset; rewrite E; apply hplace_perm. Qed.

Lemma uset_mem m k v k2 :
  umem k2 (uset m k v) = (k2 =? k) || umem k2 m.
Proof.
  apply eq_true_iff_eq.
  rewrite orb_true_iff, !umem_In, uset_keys_In, Z.eqb_eq. tauto.
Qed.
End Umap.

Lemma uinsert_In `{Impl} s k k2 :
  In k2 (ukeys (uinsert s k)) <-> k2 = k \/ In k2 (ukeys s).
Proof.
  unfold uinsert. destruct (umem k s) eqn:E.
  - apply umem_In in E; intuition congruence.
  - rewrite <- (uset_keys_In s k tt k2). unfold uset; rewrite E; tauto.
Qed.

Lemma uinsert_NoDup `{Impl} s k : NoDup (ukeys s) -> NoDup (ukeys (uinsert s k)).
Proof.
  intros ND; unfold uinsert; destruct (umem k s) eqn:E; [exact ND|].
  assert (hplace unit s k tt = uset s k tt) as -> by (unfold uset; rewrite E; reflexivity).
  apply uset_NoDup; exact ND.
Qed.

(** A concrete implementation: new keys at the end, insertion sort. *)
Fixpoint ins_sorted {A} (lt : A -> A -> bool) (x : A) (l : list A) : list A :=
  match l with
  | [] => [x]
  | y :: l' => if lt x y then x :: l else y :: ins_sorted lt x l'
  end.
Fixpoint ins_sort {A} (lt : A -> A -> bool) (l : list A) : list A :=
  match l with [] => [] | x :: l' => ins_sorted lt x (ins_sort lt l') end.

Lemma ins_sorted_perm {A} lt (x : A) l : Permutation (ins_sorted lt x l) (x :: l).
Proof.
  induction l as [|y l IH]; simpl; [reflexivity|].
  destruct (lt x y); [reflexivity|].
  rewrite IH; apply perm_swap.
Qed.

Lemma ins_sort_perm {A} lt (l : list A) : Permutation (ins_sort lt l) l.
Proof.
  induction l as [|x l IH]; simpl; [reflexivity|].
  rewrite ins_sorted_perm, IH; reflexivity.
Qed.

(** no later element is strictly below an earlier one *)
Fixpoint no_inv {A} (lt : A -> A -> bool) (l : list A) : Prop :=
  match l with
  | [] => True
  | x :: l' => Forall (fun y => lt y x = false) l' /\ no_inv lt l'
  end.

Lemma no_inv_nth {A} lt (l : list A) :
  no_inv lt l <->
  (forall i j x y, (i < j)%nat -> nth_error l i = Some x -> nth_error l j = Some y ->
                   lt y x = false).
Proof.
  induction l as [|a l IH]; simpl.
  - split; [|tauto]. intros _ i j x y _ Hi. destruct i; discriminate.
  - rewrite IH, Forall_forall; split.
    + intros [HF HR] i j x y Hij Hi Hj.
      destruct i as [|i]; destruct j as [|j]; simpl in *; try lia.
      * inversion Hi; subst. apply HF. eapply nth_error_In; eauto.
      * eapply HR; [|eauto|eauto]; lia.
    + intros HR; split.
      * intros y Hy. apply In_nth_error in Hy. destruct Hy as [n Hn].
        apply (HR 0%nat (S n) a y); simpl; auto; lia.
      * intros i j x y Hij Hi Hj. apply (HR (S i) (S j)); simpl; auto; lia.
Qed.

Lemma ins_sorted_no_inv {A} lt (x : A) l :
  (forall a b c, In a (x :: l) -> In b (x :: l) -> In c (x :: l) ->
     lt a b = true -> lt b c = true -> lt a c = true) ->
  (forall a, In a (x :: l) -> lt a a = false) ->
  no_inv lt l -> no_inv lt (ins_sorted lt x l).
Proof.
  induction l as [|y l IH]; simpl; intros Htr Hirr Hs.
  - auto.
  - destruct Hs as [HF HR]. destruct (lt x y) eqn:E.
    + simpl; split; [|split; assumption].
      constructor.
      * destruct (lt y x) eqn:E2; [|reflexivity].
        assert (Hxx : lt x x = true)
          by (apply (Htr x y x); simpl; auto).
        rewrite Hirr in Hxx by (simpl; auto); discriminate.
      * rewrite Forall_forall in *. intros z Hz.
        destruct (lt z x) eqn:E2; [|reflexivity].
        assert (lt z y = true) by (apply (Htr z x y); simpl; auto).
        rewrite HF in H by assumption; discriminate.
    + simpl; split.
      * rewrite Forall_forall in *. intros z Hz.
        apply (Permutation_in _ (ins_sorted_perm lt x l)) in Hz.
        destruct Hz as [->|Hz]; auto.
      * apply IH; [|intros a Ha; apply Hirr; simpl in *; tauto | assumption].
        intros a b c Ha Hb Hc. apply Htr; simpl in *; tauto.
Qed.

Lemma ins_sort_no_inv {A} lt (l : list A) :
  (forall a b c, In a l -> In b l -> In c l ->
     lt a b = true -> lt b c = true -> lt a c = true) ->
  (forall a, In a l -> lt a a = false) ->
  no_inv lt (ins_sort lt l).
Proof.
  induction l as [|x l IH]; simpl; intros Htr Hirr; [exact I|].
  assert (P : forall a, In a (x :: ins_sort lt l) -> a = x \/ In a l).
  { intros a [->|Ha]; [auto|]. right.
    eapply Permutation_in; [apply ins_sort_perm | exact Ha]. }
  apply ins_sorted_no_inv.
  - intros a b c Ha Hb Hc. apply Htr.
    + destruct (P a Ha); subst; auto.
    + destruct (P b Hb); subst; auto.
    + destruct (P c Hc); subst; auto.
  - intros a Ha; apply Hirr. destruct (P a Ha); subst; auto.
  - apply IH; [intros a b c Ha Hb Hc; apply Htr; auto | intros a Ha; apply Hirr; auto].
Qed.

Lemma impl0_sorted : forall A (lt : A -> A -> bool) (l : list A),
      (forall x, In x l -> lt x x = false) ->
      (forall x y z, In x l -> In y l -> In z l ->
         lt x y = true -> lt y z = true -> lt x z = true) ->
      (forall x y z, In x l -> In y l -> In z l ->
         lt x y = false -> lt y z = false -> lt x z = false) ->
      forall i j x y, (i < j)%nat ->
        nth_error (ins_sort lt l) i = Some x ->
        nth_error (ins_sort lt l) j = Some y -> lt y x = false.
Proof.
  intros A lt l Hirr Htr _ i j x y.
  pose proof (proj1 (no_inv_nth lt _) (ins_sort_no_inv lt l Htr Hirr)) as H.
  apply H.
Qed.

Definition impl0 : Impl := {|
  hplace := fun V m k v => m ++ [(k, v)];
  hplace_perm := fun V m k v => Permutation_sym (Permutation_cons_append m (k, v));
  psort := fun A => @ins_sort A;
  psort_perm := fun A => @ins_sort_perm A;
  psort_sorted := impl0_sorted
|}.
