(** * Proofs about the Queue model *)
From Coq Require Import ZArith List Bool Lia Permutation Reals Lra.
From Verif Require Import Base Num OrdLaws BaseProofs QueueModel QueueSpec.
Import ListNotations.
Open Scope Z_scope.

Section Q.
Context {I : Impl} {N : Num} {OL : OrdLaws N}.

Notation qinv q := (q_sorted q = true -> no_inv time_lt (q_list q)).

(** ** Insertion *)

Lemma insert_split w l : exists a b, l = a ++ b /\
  insert_before_larger w l = a ++ w :: b /\
  Forall (fun e => time_lt w e = false) a /\
  match b with [] => True | e :: _ => time_lt w e = true end.
Proof.
  induction l as [|e l (a & b & -> & E & F & B)]; simpl.
  - exists [], []; repeat split; constructor.
  - destruct (time_lt w e) eqn:T.
    + exists [], (e :: a ++ b); repeat split; auto.
    + exists (e :: a), b; rewrite E; repeat split; auto.
Qed.

Lemma insert_perm w l : Permutation (insert_before_larger w l) (w :: l).
Proof.
  destruct (insert_split w l) as (a & b & -> & -> & _).
  symmetry; apply Permutation_middle.
Qed.

Lemma no_inv_app (l1 l2 : list entry) : no_inv time_lt (l1 ++ l2) <->
  no_inv time_lt l1 /\ no_inv time_lt l2 /\
  forall x y, In x l1 -> In y l2 -> time_lt y x = false.
Proof.
  induction l1 as [|x l1 IH]; simpl.
  - intuition.
  - rewrite IH, Forall_app, !Forall_forall. split.
    + intros ((F1 & F2) & H1 & H2 & H3); repeat split; auto.
      intros a b [<-|Ha] Hb; auto.
    + intros ((F1 & H1) & H2 & H3); repeat split; auto.
Qed.

Lemma insert_no_inv w l :
  no_inv time_lt l -> no_inv time_lt (insert_before_larger w l).
Proof.
  intros Hl. destruct (insert_split w l) as (a & b & -> & -> & F & B).
  rewrite no_inv_app in Hl |- *. destruct Hl as (Ha & Hb & Hab).
  rewrite Forall_forall in F. split; [exact Ha|split].
  - simpl; split; [|exact Hb]. destruct b as [|e b]; [constructor|].
    simpl in Hb. destruct Hb as [He Hb]. rewrite Forall_forall in *.
    intros y Hy. destruct (time_lt y w) eqn:T; [|reflexivity].
    assert (Hye : time_lt y e = true) by (unfold time_lt in *; eapply ord_trans; eauto).
    destruct Hy as [<-|Hy].
    + unfold time_lt in Hye; rewrite ord_irrefl in Hye; discriminate.
    + rewrite He in Hye by assumption; discriminate.
  - intros x y Hx [<-|Hy]; auto.
Qed.

Lemma no_inv_short (l : list entry) : (length l < 2)%nat -> no_inv time_lt l.
Proof. destruct l as [|a [|b l]]; simpl; intros; try lia; auto. Qed.

Lemma psort_no_inv l : Forall (fun e => comparable (snd e) = true) l ->
  no_inv time_lt (psort entry time_lt l).
Proof.
  intros F. rewrite Forall_forall in F. apply no_inv_nth.
  apply psort_sorted; unfold time_lt; intros.
  - apply ord_irrefl.
  - eapply ord_trans; eauto.
  - eapply ord_negtrans; [|eauto|eauto]. apply F; assumption.
Qed.

(** ** Single steps *)

Lemma sort_spec q u q' : q_sort q = Ret u q' ->
  q_sorted q' = true /\ Permutation (q_list q') (q_list q) /\
  (qinv q -> qinv q').
Proof.
  unfold q_sort. destruct (q_sorted q) eqn:S.
  - intros E; inversion E; subst; auto.
  - destruct (_ || _) eqn:C; [|discriminate].
    intros E; inversion E; subst; simpl. split; [reflexivity|split].
    + apply psort_perm.
    + intros _ _. apply orb_true_iff in C. destruct C as [C|C].
      * apply no_inv_short. rewrite (Permutation_length (psort_perm _ _ _)).
        apply Nat.ltb_lt; exact C.
      * apply psort_no_inv. apply Forall_forall. rewrite forallb_forall in C. exact C.
Qed.

Lemma run_spec ops : forall q es q',
  q_run ops q = Ret es q' -> qinv q ->
  qinv q' /\ q_sorted q' = settled_from (q_sorted q) ops /\
  Permutation (es ++ q_list q') (q_list q ++ added ops).
Proof.
  induction ops as [|[w|w| |] ops IH]; intros q es q' R Hq; simpl in R.
  - inversion R; subst; simpl. rewrite app_nil_r. repeat split; auto.
  - unfold bind, q_add, modify in R. apply IH in R; [|simpl; discriminate].
    destruct R as (A & B & C); simpl in *. repeat split; auto.
    rewrite <- app_assoc in C; exact C.
  - unfold bind, q_sortedAdd, modify in R. apply IH in R.
    + destruct R as (A & B & C); simpl in *. repeat split; auto.
      rewrite C, insert_perm. simpl. apply Permutation_middle.
    + simpl. intros S. apply insert_no_inv; auto.
  - unfold bind, q_pop in R. destruct (q_list q) as [|e l] eqn:L; [discriminate|].
    destruct (q_run ops _) as [es' s'| |] eqn:R'; inversion R; subst; clear R.
    apply IH in R'.
    + destruct R' as (A & B & C); simpl in *. repeat split; auto.
    + simpl. intros S. specialize (Hq S). simpl in Hq. tauto.
  - unfold bind in R. destruct (q_sort q) as [u s| |] eqn:S; try discriminate.
    destruct (sort_spec _ _ _ S) as (S1 & S2 & S3).
    apply IH in R; [|auto]. destruct R as (A & B & C); simpl.
    rewrite S1 in B. repeat split; auto. rewrite C, S2; reflexivity.
Qed.

Lemma init_inv : qinv q_init.
Proof. simpl; auto. Qed.

(** ** Lemmas behind the property theorems *)

Lemma at_entry i e q q' : q_at i q = Ret e q' ->
  0 <= i /\ nth_error (q_list q) (Z.to_nat i) = Some e /\ q' = q.
Proof.
  unfold q_at. destruct (i <? 0) eqn:E; [discriminate|].
  destruct (nth_error _ _) eqn:E2; [|discriminate].
  intros H; inversion H; subst. split; [lia|auto].
Qed.

Lemma pop_in_order ops es q e q' :
  q_run ops q_init = Ret es q -> settled ops = true ->
  q_pop q = Ret e q' ->
  forall i x q'', q_at i q' = Ret x q'' -> nltb (snd x) (snd e) = false.
Proof.
  intros R S P i x q'' A. apply run_spec in R; [|exact init_inv].
  destruct R as (Inv & B & _). simpl in B. unfold settled in S. rewrite S in B.
  specialize (Inv B). unfold q_pop in P. destruct (q_list q) as [|e0 l]; [discriminate|].
  inversion P; subst. apply at_entry in A. destruct A as (_ & A & _); simpl in A.
  destruct Inv as [F _]. rewrite Forall_forall in F. apply (F x).
  eapply nth_error_In; eauto.
Qed.

Lemma sorted_flag_truth ops es q q1 :
  q_run ops q_init = Ret es q -> q_isSorted q = Ret true q1 ->
  forall i j x y qi qj, i < j ->
    q_at i q = Ret x qi -> q_at j q = Ret y qj -> nltb (snd y) (snd x) = false.
Proof.
  intros R S i j x y qi qj Hij Ai Aj. apply run_spec in R; [|exact init_inv].
  destruct R as (Inv & _). unfold q_isSorted, gets in S. inversion S as [S'].
  specialize (Inv S'). apply at_entry in Ai, Aj.
  apply (proj1 (no_inv_nth _ _) Inv (Z.to_nat i) (Z.to_nat j)); try tauto. lia.
Qed.

Lemma sorted_flag_exact ops es q :
  q_run ops q_init = Ret es q -> q_isSorted q = Ret (settled ops) q.
Proof.
  intros R. apply run_spec in R; [|exact init_inv]. destruct R as (_ & B & _).
  unfold q_isSorted, gets. rewrite B. reflexivity.
Qed.

Lemma conservation ops es q :
  q_run ops q_init = Ret es q -> Permutation (es ++ q_list q) (added ops).
Proof. intros R. apply run_spec in R; [|exact init_inv]. apply R. Qed.

Lemma sort_total q : Forall (fun e => comparable (snd e) = true) (q_list q) ->
  exists q', q_sort q = Ret tt q' /\ length (q_list q') = length (q_list q) /\
    Forall (fun e => comparable (snd e) = true) (q_list q').
Proof.
  intros F. unfold q_sort. destruct (q_sorted q).
  - eauto.
  - replace (forallb _ _) with true.
    + rewrite orb_true_r. eexists; split; [reflexivity|]. simpl. split.
      * apply Permutation_length, psort_perm.
      * rewrite psort_perm; assumption.
    + symmetry. apply forallb_forall. rewrite Forall_forall in F. exact F.
Qed.

Lemma run_defined ops : forall q,
  Forall (fun e => comparable (snd e) = true) (q_list q ++ added ops) ->
  (pops_ok (length (q_list q)) ops = true -> exists es q', q_run ops q = Ret es q') /\
  (pops_ok (length (q_list q)) ops = false -> q_run ops q = Halt Undefined).
Proof.
  induction ops as [|[w|w| |] ops IH]; intros q F; simpl in *.
  - split; [|discriminate]. intros; eexists _, _; reflexivity.
  - unfold bind, q_add, modify.
    specialize (IH (mkQueue (q_list q ++ [w]) false)). simpl in IH.
    rewrite app_length, Nat.add_1_r in IH. apply IH. rewrite <- app_assoc; exact F.
  - unfold bind, q_sortedAdd, modify.
    specialize (IH (mkQueue (insert_before_larger w (q_list q)) (q_sorted q))). simpl in IH.
    rewrite (Permutation_length (insert_perm _ _)) in IH. apply IH.
    rewrite insert_perm. simpl. rewrite Permutation_middle. exact F.
  - unfold bind, q_pop. destruct (q_list q) as [|e l] eqn:L; simpl in *.
    + split; [discriminate|reflexivity].
    + specialize (IH (mkQueue l (q_sorted q))). simpl in IH.
      destruct IH as [A B]; [inversion F; assumption|]. split; intros H.
      * destruct (A H) as (es & q' & ->). eexists _, _; reflexivity.
      * rewrite (B H); reflexivity.
  - unfold bind. destruct (sort_total q) as (q' & S & Len & F').
    { apply Forall_app in F; apply F. }
    rewrite S, <- Len. apply IH. apply Forall_app in F. apply Forall_app; tauto.
Qed.

(** sortedAdd: the old entries keep their order, and the new one goes after
    every entry that is not later than it. *)
Lemma sortedAdd_stable w q q' :
  q_sortedAdd w q = Ret tt q' ->
  comparable (snd w) = true -> Forall (fun e => comparable (snd e) = true) (q_list q) ->
  no_inv time_lt (q_list q) ->
  exists a b, q_list q = a ++ b /\ q_list q' = a ++ w :: b /\
    Forall (fun e => nltb (snd w) (snd e) = false) a /\
    Forall (fun e => nltb (snd w) (snd e) = true) b.
Proof.
  unfold q_sortedAdd, modify. intros E _ C S. inversion E; subst; clear E; simpl.
  destruct (insert_split w (q_list q)) as (a & b & L & -> & F & B).
  exists a, b. rewrite L in S, C. repeat split; auto.
  apply no_inv_app in S. destruct S as (_ & Sb & _).
  destruct b as [|e b]; [constructor|]. constructor; [exact B|].
  destruct Sb as [F2 _]. rewrite Forall_forall in *. intros x Hx.
  destruct (nltb (snd w) (snd x)) eqn:T; [reflexivity|].
  exfalso. unfold time_lt in *. specialize (F2 x Hx). simpl in F2.
  rewrite (ord_negtrans (snd w) (snd x) (snd e)) in B; try discriminate; auto.
  apply C. apply in_or_app; right; right; exact Hx.
Qed.

(** ** The event loop *)

Fixpoint pairwise_nondecr (l : list num) : Prop :=
  match l with
  | [] => True
  | t :: r => Forall (fun t' => nltb t' t = false) r /\ pairwise_nondecr r
  end.

(** [T] is a set of comparable times closed under adding the dwell times used. *)
Lemma event_loop_lb (T : num -> Prop) decs : forall q ts q' t0,
  (forall t, T t -> comparable t = true) ->
  (forall t d, In (Some d) decs -> T t -> nltb (nadd t d) t = false /\ T (nadd t d)) ->
  Forall (fun e => T (snd e)) (q_list q) ->
  no_inv time_lt (q_list q) ->
  T t0 ->
  Forall (fun e => nltb (snd e) t0 = false) (q_list q) ->
  event_loop decs q = Ret ts q' ->
  Forall (fun t => nltb t t0 = false) ts /\ pairwise_nondecr ts.
Proof.
  induction decs as [|dec decs IH]; intros q ts q' t0 HT Hd C S C0 LB R; simpl in R.
  - inversion R; subst; simpl; auto.
  - unfold bind, q_size, gets in R.
    destruct (Z.of_nat _ =? 0) eqn:Z0.
    { inversion R; subst; simpl; auto. }
    unfold q_pop in R. destruct (q_list q) as [|e l] eqn:L; [discriminate|].
    inversion C as [|? ? Ce Cl]; inversion LB as [|? ? Le Ll]; subst.
    destruct S as [Fe Sl].
    destruct dec as [d|].
    + unfold q_sortedAdd, modify in R.
      destruct (event_loop decs _) as [ts' s'| |] eqn:R'; inversion R; subst; clear R.
      destruct (Hd (snd e) d (or_introl eq_refl) Ce) as [Hnd Cnd].
      apply IH with (t0 := snd e) in R'; try assumption; simpl in *.
      * destruct R' as (A & B). repeat split; auto.
        constructor; [assumption|]. rewrite Forall_forall in *. intros t Ht.
        eapply ord_negtrans; [apply (HT _ Ce)|auto|assumption].
      * intros t d' Hin; apply Hd; right; assumption.
      * rewrite insert_perm. constructor; assumption.
      * apply insert_no_inv; assumption.
      * rewrite insert_perm. constructor; assumption.
    + unfold ret in R. destruct (event_loop decs _) as [ts' s'| |] eqn:R'; inversion R; subst; clear R.
      apply IH with (t0 := snd e) in R'; try assumption; simpl in *.
      * destruct R' as (A & B). repeat split; auto.
        constructor; [assumption|]. rewrite Forall_forall in *. intros t Ht.
        eapply ord_negtrans; [apply (HT _ Ce)|auto|assumption].
      * intros t d' Hin; apply Hd; right; assumption.
Qed.

Lemma event_loop_monotone (T : num -> Prop) decs q ts q' :
  (forall t, T t -> comparable t = true) ->
  (forall t d, In (Some d) decs -> T t -> nltb (nadd t d) t = false /\ T (nadd t d)) ->
  Forall (fun e => T (snd e)) (q_list q) ->
  (forall i j x y, (i < j)%nat -> nth_error (q_list q) i = Some x ->
     nth_error (q_list q) j = Some y -> nltb (snd y) (snd x) = false) ->
  event_loop decs q = Ret ts q' ->
  forall i j ti tj, (i < j)%nat -> nth_error ts i = Some ti -> nth_error ts j = Some tj ->
    nltb tj ti = false.
Proof.
  intros HT Hd C S R.
  apply no_inv_nth in S.
  assert (P : pairwise_nondecr ts).
  { destruct (q_list q) as [|e l] eqn:L.
    - destruct decs; simpl in R; unfold bind, q_size, gets in R; try rewrite L in R;
        simpl in R; inversion R; simpl; auto.
    - eapply (event_loop_lb T decs q ts q' (snd e)) in R; rewrite ?L; auto.
      + apply R.
      + inversion C; assumption.
      + constructor; [apply ord_irrefl|]. destruct S as [F _].
        rewrite Forall_forall in *. intros x Hx; apply F; exact Hx. }
  clear -P. induction ts as [|t ts IH]; intros i j ti tj Hij Hi Hj.
  - destruct i; discriminate.
  - destruct P as [F P]. destruct i as [|i], j as [|j]; simpl in *; try lia.
    + inversion Hi; subst. rewrite Forall_forall in F. apply F. eapply nth_error_In; eauto.
    + eapply (IH P i j); eauto; lia.
Qed.

End Q.

(** Exact arithmetic: finite times and non-negative finite dwell times. *)
Lemma event_loop_monotone_R (decs : list (option xr)) (q : @queue XR) ts q' :
  (forall d, In (Some d) decs -> exists r, d = Fin r /\ (0 <= r)%R) ->
  (forall e, In e (q_list q) -> exists r, snd e = Fin r) ->
  (forall i j x y, (i < j)%nat -> nth_error (q_list q) i = Some x ->
     nth_error (q_list q) j = Some y -> xltb (snd y) (snd x) = false) ->
  event_loop (N := XR) decs q = Ret ts q' ->
  forall i j ti tj, (i < j)%nat -> nth_error ts i = Some ti -> nth_error ts j = Some tj ->
    xltb tj ti = false.
Proof.
  intros Hd C S R. pose proof XR_ord as O.
  apply (event_loop_monotone (N := XR) (fun t : xr => exists r, t = Fin r) decs q ts q'); auto.
  - intros t [r ->]. apply Reqb_true; reflexivity.
  - intros t d Hin [r ->]. destruct (Hd d Hin) as (rd & -> & Hrd). split.
    + apply Rltb_false; lra.
    + simpl; eauto.
  - apply Forall_forall; exact C.
Qed.
