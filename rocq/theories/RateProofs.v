(** * Proofs about the rate container *)
From Coq Require Import ZArith List Bool Lia Permutation.
From Verif Require Import Base BaseProofs RateModel RateSpec.
Import ListNotations.
Open Scope Z_scope.

Section P.
Context {I : Impl}.

(** ** Maps of maps *)

Lemma row_at_fst m i : fst (row_at m i) = match ulookup i m with Some r => r | None => [] end.
Proof. unfold row_at; destruct (ulookup i m); reflexivity. Qed.

Lemma uset_uset_lookup {V} (m : umap V) i a b k : NoDup (ukeys m) ->
  ulookup k (uset (uset m i a) i b) = if k =? i then Some b else ulookup k m.
Proof.
  intros ND. rewrite uset_lookup by (apply uset_NoDup; exact ND).
  rewrite uset_lookup by exact ND. destruct (k =? i); reflexivity.
Qed.

Lemma set2_lookup m i r k : NoDup (ukeys m) ->
  ulookup k (uset (snd (row_at m i)) i r) = if k =? i then Some r else ulookup k m.
Proof.
  intros ND. unfold row_at. destruct (ulookup i m); simpl.
  - apply uset_lookup; exact ND.
  - apply uset_uset_lookup; exact ND.
Qed.

Lemma set2_NoDup m i r : NoDup (ukeys m) -> NoDup (ukeys (uset (snd (row_at m i)) i r)).
Proof.
  intros ND. unfold row_at. destruct (ulookup i m); simpl; repeat apply uset_NoDup; exact ND.
Qed.

Lemma wf_lookup m : wf_map m <-> NoDup (ukeys m) /\ forall i r, ulookup i m = Some r -> NoDup (ukeys r).
Proof.
  split; intros [A B]; split; auto; intros i r H.
  - apply (B i). apply ulookup_In; exact H.
  - apply (B i). apply In_ulookup; assumption.
Qed.

Lemma full_lookup m : NoDup (ukeys m) ->
  (full_map m <-> forall i r, ulookup i m = Some r -> r <> []).
Proof.
  intros A. split; intros B i r H.
  - apply (B i). apply ulookup_In; exact H.
  - apply (B i). apply In_ulookup; assumption.
Qed.

Definition set_entry (m : rmap) (i j : Z) (p : ptr) : rmap :=
  uset (snd (row_at m i)) i (uset (fst (row_at m i)) j p).

Lemma row_NoDup m i : wf_map m -> NoDup (ukeys (fst (row_at m i))).
Proof.
  intros W. rewrite row_at_fst. destruct (ulookup i m) eqn:E.
  - apply wf_lookup in W. destruct W as [_ W]. eauto.
  - constructor.
Qed.

Lemma set_entry_wf m i j p : wf_map m -> wf_map (set_entry m i j p).
Proof.
  intros W. pose proof (row_NoDup m i W) as RN. apply wf_lookup in W. destruct W as [A B].
  apply wf_lookup. unfold set_entry. split.
  - apply set2_NoDup; exact A.
  - intros k r. rewrite set2_lookup by exact A. destruct (k =? i).
    + intros E; inversion E; subst. apply uset_NoDup. exact RN.
    + apply B.
Qed.

Lemma uset_nonempty {V} (m : umap V) k v : uset m k v <> [].
Proof.
  intros E. assert (In k (ukeys (uset m k v))) by (apply uset_keys_In; auto).
  rewrite E in H; exact H.
Qed.

Lemma set_entry_full m i j p : wf_map m -> full_map m -> full_map (set_entry m i j p).
Proof.
  intros W F. pose proof (set_entry_wf m i j p W) as W'.
  apply full_lookup; [apply W'|]. apply wf_lookup in W. destruct W as [A B].
  rewrite full_lookup in F by exact A.
  intros k r. unfold set_entry. rewrite set2_lookup by exact A. destruct (k =? i).
  - intros E; inversion E; subst. apply uset_nonempty.
  - apply F.
Qed.

Lemma set_entry_entry m i j p a b : wf_map m ->
  entry_of (set_entry m i j p) a b = if (a =? i) && (b =? j) then Some p else entry_of m a b.
Proof.
  intros W. pose proof (row_NoDup m i W) as RN. unfold entry_of, set_entry.
  rewrite set2_lookup by apply W. destruct (Z.eqb_spec a i); simpl; [|reflexivity].
  subst. rewrite uset_lookup by exact RN. destruct (b =? j); [reflexivity|].
  rewrite row_at_fst. destruct (ulookup i m); reflexivity.
Qed.

Lemma addRate_eq i j p m :
  r_addRate i j p m =
  match entry_of m i j with
  | Some _ => Thr InvalidArgument m
  | None => Ret tt (set_entry m i j p)
  end.
Proof.
  unfold r_addRate, entry_of, set_entry, umem. rewrite row_at_fst.
  destruct (row_at m i) as [r m'] eqn:E.
  assert (Er : r = fst (row_at m i)) by (rewrite E; reflexivity).
  rewrite row_at_fst in Er.
  destruct (ulookup i m) eqn:L; simpl; subst; [|reflexivity].
  destruct (ulookup j u); reflexivity.
Qed.

(** ** The flat specification *)

Lemma stored_app l t i j :
  stored (l ++ [t]) i j =
  match stored l i j with Some p => Some p | None => if is_pair i j t then Some (snd t) else None end.
Proof.
  unfold stored. induction l as [|x l IH]; simpl.
  - destruct (is_pair i j t); [destruct t as [[? ?] ?]|]; reflexivity.
  - destruct (is_pair i j x); [destruct x as [[? ?] ?]; reflexivity | exact IH].
Qed.

Definition Rel (m : rmap) (l : list triple) : Prop :=
  wf_map m /\ full_map m /\ (forall i j, entry_of m i j = stored l i j) /\
  NoDup (map fst l).

Lemma stored_In l i j : NoDup (map fst l) ->
  forall p, stored l i j = Some p <-> In (i, j, p) l.
Proof.
  intros ND p. unfold stored. induction l as [|[[a b] q] l IH]; simpl in *.
  - split; [discriminate|tauto].
  - inversion ND; subst. destruct (Z.eqb_spec a i), (Z.eqb_spec b j); simpl; subst;
      try (rewrite IH by assumption; split; [auto | intros [E|E]; [inversion E; congruence|exact E]]).
    split.
    + intros E; inversion E; auto.
    + intros [E|E]; [inversion E; reflexivity|].
      exfalso. apply H1. apply (in_map fst) in E. exact E.
Qed.

Lemma stored_None l i j : stored l i j = None <-> ~ In (i, j) (map fst l).
Proof.
  unfold stored. induction l as [|[[a b] q] l IH]; simpl.
  - tauto.
  - destruct (Z.eqb_spec a i), (Z.eqb_spec b j); simpl; subst;
      try (rewrite IH; intuition congruence).
    split; [discriminate|tauto].
Qed.

Lemma NoDup_snoc {A} (l : list A) x : NoDup l -> ~ In x l -> NoDup (l ++ [x]).
Proof.
  intros ND H. apply (Permutation_NoDup (l := x :: l)); [apply Permutation_cons_append|].
  constructor; assumption.
Qed.

Lemma add1_rel m l i j p : Rel m l ->
  let (l', ok) := add1 l (i, j, p) in
  if ok then r_addRate i j p m = Ret tt (set_entry m i j p) /\ Rel (set_entry m i j p) l'
  else r_addRate i j p m = Thr InvalidArgument m /\ l' = l.
Proof.
  intros (W & F & E & ND). unfold add1. rewrite addRate_eq, E.
  destruct (stored l i j) eqn:S; [auto|]. split; [reflexivity|].
  split; [|split; [|split]].
  - apply set_entry_wf; assumption.
  - apply set_entry_full; assumption.
  - intros a b. rewrite set_entry_entry, E, stored_app by assumption. simpl.
    rewrite (Z.eqb_sym i a), (Z.eqb_sym j b).
    destruct (Z.eqb_spec a i), (Z.eqb_spec b j); simpl; subst;
      try rewrite S; try reflexivity;
      match goal with |- ?x = _ => destruct x; reflexivity end.
  - rewrite map_app; simpl. apply NoDup_snoc; [exact ND|]. apply stored_None; exact S.
Qed.

(** ** addRates *)

Fixpoint add_many_ok (l : list triple) (ts : list triple) : bool :=
  match ts with
  | [] => true
  | t :: r => let (l', ok) := add1 l t in if ok then add_many_ok l' r else false
  end.

Lemma add_many_app l a b :
  add_many l (a ++ b) = if add_many_ok l a then add_many (add_many l a) b else add_many l a.
Proof.
  revert l. induction a as [|t a IH]; intros l; simpl; [reflexivity|].
  destruct (add1 l t) as [l' []]; [apply IH|reflexivity].
Qed.
Lemma add_many_ok_app l a b :
  add_many_ok l (a ++ b) = add_many_ok l a && add_many_ok (add_many l a) b.
Proof.
  revert l. induction a as [|t a IH]; intros l; simpl; [reflexivity|].
  destruct (add1 l t) as [l' []]; [apply IH|reflexivity].
Qed.

Lemma addRow_rel i row : forall m l, Rel m l ->
  exists m', Rel m' (add_many l (map (fun e => (i, fst e, snd e)) row)) /\
    r_addRow i row m = if add_many_ok l (map (fun e => (i, fst e, snd e)) row)
                       then Ret tt m' else Thr InvalidArgument m'.
Proof.
  unfold r_addRow. induction row as [|[j p] row IH]; intros m l R; simpl.
  - exists m. split; [exact R|reflexivity].
  - pose proof (add1_rel m l i j p R) as A. unfold add1 in A. unfold bind.
    destruct (stored l i j).
    + destruct A as [-> _]. exists m. auto.
    + destruct A as [-> A]. apply IH; exact A.
Qed.

Lemma addRates_loop_rel rs : forall m l, Rel m l ->
  exists m', Rel m' (add_many l (triples_of rs)) /\
    r_addRates_loop rs m = if add_many_ok l (triples_of rs) then Ret tt m' else Thr InvalidArgument m'.
Proof.
  unfold r_addRates_loop, triples_of.
  induction rs as [|[i row] rs IH]; intros m l R; simpl.
  - exists m. auto.
  - destruct (addRow_rel i row m l R) as (m1 & R1 & E1).
    unfold bind. rewrite E1. rewrite add_many_app, add_many_ok_app.
    destruct (add_many_ok l _); simpl.
    + apply IH; exact R1.
    + exists m1; auto.
Qed.

Lemma triples_In rs i j p : In (i, j, p) (triples_of rs) <-> exists r, In (i, r) rs /\ In (j, p) r.
Proof.
  unfold triples_of. rewrite in_flat_map. split.
  - intros ([a r] & H & H2). simpl in H2. apply in_map_iff in H2.
    destruct H2 as ([b q] & E & H3); simpl in E. inversion E; subst. eauto.
  - intros (r & H & H2). exists (i, r). split; [exact H|]. simpl. apply in_map_iff.
    exists (j, p). auto.
Qed.

Lemma triples_NoDup rs : wf_map rs -> NoDup (map fst (triples_of rs)).
Proof.
  induction rs as [|[i r] rs IH]; intros [ND W]; simpl; [constructor|].
  inversion ND; subst.
  unfold triples_of. simpl. fold (triples_of rs). rewrite map_app, map_map; simpl.
  assert (NDr : NoDup (map (fun x : Z * ptr => (i, fst x)) r)).
  { assert (NDk : NoDup (ukeys r)) by (apply (W i); left; reflexivity).
    unfold ukeys in NDk. clear -NDk. induction r as [|[j p] r IH]; simpl; [constructor|].
    inversion NDk; subst. constructor; [|auto]. intros H. apply H1.
    apply in_map_iff in H. destruct H as ([j' p'] & E & H); simpl in E. inversion E; subst.
    apply (in_map fst) in H; exact H. }
  clear ND. assert (NDrs : NoDup (map fst (triples_of rs))).
  { apply IH. split; [assumption|]. intros a b H. apply (W a); right; exact H. }
  revert NDr. generalize (map (fun x : Z * ptr => (i, fst x)) r) at 1 as dummy. intros _ _.
  assert (Hnot : forall j, ~ In (i, j) (map fst (triples_of rs))).
  { intros j H. apply in_map_iff in H. destruct H as ([[a b] q] & E & H). simpl in E.
    inversion E; subst. apply triples_In in H. destruct H as (r' & H & _).
    apply H1. apply (in_map fst) in H; exact H. }
  assert (NDk : NoDup (ukeys r)) by (apply (W i); left; reflexivity).
  clear W IH. induction r as [|[j p] r IHr]; simpl; [exact NDrs|].
  unfold ukeys in *. simpl in NDk. inversion NDk; subst. constructor; [|auto].
  rewrite in_app_iff. intros [H|H]; [|exact (Hnot j H)].
  apply H3. apply in_map_iff in H. destruct H as ([j' p'] & E & H); simpl in E. inversion E; subst.
  apply (in_map fst) in H; exact H.
Qed.

Lemma add_many_fresh ts : forall l, NoDup (map fst (l ++ ts)) ->
  add_many l ts = l ++ ts /\ add_many_ok l ts = true.
Proof.
  induction ts as [|[[i j] p] ts IH]; intros l ND; simpl.
  - rewrite app_nil_r; auto.
  - replace (stored l i j) with (@None ptr).
    + destruct (IH (l ++ [(i, j, p)])) as [A B].
      * rewrite <- app_assoc; exact ND.
      * split; [|exact B]. etransitivity; [exact A|]. symmetry; apply (app_assoc l [(i, j, p)] ts).
    + symmetry. apply stored_None. rewrite map_app in ND. simpl in ND.
      apply NoDup_remove_2 in ND. intros H; apply ND. apply in_or_app; auto.
Qed.

Lemma entry_In m i j p : wf_map m -> entry_of m i j = Some p <-> exists r, In (i, r) m /\ In (j, p) r.
Proof.
  intros W. unfold entry_of. split.
  - destruct (ulookup i m) as [r|] eqn:E; [|discriminate]. intros H.
    exists r; split; apply ulookup_In; assumption.
  - intros (r & H1 & H2). destruct W as [ND W].
    rewrite (In_ulookup i r m ND H1). apply In_ulookup; [apply (W i r H1)|exact H2].
Qed.

Lemma triples_rel rs : wf_map rs -> full_map rs -> Rel rs (triples_of rs).
Proof.
  intros W F. pose proof (triples_NoDup rs W) as ND. repeat split; auto; try apply W.
  intros i j. destruct (entry_of rs i j) as [p|] eqn:E.
  - symmetry. apply stored_In; [exact ND|]. apply triples_In. apply entry_In; assumption.
  - symmetry. apply stored_None. intros H. apply in_map_iff in H.
    destruct H as ([[a b] q] & Eq & H); simpl in Eq; inversion Eq; subst.
    apply triples_In in H. apply entry_In in H; [|exact W]. congruence.
Qed.

Lemma addRates_rel rs m l : Rel m l -> wf_map rs -> full_map rs ->
  exists m', Rel m' (add_many l (triples_of rs)) /\
    r_addRates rs m = if add_many_ok l (triples_of rs) then Ret tt m' else Thr InvalidArgument m'.
Proof.
  intros R W F. unfold r_addRates. destruct (Nat.eqb_spec (length m) 0) as [Hl|Hl].
  - destruct m; [|discriminate].
    assert (l = @nil triple).
    { destruct l as [|[[i j] p] l]; [reflexivity|]. destruct R as (_ & _ & E & ND).
      specialize (E i j). unfold entry_of in E; simpl in E. symmetry in E.
      apply stored_None in E. exfalso; apply E; left; reflexivity. }
    subst. destruct (add_many_fresh (triples_of rs) (@nil triple)) as [A B].
    { simpl. apply triples_NoDup; exact W. }
    rewrite A, B. exists rs. split; [apply triples_rel; assumption|reflexivity].
  - apply addRates_loop_rel; exact R.
Qed.

(** ** Queries *)

Lemma getRate_present i j p m : wf_map m -> entry_of m i j = Some p ->
  r_getRate i j m = Ret p m.
Proof.
  intros W E. unfold entry_of in E. unfold r_getRate, umem, row_at.
  destruct (ulookup i m) as [r|]; [|discriminate]. simpl. rewrite E. reflexivity.
Qed.

Lemma getRate_no_row i j m : ulookup i m = None ->
  r_getRate i j m = Thr InvalidArgument (uset m i []).
Proof. intros E. unfold r_getRate, umem, row_at. rewrite E. reflexivity. Qed.

Lemma row_has_out m l i : Rel m l -> (umem i m = true <-> has_out l i).
Proof.
  intros (W & F & E & ND). rewrite umem_lookup. unfold has_out. split.
  - intros [r H]. destruct r as [|[j p] r].
    + exfalso. rewrite full_lookup in F by apply W. eapply F; eauto.
    + exists j. rewrite <- E. unfold entry_of. rewrite H. simpl. rewrite Z.eqb_refl. discriminate.
  - intros [j H]. rewrite <- E in H. unfold entry_of in H.
    destruct (ulookup i m); [eauto|congruence].
Qed.

Lemma outCount_state i m l : Rel m l -> has_out l i ->
  exists n, r_outgoingRateCount i m = Ret n m.
Proof.
  intros R H. apply (row_has_out m l) in H; [|exact R]. apply umem_lookup in H.
  destruct H as [r H]. unfold r_outgoingRateCount, row_at. rewrite H. eauto.
Qed.

Lemma step_rel o m l : Rel m l -> clean l o -> Rel (r_step o m) (spec_step l o).
Proof.
  intros R C. destruct o; simpl in *; auto.
  - pose proof (add1_rel m l i j p R) as A. unfold add1 in A. destruct (stored l i j); simpl.
    + destruct A as [-> _]; exact R.
    + destruct A as [-> A]; exact A.
  - destruct C as [W F]. destruct (addRates_rel rates m l R W F) as (m' & R' & ->).
    destruct (add_many_ok l (triples_of rates)); exact R'.
  - destruct (stored l i j) as [p|] eqn:S; [|congruence]. destruct R as (W & F & E & ND).
    rewrite (getRate_present i j p) by (auto; rewrite E; exact S). simpl. repeat split; auto; apply W.
  - destruct (outCount_state s m l R C) as [n ->]. exact R.
Qed.

Lemma empty_rel : Rel [] [].
Proof.
  split; [|split; [|split]].
  - split; [constructor|simpl; tauto].
  - intros i r [].
  - reflexivity.
  - constructor.
Qed.

Lemma exec_rel ops : forall m l, Rel m l -> clean_history l ops ->
  Rel (r_exec ops m) (fold_left spec_step ops l).
Proof.
  induction ops as [|o ops IH]; intros m l R C; simpl in *; [exact R|].
  destruct C as [C1 C2]. apply IH; [apply step_rel; assumption|exact C2].
Qed.

Lemma query_pure ops o : clean_history [] (ops ++ [o]) ->
  match o with RAdd _ _ _ | RAddAll _ => True | _ => r_step o (r_exec ops []) = r_exec ops [] end.
Proof.
  intros C.
  assert (C1 : clean_history [] ops /\ clean (spec_exec ops) o).
  { unfold spec_exec. revert C. generalize (@nil triple) as l.
    induction ops as [|x ops IH]; intros l C; simpl in *; [tauto|].
    destruct C as [C1 C2]. apply IH in C2. tauto. }
  destruct C1 as [C1 C2]. pose proof (exec_rel ops [] [] empty_rel C1) as R.
  destruct o; simpl; auto.
  - simpl in C2. destruct (stored (spec_exec ops) i j) as [p|] eqn:S; [|congruence].
    destruct R as (W & _ & E & _). rewrite (getRate_present i j p); auto.
    rewrite E. exact S.
  - destruct (outCount_state s _ _ R C2) as [n ->]. reflexivity.
Qed.

(** ** Lookups *)

Lemma clean_getRate ops i j : clean_history [] ops ->
  let m := r_exec ops [] in let l := spec_exec ops in
  (forall p, stored l i j = Some p -> r_getRate i j m = Ret p m) /\
  (~ has_out l i -> exists m', r_getRate i j m = Thr InvalidArgument m').
Proof.
  intros C m l. pose proof (exec_rel ops [] [] empty_rel C) as R. fold m l in R.
  change (fold_left spec_step ops []) with l in R. split.
  - intros p S. destruct R as (W & _ & E & _). apply getRate_present; [exact W|].
    rewrite E; exact S.
  - intros H. eexists. apply getRate_no_row. apply umem_false_lookup.
    destruct (umem i m) eqn:U; [|reflexivity]. apply (row_has_out m l) in U; [contradiction|exact R].
Qed.

Lemma clean_addRate ops i j p : clean_history [] ops ->
  let m := r_exec ops [] in let l := spec_exec ops in
  match stored l i j with
  | Some _ => r_addRate i j p m = Thr InvalidArgument m
  | None => exists m', r_addRate i j p m = Ret tt m'
  end.
Proof.
  intros C m l. pose proof (exec_rel ops [] [] empty_rel C) as R.
  pose proof (add1_rel m l i j p R) as A. unfold add1 in A.
  destruct (stored l i j); [apply A | destruct A; eauto].
Qed.

(** every history, clean or not: a pointer once accepted is always returned *)
Lemma addRow_keeps i j p a row : forall m m' e, wf_map m -> entry_of m i j = Some p ->
  (r_addRow a row m = Ret tt m' \/ r_addRow a row m = Thr e m') -> wf_map m' /\ entry_of m' i j = Some p.
Proof.
  unfold r_addRow. induction row as [|[b q] row IH]; intros m m' e W E R; simpl in R.
  - destruct R as [R|R]; inversion R; subst; auto.
  - unfold bind in R. rewrite addRate_eq in R. destruct (entry_of m a b) eqn:E2.
    + destruct R as [R|R]; inversion R; subst; auto.
    + eapply IH; [| |exact R].
      * apply set_entry_wf; exact W.
      * rewrite set_entry_entry by exact W.
        destruct (Z.eqb_spec i a), (Z.eqb_spec j b); simpl; subst; auto. congruence.
Qed.

Lemma addRates_keeps i j p rs : forall m m' e, wf_map m -> entry_of m i j = Some p ->
  (r_addRates_loop rs m = Ret tt m' \/ r_addRates_loop rs m = Thr e m') ->
  wf_map m' /\ entry_of m' i j = Some p.
Proof.
  unfold r_addRates_loop. induction rs as [|[a row] rs IH]; intros m m' e W E R; simpl in R.
  - destruct R as [R|R]; inversion R; subst; auto.
  - unfold bind in R. destruct (r_addRow a row m) as [[] s|e' s|h] eqn:A.
    + destruct (addRow_keeps i j p a row m s e W E (or_introl A)) as [W' E'].
      eapply IH; eauto.
    + destruct (addRow_keeps i j p a row m s e' W E (or_intror A)) as [W' E'].
      destruct R as [R|R]; inversion R; subst; auto.
    + destruct R as [R|R]; discriminate.
Qed.

Lemma entry_nonempty m i j p : entry_of m i j = Some p -> Nat.eqb (length m) 0 = false.
Proof. destruct m; [discriminate|reflexivity]. Qed.

Lemma uset_empty_row m a i j p : wf_map m -> ulookup a m = None -> entry_of m i j = Some p ->
  wf_map (uset m a []) /\ entry_of (uset m a []) i j = Some p.
Proof.
  intros W L E. split.
  - apply wf_lookup in W. destruct W as [ND W]. apply wf_lookup. split.
    + apply uset_NoDup; exact ND.
    + intros k r. rewrite uset_lookup by exact ND. destruct (k =? a); [|apply W].
      intros H; inversion H; constructor.
  - unfold entry_of in *. rewrite uset_lookup by apply W.
    destruct (Z.eqb_spec i a); subst; [|exact E]. rewrite L in E; discriminate.
Qed.

Lemma step_keeps o i j p m : wf_map m -> entry_of m i j = Some p ->
  wf_map (r_step o m) /\ entry_of (r_step o m) i j = Some p.
Proof.
  intros W E. destruct o; simpl; auto.
  - rewrite addRate_eq. destruct (entry_of m i0 j0) eqn:E0; simpl; [auto|].
    split; [apply set_entry_wf; exact W|]. rewrite set_entry_entry by exact W.
    destruct (Z.eqb_spec i i0), (Z.eqb_spec j j0); simpl; subst; auto. congruence.
  - unfold r_addRates. rewrite (entry_nonempty _ _ _ _ E).
    destruct (r_addRates_loop rates m) as [[] s|e s|h] eqn:A; simpl; auto;
      eapply addRates_keeps; eauto. Unshelve. exact InvalidArgument.
  - unfold r_getRate, umem, row_at. destruct (ulookup i0 m) as [r|] eqn:L; simpl.
    + destruct (ulookup j0 r) eqn:L2; simpl; [auto|].
      assert (Es : uset m i0 (uset r j0 null) = set_entry m i0 j0 null).
      { unfold set_entry, row_at. rewrite L. reflexivity. }
      rewrite Es. split; [apply set_entry_wf; exact W|]. rewrite set_entry_entry by exact W.
      destruct (Z.eqb_spec i i0), (Z.eqb_spec j j0); simpl; subst; auto.
      unfold entry_of in E. rewrite L, L2 in E. discriminate.
    + apply uset_empty_row; assumption.
  - unfold r_outgoingRateCount, row_at. destruct (ulookup s m) eqn:L; simpl; [auto|].
    apply uset_empty_row; assumption.
Qed.

Lemma added_is_found i j p ops m m1 : wf_map m -> r_addRate i j p m = Ret tt m1 ->
  exists m2, r_getRate i j (r_exec ops m1) = Ret p m2.
Proof.
  intros W A. rewrite addRate_eq in A. destruct (entry_of m i j); [discriminate|].
  inversion A; subst; clear A.
  assert (H : wf_map (set_entry m i j p) /\ entry_of (set_entry m i j p) i j = Some p).
  { split; [apply set_entry_wf; exact W|]. rewrite set_entry_entry, !Z.eqb_refl by exact W. reflexivity. }
  revert H. generalize (set_entry m i j p) as m0.
  induction ops as [|o ops IH]; intros m0 [W0 E0]; simpl.
  - eexists. apply getRate_present; eassumption.
  - apply IH. apply step_keeps; assumption.
Qed.

(** ** Sources and sinks *)

Lemma outgoingIds_spec m : NoDup (ukeys (r_outgoingIds m)) /\
  forall s, In s (ukeys (r_outgoingIds m)) <-> In s (ukeys m).
Proof.
  unfold r_outgoingIds.
  assert (G : forall acc : umap unit, NoDup (ukeys acc) ->
    NoDup (ukeys (fold_left (fun acc site => uinsert acc (fst site)) m acc)) /\
    forall s, In s (ukeys (fold_left (fun acc (site : Z * umap ptr) => uinsert acc (fst site)) m acc)) <->
              In s (ukeys acc) \/ In s (ukeys m)).
  { induction m as [|[i r] m IH]; intros acc ND; simpl; [tauto|].
    destruct (IH (uinsert acc i) (uinsert_NoDup acc i ND)) as [A B]. split; [exact A|].
    intros s. rewrite B, uinsert_In. unfold ukeys; simpl. intuition congruence. }
  destruct (G [] (NoDup_nil _)) as [A B]. split; [exact A|]. intros s. rewrite B. simpl. tauto.
Qed.

Lemma incomingIds_spec m : NoDup (ukeys (r_incomingIds m)) /\
  forall s, In s (ukeys (r_incomingIds m)) <-> exists i r, In (i, r) m /\ In s (ukeys r).
Proof.
  unfold r_incomingIds.
  assert (G1 : forall (r : umap ptr) (acc : umap unit), NoDup (ukeys acc) ->
    NoDup (ukeys (fold_left (fun acc n => uinsert acc (fst n)) r acc)) /\
    forall s, In s (ukeys (fold_left (fun acc (n : Z * ptr) => uinsert acc (fst n)) r acc)) <->
              In s (ukeys acc) \/ In s (ukeys r)).
  { induction r as [|[j p] r IH]; intros acc ND; simpl; [tauto|].
    destruct (IH (uinsert acc j) (uinsert_NoDup acc j ND)) as [A B]. split; [exact A|].
    intros s. rewrite B, uinsert_In. unfold ukeys; simpl. intuition congruence. }
  assert (G : forall acc : umap unit, NoDup (ukeys acc) ->
    NoDup (ukeys (fold_left (fun acc site => fold_left (fun acc n => uinsert acc (fst n)) (snd site) acc) m acc)) /\
    forall s, In s (ukeys (fold_left (fun acc (site : Z * umap ptr) =>
        fold_left (fun acc n => uinsert acc (fst n)) (snd site) acc) m acc)) <->
              In s (ukeys acc) \/ exists i r, In (i, r) m /\ In s (ukeys r)).
  { induction m as [|[i r] m IH]; intros acc ND; simpl.
    - split; [exact ND|]. intros s; split; [auto|]. intros [H|(? & ? & [] & _)]; exact H.
    - destruct (G1 r acc ND) as [A B]. destruct (IH _ A) as [A' B']. split; [exact A'|].
      intros s. rewrite B', B. split.
      + intros [[H|H]|(i' & r' & H & H2)]; [auto| |].
        * right; exists i, r; auto.
        * right; exists i', r'; auto.
      + intros [H|(i' & r' & [H|H] & H2)]; [auto| |].
        * inversion H; subst; auto.
        * right; exists i', r'; auto. }
  destruct (G [] (NoDup_nil _)) as [A B]. split; [exact A|]. intros s. rewrite B. simpl.
  split; [intros [[]|H]; exact H | auto].
Qed.

Lemma sources_gen m : exists ids, r_getSourceSiteIds m = Ret ids m /\ NoDup ids /\
  forall s, In s ids <-> In s (ukeys m) /\ ~ exists i r, In (i, r) m /\ In s (ukeys r).
Proof.
  destruct (outgoingIds_spec m) as [A B], (incomingIds_spec m) as [C D].
  eexists; split; [reflexivity|]. split.
  - apply NoDup_filter; exact A.
  - intros s. rewrite filter_In, B, negb_true_iff, umem_false, D. reflexivity.
Qed.
Lemma sinks_gen m : exists ids, r_getSinkSiteIds m = Ret ids m /\ NoDup ids /\
  forall s, In s ids <-> ~ In s (ukeys m) /\ exists i r, In (i, r) m /\ In s (ukeys r).
Proof.
  destruct (outgoingIds_spec m) as [A B], (incomingIds_spec m) as [C D].
  eexists; split; [reflexivity|]. split.
  - apply NoDup_filter; exact C.
  - intros s. rewrite filter_In, D, negb_true_iff, umem_false, B. tauto.
Qed.

Lemma in_iff m l s : Rel m l -> (exists i r, In (i, r) m /\ In s (ukeys r)) <-> has_in l s.
Proof.
  intros (W & F & E & ND). unfold has_in. split.
  - intros (i & r & H & H2). exists i. rewrite <- E. unfold ukeys in H2. apply in_map_iff in H2.
    destruct H2 as ([b q] & Eq & H2); simpl in Eq; subst.
    assert (X : entry_of m i s = Some q) by (apply entry_In; eauto). rewrite X. discriminate.
  - intros (i & H). rewrite <- E in H. destruct (entry_of m i s) as [p|] eqn:X; [|congruence].
    apply entry_In in X; [|exact W]. destruct X as (r & H1 & H2). exists i, r. split; [exact H1|].
    apply (in_map fst) in H2; exact H2.
Qed.

Lemma sources_exact ops : clean_history [] ops ->
  exists ids, r_getSourceSiteIds (r_exec ops []) = Ret ids (r_exec ops []) /\ NoDup ids /\
    forall s, In s ids <-> has_out (spec_exec ops) s /\ ~ has_in (spec_exec ops) s.
Proof.
  intros C. pose proof (exec_rel ops [] [] empty_rel C) as R.
  destruct (sources_gen (r_exec ops [])) as (ids & E & ND & H). exists ids. split; [exact E|split; [exact ND|]].
  intros s. rewrite H, <- umem_In, (row_has_out _ _ s R), (in_iff _ _ s R). reflexivity.
Qed.
Lemma sinks_exact ops : clean_history [] ops ->
  exists ids, r_getSinkSiteIds (r_exec ops []) = Ret ids (r_exec ops []) /\ NoDup ids /\
    forall s, In s ids <-> has_in (spec_exec ops) s /\ ~ has_out (spec_exec ops) s.
Proof.
  intros C. pose proof (exec_rel ops [] [] empty_rel C) as R.
  destruct (sinks_gen (r_exec ops [])) as (ids & E & ND & H). exists ids. split; [exact E|split; [exact ND|]].
  intros s. rewrite H, <- umem_In, (row_has_out _ _ s R), (in_iff _ _ s R). tauto.
Qed.

(** ** Counts and extracted maps *)

Lemma incount_exact ops s : clean_history [] ops ->
  r_incomingRateCount s (r_exec ops []) =
  Ret (Z.of_nat (length (filter (fun t : triple => snd (fst t) =? s) (spec_exec ops)))) (r_exec ops []).
Proof.
  intros C. pose proof (exec_rel ops [] [] empty_rel C) as R. fold (spec_exec ops) in R.
  set (m := r_exec ops []) in *. set (l := spec_exec ops) in *.
  unfold r_incomingRateCount, gets. f_equal. f_equal.
  destruct R as (W & F & E & ND).
  rewrite <- (map_length fst), <- (map_length (fun t : triple => fst (fst t)) (filter _ l)).
  apply Permutation_length, NoDup_Permutation.
  - destruct W as [NDk _]. clear -NDk. unfold ukeys in NDk.
    induction m as [|x m IH]; simpl; [constructor|]. inversion NDk; subst.
    destruct (umem s (snd x)); simpl; [|auto]. constructor; [|auto].
    intros H. apply H1. apply in_map_iff in H. destruct H as (y & Eq & H).
    apply filter_In in H. rewrite <- Eq. apply in_map. tauto.
  - clear -ND. induction l as [|[[a b] q] l IH]; simpl in *; [constructor|]. inversion ND; subst.
    destruct (Z.eqb_spec b s); simpl; [|auto]. subst. constructor; [|auto].
    intros H. apply H1. apply in_map_iff in H. destruct H as ([[a' b'] q'] & Eq & H).
    apply filter_In in H. simpl in *. destruct H as [H Hs]. apply Z.eqb_eq in Hs. subst.
    apply (in_map fst) in H. exact H.
  - intros i. rewrite !in_map_iff. split.
    + intros ([i' r] & Eq & H). simpl in Eq; subst. apply filter_In in H. destruct H as [H Hm].
      simpl in Hm. apply umem_lookup in Hm. destruct Hm as [p Hp].
      exists (i, s, p). split; [reflexivity|]. apply filter_In. simpl. split; [|apply Z.eqb_refl].
      apply stored_In; [exact ND|]. rewrite <- E. unfold entry_of.
      destruct W as [NDk W]. rewrite (In_ulookup i r m NDk H). exact Hp.
    + intros ([[a b] q] & Eq & H). simpl in Eq; subst. apply filter_In in H. destruct H as [H Hs].
      simpl in Hs. apply Z.eqb_eq in Hs; subst. apply stored_In in H; [|exact ND].
      rewrite <- E in H. unfold entry_of in H. destruct (ulookup i m) as [r|] eqn:L; [|discriminate].
      exists (i, r). split; [reflexivity|]. apply filter_In. split; [apply ulookup_In; exact L|].
      simpl. apply umem_lookup; eauto.
Qed.

Lemma outcount_exact ops s : clean_history [] ops -> has_out (spec_exec ops) s ->
  r_outgoingRateCount s (r_exec ops []) =
  Ret (Z.of_nat (length (filter (fun t : triple => fst (fst t) =? s) (spec_exec ops)))) (r_exec ops []).
Proof.
  intros C HO. pose proof (exec_rel ops [] [] empty_rel C) as R. fold (spec_exec ops) in R.
  set (m := r_exec ops []) in *. set (l := spec_exec ops) in *.
  pose proof (proj2 (row_has_out m l s R) HO) as Hm. apply umem_lookup in Hm. destruct Hm as [r Hr].
  unfold r_outgoingRateCount, row_at. rewrite Hr. f_equal. f_equal.
  destruct R as (W & F & E & ND).
  rewrite <- (map_length fst), <- (map_length (fun t : triple => snd (fst t)) (filter _ l)).
  apply Permutation_length, NoDup_Permutation.
  - apply wf_lookup in W. destruct W as [_ W]. exact (W s r Hr).
  - clear -ND. induction l as [|[[a b] q] l IH]; simpl in *; [constructor|]. inversion ND; subst.
    destruct (Z.eqb_spec a s); simpl; [|auto]. subst. constructor; [|auto].
    intros H. apply H1. apply in_map_iff in H. destruct H as ([[a' b'] q'] & Eq & H).
    apply filter_In in H. simpl in *. destruct H as [H Hs]. apply Z.eqb_eq in Hs. subst.
    apply (in_map fst) in H. exact H.
  - intros j. split.
    + intros H. assert (exists p, ulookup j r = Some p) as [p Hp] by (apply ukeys_In; exact H).
      apply in_map_iff. exists (s, j, p). split; [reflexivity|]. apply filter_In. simpl.
      split; [|apply Z.eqb_refl]. apply stored_In; [exact ND|]. rewrite <- E. unfold entry_of.
      rewrite Hr. exact Hp.
    + intros H. apply in_map_iff in H. destruct H as ([[a b] q] & Eq & H). simpl in Eq; subst.
      apply filter_In in H. destruct H as [H Hs]. simpl in Hs. apply Z.eqb_eq in Hs; subst.
      apply stored_In in H; [|exact ND]. rewrite <- E in H. unfold entry_of in H. rewrite Hr in H.
      apply ulookup_In_key in H. exact H.
Qed.

Lemma outgoing_exact ops s : clean_history [] ops ->
  exists out, r_getOutgoingRates s (r_exec ops []) = Ret out (r_exec ops []) /\
    forall i j, entry_of out i j = if i =? s then stored (spec_exec ops) i j else None.
Proof.
  intros C. pose proof (exec_rel ops [] [] empty_rel C) as R. fold (spec_exec ops) in R.
  destruct R as (W & F & E & ND).
  eexists; split; [reflexivity|]. intros i j. rewrite <- E. unfold entry_of.
  destruct (ulookup s (r_exec ops [])) as [r|] eqn:L.
  - rewrite uset_lookup by constructor. destruct (Z.eqb_spec i s); [subst; rewrite L; reflexivity|reflexivity].
  - simpl. destruct (Z.eqb_spec i s); [subst; rewrite L; reflexivity|reflexivity].
Qed.

Lemma row_then_set (acc : rmap) i j p :
  (let (r, acc') := row_at acc i in uset acc' i (uset r j p)) = set_entry acc i j p.
Proof. unfold set_entry. destruct (row_at acc i); reflexivity. Qed.

Lemma incoming_row i s r : forall acc, wf_map acc -> NoDup (ukeys r) ->
  (forall b, entry_of acc i b = None) ->
  let acc' := fold_left (fun acc neigh => if fst neigh =? s
        then let (r, acc') := row_at acc i in uset acc' i (uset r (fst neigh) (snd neigh))
        else acc) r acc in
  wf_map acc' /\ forall a b, entry_of acc' a b =
    if (a =? i) then (if b =? s then ulookup b r else None) else entry_of acc a b.
Proof.
  intros acc W ND Hnone. simpl.
  assert (G : forall r0 acc0, wf_map acc0 -> NoDup (ukeys r0) ->
    let acc' := fold_left (fun acc neigh => if fst neigh =? s
        then let (r, acc') := row_at acc i in uset acc' i (uset r (fst neigh) (snd neigh))
        else acc) r0 acc0 in
    wf_map acc' /\ forall a b, entry_of acc' a b =
      if (a =? i) && (b =? s) then match ulookup b r0 with Some p => Some p | None => entry_of acc0 a b end
      else entry_of acc0 a b).
  { clear acc W ND Hnone r. induction r0 as [|[j p] r0 IH]; intros acc0 W ND; simpl.
    - split; [exact W|]. intros a b. destruct ((a =? i) && (b =? s)); reflexivity.
    - unfold ukeys in ND. simpl in ND. inversion ND; subst.
      destruct (Z.eqb_spec j s).
      + subst. rewrite row_then_set. destruct (IH (set_entry acc0 i s p)) as [A B].
        { apply set_entry_wf; exact W. } { assumption. }
        split; [exact A|]. intros a b. rewrite B, set_entry_entry by exact W.
        destruct (Z.eqb_spec a i), (Z.eqb_spec b s); simpl; subst; auto.
        assert (X : ulookup s r0 = None) by (apply ulookup_None; assumption).
        rewrite X. reflexivity.
      + destruct (IH acc0 W) as [A B]. { assumption. }
        split; [exact A|]. intros a b. rewrite B.
        destruct (Z.eqb_spec a i), (Z.eqb_spec b s); simpl; subst; auto.
        destruct (Z.eqb_spec s j); [congruence|reflexivity]. }
  destruct (G r acc W ND) as [A B]. split; [exact A|]. intros a b. rewrite B.
  destruct (Z.eqb_spec a i); simpl; [|reflexivity]. subst. rewrite Hnone.
  destruct (b =? s); [|reflexivity]. destruct (ulookup b r); reflexivity.
Qed.

Lemma incoming_exact ops s : clean_history [] ops ->
  exists inc, r_getIncomingRates s (r_exec ops []) = Ret inc (r_exec ops []) /\
    forall i j, entry_of inc i j = if j =? s then stored (spec_exec ops) i j else None.
Proof.
  intros C. pose proof (exec_rel ops [] [] empty_rel C) as R. fold (spec_exec ops) in R.
  destruct R as (W & F & E & ND).
  eexists; split; [reflexivity|]. set (m := r_exec ops []) in *.
  assert (G : forall m0 acc, wf_map m0 -> wf_map acc ->
    (forall i, In i (ukeys m0) -> forall b, entry_of acc i b = None) ->
    forall a b, entry_of (fold_left (fun acc site =>
      fold_left (fun acc neigh => if fst neigh =? s
        then let (r, acc') := row_at acc (fst site) in
             uset acc' (fst site) (uset r (fst neigh) (snd neigh))
        else acc) (snd site) acc) m0 acc) a b =
      if umem a m0 then (if b =? s then entry_of m0 a b else None) else entry_of acc a b).
  { clear. induction m0 as [|[i r] m0 IH]; intros acc W Wacc Hn a b; simpl.
    - reflexivity.
    - destruct W as [ND W]. unfold ukeys in ND; simpl in ND. inversion ND; subst.
      destruct (incoming_row i s r acc Wacc) as [A B].
      { apply (W i). left; reflexivity. } { apply Hn. left; reflexivity. }
      simpl in A, B. rewrite IH.
      + unfold umem, entry_of at 1. simpl. rewrite B. unfold entry_of at 2. simpl.
        destruct (Z.eqb_spec a i).
        * subst. assert (X : ulookup i m0 = None) by (apply ulookup_None; assumption).
          rewrite X. reflexivity.
        * unfold entry_of. destruct (ulookup a m0); reflexivity.
      + split; [assumption|]. intros a' r' H. apply (W a'). right; exact H.
      + exact A.
      + intros i' Hi' b'. rewrite B. destruct (Z.eqb_spec i' i).
        * subst. exfalso. apply H1. exact Hi'.
        * apply Hn. right; exact Hi'. }
  intros i j. rewrite G; auto.
  - rewrite <- E. destruct (umem i m) eqn:U; [reflexivity|].
    unfold entry_of. simpl. apply umem_false_lookup in U. rewrite U. destruct (j =? s); reflexivity.
  - split; [constructor|simpl; tauto].
Qed.

End P.
