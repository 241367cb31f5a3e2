(** * C15, C16: the rate container *)
From Coq Require Import ZArith List Bool.
From Verif Require Import Base BaseProofs RateModel RateSpec RateProofs.
Import ListNotations.
Open Scope Z_scope.

Local Definition ops1 : list rop :=
  [RAdd 1 2 (Some 12); RAddAll [(2, [(1, Some 21); (3, Some 23)])]; RGet 2 3; RInCount 9;
   ROutCount 2; RSources; RAdd 1 2 (Some 99)].
Example ops1_clean : clean_history [] ops1.
Proof.
  unfold ops1; simpl. unfold stored, has_out; simpl.
  repeat split; auto; try discriminate.
  - repeat constructor; simpl; intuition congruence.
  - intros i r [H|[]]; inversion H; subst. repeat constructor; simpl; intuition congruence.
  - intros i r [H|[]]; inversion H; discriminate.
  - exists 1. discriminate.
Qed.

(** C15, full statement: after any history getRate(i,j) returns the pointer
    that was added for (i,j) and throws if none was added, and no query changes
    what later queries return.  Proved for the histories [clean]: no lookup of
    a pair that is not stored, no outgoingRateCount of a site without outgoing
    rate, no empty rows passed to addRates.  Missing: the other histories, for
    which the statement is false (next theorems). *)
Theorem C15_lookups_faithful_partial :
  forall (I : Impl) (ops : list rop) (i j : Z), clean_history [] ops ->
    let m := r_exec ops [] in let l := spec_exec ops in
    (forall p, stored l i j = Some p -> r_getRate i j m = Ret p m) /\
    (~ has_out l i -> exists m', r_getRate i j m = Thr InvalidArgument m').
Proof. exact @clean_getRate. Qed.
Print Assumptions C15_lookups_faithful_partial.

(** In the same histories no query changes the state. *)
Theorem C15_queries_pure_partial :
  forall (I : Impl) (ops : list rop) (o : rop), clean_history [] (ops ++ [o]) ->
    match o with
    | RAdd _ _ _ | RAddAll _ => True
    | _ => r_step o (r_exec ops []) = r_exec ops []
    end.
Proof. exact @query_pure. Qed.
Print Assumptions C15_queries_pure_partial.

(** Adding an existing pair throws and changes nothing; adding a new one succeeds. *)
Theorem C15_add_existing_throws_partial :
  forall (I : Impl) (ops : list rop) i j p, clean_history [] ops ->
    let m := r_exec ops [] in let l := spec_exec ops in
    match stored l i j with
    | Some _ => r_addRate i j p m = Thr InvalidArgument m
    | None => exists m', r_addRate i j p m = Ret tt m'
    end.
Proof. exact @clean_addRate. Qed.
Print Assumptions C15_add_existing_throws_partial.

(** In every history, clean or not: a pointer that was accepted is returned for ever. *)
Theorem C15_added_is_found :
  forall (I : Impl) i j p (ops : list rop) m m1, wf_map m -> r_addRate i j p m = Ret tt m1 ->
    exists m2, r_getRate i j (r_exec ops m1) = Ret p m2.
Proof. exact @added_is_found. Qed.
Print Assumptions C15_added_is_found.

(** Counts and extracted maps agree with what was added. *)
Theorem C15_incoming_count_partial :
  forall (I : Impl) (ops : list rop) s, clean_history [] ops ->
    r_incomingRateCount s (r_exec ops []) =
    Ret (Z.of_nat (length (filter (fun t : triple => snd (fst t) =? s) (spec_exec ops)))) (r_exec ops []).
Proof. exact @incount_exact. Qed.
Print Assumptions C15_incoming_count_partial.

Theorem C15_outgoing_count_partial :
  forall (I : Impl) (ops : list rop) s, clean_history [] ops -> has_out (spec_exec ops) s ->
    r_outgoingRateCount s (r_exec ops []) =
    Ret (Z.of_nat (length (filter (fun t : triple => fst (fst t) =? s) (spec_exec ops)))) (r_exec ops []).
Proof. exact @outcount_exact. Qed.
Print Assumptions C15_outgoing_count_partial.

Theorem C15_incoming_rates_partial :
  forall (I : Impl) (ops : list rop) s, clean_history [] ops ->
    exists inc, r_getIncomingRates s (r_exec ops []) = Ret inc (r_exec ops []) /\
      forall i j, entry_of inc i j = if j =? s then stored (spec_exec ops) i j else None.
Proof. exact @incoming_exact. Qed.
Print Assumptions C15_incoming_rates_partial.

Theorem C15_outgoing_rates_partial :
  forall (I : Impl) (ops : list rop) s, clean_history [] ops ->
    exists out, r_getOutgoingRates s (r_exec ops []) = Ret out (r_exec ops []) /\
      forall i j, entry_of out i j = if i =? s then stored (spec_exec ops) i j else None.
Proof. exact @outgoing_exact. Qed.
Print Assumptions C15_outgoing_rates_partial.

Example C15_nonvacuous :
  clean_history [] ops1 /\ stored (spec_exec ops1) 1 2 = Some (Some 12) /\
  (exists m', r_getRate (I := impl0) 1 2 (r_exec (I := impl0) ops1 []) = Ret (Some 12) m') /\
  wf_map [] /\ exists m1, r_addRate (I := impl0) 1 2 (Some 12) [] = Ret tt m1.
Proof.
  split; [exact ops1_clean|]. split; [reflexivity|]. split; [eexists; reflexivity|].
  split; [|eexists; reflexivity]. split; [constructor|simpl; tauto].
Qed.

(** The full statement is false: a pair that was never added is answered with
    a null pointer instead of an exception ... *)
Theorem C15_absent_pair_refuted :
  exists (ops : list rop) i j, stored (spec_exec ops) i j = None /\
    forall I : Impl, exists m', r_getRate (I := I) i j (r_exec (I := I) ops []) = Ret null m'.
Proof.
  exists [RAdd 1 2 (Some 12)], 1, 3. split; [reflexivity|]. intros I.
  unfold r_exec, r_step, fold_left, rafter. rewrite addRate_eq. simpl.
  unfold r_getRate, umem, row_at, set_entry, row_at. simpl.
  assert (ND0 : NoDup (ukeys (@nil (Z * umap ptr)))) by constructor.
  assert (NDr : NoDup (ukeys (@nil (Z * ptr)))) by constructor.
  rewrite uset_uset_lookup by exact ND0. rewrite Z.eqb_refl. simpl.
  rewrite uset_lookup by exact NDr. simpl. eexists; reflexivity.
Qed.
Print Assumptions C15_absent_pair_refuted.

(** ... and that query changes what incomingRateCount returns, and makes a
    later addRate of the pair fail. *)
Theorem C15_query_changes_answers_refuted :
  exists (I : Impl) (ops : list rop) (o : rop),
    match o with RGet _ _ => True | _ => False end /\
    r_incomingRateCount 3 (r_exec ops []) = Ret 0 (r_exec ops []) /\
    (exists m, r_incomingRateCount 3 (r_exec (ops ++ [o]) []) = Ret 1 m) /\
    (exists m, r_addRate 1 3 (Some 13) (r_exec ops []) = Ret tt m) /\
    (exists m, r_addRate 1 3 (Some 13) (r_exec (ops ++ [o]) []) = Thr InvalidArgument m).
Proof.
  exists impl0, [RAdd 1 2 (Some 12)], (RGet 1 3).
  split; [exact Logic.I|]. repeat split; try (eexists; reflexivity). 
Qed.
Print Assumptions C15_query_changes_answers_refuted.

(** addRates that meets an existing pair throws after having added others. *)
Theorem C15_addRates_not_atomic_refuted :
  exists (I : Impl) (ops : list rop) (rs : rmap) e m',
    clean_history [] ops /\ wf_map rs /\
    r_addRates rs (r_exec ops []) = Thr e m' /\ m' <> r_exec ops [].
Proof.
  exists impl0, [RAdd 1 2 (Some 12)], [(5, [(6, Some 56)]); (1, [(2, Some 77)])].
  do 2 eexists. split; [simpl; tauto|]. split.
  - split; [repeat constructor; simpl; intuition congruence|].
    intros i r [H|[H|[]]]; inversion H; subst; repeat constructor; simpl; tauto.
  - split; [reflexivity|]. discriminate.
Qed.
Print Assumptions C15_addRates_not_atomic_refuted.

(** C16, full statement: for every history.  Proved for clean histories;
    false for the others. *)
Theorem C16_sources_exact_partial :
  forall (I : Impl) (ops : list rop), clean_history [] ops ->
    exists ids, r_getSourceSiteIds (r_exec ops []) = Ret ids (r_exec ops []) /\ NoDup ids /\
      forall s, In s ids <-> has_out (spec_exec ops) s /\ ~ has_in (spec_exec ops) s.
Proof. exact @sources_exact. Qed.
Print Assumptions C16_sources_exact_partial.

Theorem C16_sinks_exact_partial :
  forall (I : Impl) (ops : list rop), clean_history [] ops ->
    exists ids, r_getSinkSiteIds (r_exec ops []) = Ret ids (r_exec ops []) /\ NoDup ids /\
      forall s, In s ids <-> has_in (spec_exec ops) s /\ ~ has_out (spec_exec ops) s.
Proof. exact @sinks_exact. Qed.
Print Assumptions C16_sinks_exact_partial.

Example C16_nonvacuous :
  clean_history [] ops1 /\
  r_getSinkSiteIds (I := impl0) (r_exec (I := impl0) ops1 []) = Ret [3] (r_exec (I := impl0) ops1 []).
Proof. split; [exact ops1_clean|reflexivity]. Qed.

(** Counting the rates of a site without rates makes it a source; an empty row
    in addRates does the same, and hides a sink. *)
Theorem C16_phantom_source_refuted :
  exists (I : Impl) (ops : list rop) s m,
    (~ has_out (spec_exec ops) s) /\ r_getSourceSiteIds (r_exec ops []) = Ret [s] m.
Proof.
  exists impl0, [ROutCount 7], 7. eexists. split; [|reflexivity].
  intros [j H]. apply H. reflexivity.
Qed.
Print Assumptions C16_phantom_source_refuted.

Theorem C16_hidden_sink_refuted :
  exists (I : Impl) (ops : list rop) s m,
    has_in (spec_exec ops) s /\ (~ has_out (spec_exec ops) s) /\
    r_getSinkSiteIds (r_exec ops []) = Ret [] m.
Proof.
  exists impl0, [RAdd 1 2 (Some 12); ROutCount 2], 2. eexists.
  split; [exists 1; discriminate|]. split; [|reflexivity].
  intros [j H]. apply H. reflexivity.
Qed.
Print Assumptions C16_hidden_sink_refuted.
