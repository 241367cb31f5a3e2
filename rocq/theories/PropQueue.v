(** * C01-C04: the Queue *)
From Coq Require Import ZArith List Bool Permutation Reals Lra Floats.
From Verif Require Import Base Num F64 OrdLaws BaseProofs QueueModel QueueSpec QueueProofs.
Import ListNotations.
Open Scope Z_scope.

(** Example setting: binary64, insertion sort. *)
Local Definition fn : Num := F64 (fun x => x).
Local Definition ops1 : list (@qop fn) :=
  let QAdd := @QAdd fn in let QSortedAdd := @QSortedAdd fn in
  let QPop := @QPop fn in let QSort := @QSort fn in
  [QAdd (1, 3%float); QAdd (2, 1%float); QSort; QSortedAdd (3, 2%float); QSortedAdd (4, 1%float);
   QPop; QSortedAdd (5, 0%float)].

(** C01: in a history without an [add] after the last [sort], the popped entry
    is no later than every entry still readable in the queue. *)
Theorem C01_pop_in_time_order :
  forall (I : Impl) (N : Num), OrdLaws N ->
  forall (ops : list qop) popped q e q',
    q_run ops q_init = Ret popped q -> settled ops = true ->
    q_pop q = Ret e q' ->
    forall i x q'', q_at i q' = Ret x q'' -> no_later e x.
Proof. exact @pop_in_order. Qed.
Print Assumptions C01_pop_in_time_order.

Example C01_nonvacuous :
  exists popped q e q' x q'',
    q_run (I := impl0) (N := fn) ops1 q_init = Ret popped q /\ settled ops1 = true /\
    q_pop q = Ret e q' /\ q_at 1 q' = Ret x q'' /\ e = (5, 0%float) /\ x = (3, 2%float).
Proof. do 6 eexists. repeat split; reflexivity. Qed.

(** The hypothesis on the arithmetic holds for exact numbers and for binary64. *)
Theorem C01_order_laws_hold : OrdLaws XR /\ forall lnf, OrdLaws (F64 lnf).
Proof. exact (conj XR_ord F64_ord). Qed.
Print Assumptions C01_order_laws_hold.

(** C02: when isSorted() is true the readable times never decrease; and
    isSorted() says exactly that no [add] happened since the last [sort]. *)
Theorem C02_isSorted_truthful :
  forall (I : Impl) (N : Num), OrdLaws N ->
  forall (ops : list qop) popped q q1,
    q_run ops q_init = Ret popped q -> q_isSorted q = Ret true q1 ->
    forall i j x y qi qj, i < j ->
      q_at i q = Ret x qi -> q_at j q = Ret y qj -> no_later x y.
Proof. exact @sorted_flag_truth. Qed.
Print Assumptions C02_isSorted_truthful.

Theorem C02_isSorted_exact :
  forall (I : Impl) (N : Num), OrdLaws N ->
  forall (ops : list qop) popped q,
    q_run ops q_init = Ret popped q -> q_isSorted q = Ret (settled ops) q.
Proof. exact @sorted_flag_exact. Qed.
Print Assumptions C02_isSorted_exact.

Example C02_nonvacuous :
  exists popped q q1 x y,
    q_run (I := impl0) (N := fn) ops1 q_init = Ret popped q /\ q_isSorted q = Ret true q1 /\
    q_at 0 q = Ret x q /\ q_at 2 q = Ret y q /\ x = (5, 0%float) /\ y = (3, 2%float).
Proof. do 5 eexists. repeat split; reflexivity. Qed.

(** C03: conservation with multiplicity. *)
Theorem C03_conserves_walkers :
  forall (I : Impl) (N : Num), OrdLaws N ->
  forall (ops : list qop) popped q,
    q_run ops q_init = Ret popped q -> Permutation (popped ++ q_list q) (added ops).
Proof. exact @conservation. Qed.
Print Assumptions C03_conserves_walkers.

(** C03: with non-NaN times a history is defined exactly when no pop meets an
    empty queue; otherwise it is undefined behaviour. *)
Theorem C03_defined_exactly :
  forall (I : Impl) (N : Num) (ops : list qop) q,
    Forall (fun e => comparable (snd e) = true) (q_list q ++ added ops) ->
    (pops_ok (length (q_list q)) ops = true -> exists popped q', q_run ops q = Ret popped q') /\
    (pops_ok (length (q_list q)) ops = false -> q_run ops q = Halt Undefined).
Proof. exact @run_defined. Qed.
Print Assumptions C03_defined_exactly.

(** C03: sortedAdd into a sorted queue keeps the order of the entries present
    and puts the new one behind every entry that is not later (FIFO on ties). *)
Theorem C03_sortedAdd_fifo :
  forall (N : Num), OrdLaws N ->
  forall w q q',
    q_sortedAdd w q = Ret tt q' ->
    comparable (snd w) = true -> Forall (fun e => comparable (snd e) = true) (q_list q) ->
    no_inv time_lt (q_list q) ->
    exists a b, q_list q = a ++ b /\ q_list q' = a ++ w :: b /\
      Forall (fun e => nltb (snd w) (snd e) = false) a /\
      Forall (fun e => nltb (snd w) (snd e) = true) b.
Proof. exact @sortedAdd_stable. Qed.
Print Assumptions C03_sortedAdd_fifo.

Example C03_nonvacuous :
  pops_ok 0 ops1 = true /\
  Forall (fun e => @comparable fn (snd e) = true) (added ops1) /\
  q_sortedAdd (N := fn) (9, 1%float) (mkQueue (N := fn) [(1, 1%float); (2, 2%float)] true)
    = Ret tt (mkQueue (N := fn) [(1, 1%float); (9, 1%float); (2, 2%float)] true).
Proof. repeat split; try reflexivity; repeat constructor. Qed.

(** C04: popped times of the event loop never decrease.  [T] is any set of
    times, closed under adding the dwell times that occur, on which adding a
    dwell time does not go below the time itself. *)
Theorem C04_event_loop_monotone :
  forall (N : Num), OrdLaws N ->
  forall (T : num -> Prop) decisions q times q',
    (forall t, T t -> comparable t = true) ->
    (forall t d, In (Some d) decisions -> T t -> nltb (nadd t d) t = false /\ T (nadd t d)) ->
    Forall (fun e => T (snd e)) (q_list q) ->
    (forall i j x y, (i < j)%nat -> nth_error (q_list q) i = Some x ->
       nth_error (q_list q) j = Some y -> nltb (snd y) (snd x) = false) ->
    event_loop decisions q = Ret times q' ->
    forall i j ti tj, (i < j)%nat -> nth_error times i = Some ti -> nth_error times j = Some tj ->
      nltb tj ti = false.
Proof. exact @event_loop_monotone. Qed.
Print Assumptions C04_event_loop_monotone.

(** The same for exact arithmetic with the hypotheses in plain terms. *)
Theorem C04_event_loop_monotone_exact :
  forall (decisions : list (option xr)) (q : @queue XR) times q',
    (forall d, In (Some d) decisions -> exists r, d = Fin r /\ (0 <= r)%R) ->
    (forall e, In e (q_list q) -> exists r, snd e = Fin r) ->
    (forall i j x y, (i < j)%nat -> nth_error (q_list q) i = Some x ->
       nth_error (q_list q) j = Some y -> xltb (snd y) (snd x) = false) ->
    event_loop (N := XR) decisions q = Ret times q' ->
    forall i j ti tj, (i < j)%nat -> nth_error times i = Some ti -> nth_error times j = Some tj ->
      xltb tj ti = false.
Proof. exact @event_loop_monotone_R. Qed.
Print Assumptions C04_event_loop_monotone_exact.

Example C04_nonvacuous :
  exists times q',
    event_loop (N := fn) [Some 3%float; None; Some 1%float; Some 5%float]
      (mkQueue (N := fn) [(1, 1%float); (2, 2%float); (3, 2.5%float)] true) = Ret times q' /\
    times = [1%float; 2%float; 2.5%float; 3.5%float].
Proof. do 2 eexists. split; reflexivity. Qed.
