(** * Model of mythical::Queue
    include/mythical/queue.hpp:13-55, src/libmythical/queue.cpp *)
From Coq Require Import ZArith List Bool.
From Verif Require Import Base Num.
Import ListNotations.
Open Scope Z_scope.

Section Queue.
Context {I : Impl} {N : Num}.

(** std::pair<int,double>: walker id and global time (queue.hpp:43-52) *)
Definition entry : Type := (Z * num)%type.

(** The two members, walker_queue_ and sorted_ (queue.hpp:52-54). *)
Record queue := mkQueue { q_list : list entry; q_sorted : bool }.

(** queue.hpp:15 *)
Definition q_init : queue := mkQueue [] true.

(** Comparator / less_than, queue.cpp:10-25: compare times only. *)
Definition time_lt (x y : entry) : bool := nltb (snd x) (snd y).

(** queue.cpp:30 *)
Definition q_size : M queue Z := gets (fun q => Z.of_nat (length (q_list q))).

(** queue.cpp:32-35 *)
Definition q_add (w : entry) : M queue unit :=
  modify (fun q => mkQueue (q_list q ++ [w]) false).

(** queue.cpp:37-41: insert before the first element whose time is larger. *)
Fixpoint insert_before_larger (w : entry) (l : list entry) : list entry :=
  match l with
  | [] => [w]
  | e :: l' => if time_lt w e then w :: l else e :: insert_before_larger w l'
  end.
Definition q_sortedAdd (w : entry) : M queue unit :=
  modify (fun q => mkQueue (insert_before_larger w (q_list q)) (q_sorted q)).

(** queue.cpp:43-47: front() of an empty deque is undefined. *)
Definition q_pop : M queue entry :=
  fun q => match q_list q with
           | [] => Halt Undefined
           | e :: l => Ret e (mkQueue l (q_sorted q))
           end.

(** queue.cpp:49 *)
Definition q_isSorted : M queue bool := gets q_sorted.

(** queue.cpp:51-55.  std::sort needs a strict weak order: with a NaN among
    two or more entries its behaviour is undefined. *)
Definition comparable (x : num) : bool := neqb x x.
Definition q_sort : M queue unit :=
  fun q =>
    if q_sorted q then Ret tt q
    else if (Nat.ltb (length (q_list q)) 2) || forallb (fun e => comparable (snd e)) (q_list q)
    then Ret tt (mkQueue (psort entry time_lt (q_list q)) true)
    else Halt Undefined.

(** queue.cpp:57-59: a negative int becomes a huge size_t, so it throws too. *)
Definition q_at (i : Z) : M queue entry :=
  fun q => if i <? 0 then Thr OutOfRange q
           else match nth_error (q_list q) (Z.to_nat i) with
                | Some e => Ret e q
                | None => Thr OutOfRange q
                end.

(** ** Histories of calls *)

Inductive qop := QAdd (w : entry) | QSortedAdd (w : entry) | QPop | QSort.

(** Run a history; the popped entries are collected, oldest first. *)
Fixpoint q_run (ops : list qop) : M queue (list entry) :=
  match ops with
  | [] => ret []
  | QAdd w :: r => q_add w ;; q_run r
  | QSortedAdd w :: r => q_sortedAdd w ;; q_run r
  | QPop :: r => e <- q_pop ;; es <- q_run r ;; ret (e :: es)
  | QSort :: r => q_sort ;; q_run r
  end.

(** The loop of examples/ToF/ToF_example.cpp:175-215 (also the regression
    tests): pop the next walker; either it leaves (None) or it is put back at
    popped time + dwell time (Some d).  The loop also ends when the queue is
    empty.  Returns the popped times, oldest first. *)
Fixpoint event_loop (decisions : list (option num)) : M queue (list num) :=
  match decisions with
  | [] => ret []
  | dec :: r =>
      n <- q_size ;;
      if n =? 0 then ret []
      else
        e <- q_pop ;;
        (match dec with
         | None => ret tt
         | Some d => q_sortedAdd (fst e, nadd (snd e) d)
         end) ;;
        ts <- event_loop r ;; ret (snd e :: ts)
  end.
End Queue.
