(** * Specification vocabulary for the Queue: facts about a history of calls,
    written without reference to what the queue does. *)
From Coq Require Import ZArith List Bool.
From Verif Require Import Base Num QueueModel.
Import ListNotations.

Section S.
Context {I : Impl} {N : Num}.

(** entries handed to the queue, in order *)
Fixpoint added (ops : list qop) : list entry :=
  match ops with
  | [] => []
  | QAdd w :: r => w :: added r
  | QSortedAdd w :: r => w :: added r
  | _ :: r => added r
  end.

(** no [add] since the last [sort] *)
Fixpoint settled_from (b : bool) (ops : list qop) : bool :=
  match ops with
  | [] => b
  | QAdd _ :: r => settled_from false r
  | QSort :: r => settled_from true r
  | _ :: r => settled_from b r
  end.
Definition settled := settled_from true.

(** every pop finds at least one entry; [n] is the number of entries before *)
Fixpoint pops_ok (n : nat) (ops : list qop) : bool :=
  match ops with
  | [] => true
  | QAdd _ :: r | QSortedAdd _ :: r => pops_ok (S n) r
  | QPop :: r => match n with O => false | S n' => pops_ok n' r end
  | QSort :: r => pops_ok n r
  end.


(** [x] is not later than [y] (both non-NaN): y < x is false *)
Definition no_later (x y : entry) : Prop := nltb (snd y) (snd x) = false.
End S.
