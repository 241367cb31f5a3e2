(** * Base: outcomes, 32-bit ints and unordered containers

    Shared vocabulary of all models.  Nothing here models one particular
    function of /repo; it fixes how C++ results, [int] and
    [std::unordered_map] are represented. *)
From Coq Require Import ZArith List Bool Lia Permutation.
Import ListNotations.
Open Scope Z_scope.

(** ** Outcomes *)

(** The exception types the library throws
    (std::invalid_argument, std::runtime_error, std::out_of_range from
    [at], std::length_error from [vector::reserve]). *)
Inductive exn := InvalidArgument | RuntimeError | OutOfRange | LengthError.

(** Ways a run ends without returning to the caller: a failing [assert]
    (the default build does not define NDEBUG), undefined behaviour, and
    a loop that used up the fuel of the model. *)
Inductive halt := AssertFailed | Undefined | Diverged.

(** Result of running a C++ function on state [S]: a value, an exception
    (with the state left behind by the statements already executed), or a halt. *)
Inductive outcome (S A : Type) : Type :=
| Ret (a : A) (s : S)
| Thr (e : exn) (s : S)
| Halt (h : halt).
Arguments Ret {S A}.
Arguments Thr {S A}.
Arguments Halt {S A}.

Definition M (S A : Type) : Type := S -> outcome S A.

Definition ret {S A} (a : A) : M S A := fun s => Ret a s.
Definition throw {S A} (e : exn) : M S A := fun s => Thr e s.
Definition stop {S A} (h : halt) : M S A := fun _ => Halt h.
Definition bind {S A B} (m : M S A) (f : A -> M S B) : M S B :=
  fun s => match m s with
           | Ret a s' => f a s'
           | Thr e s' => Thr e s'
           | Halt h => Halt h
           end.
Definition gets {S A} (f : S -> A) : M S A := fun s => Ret (f s) s.
Definition modify {S} (f : S -> S) : M S unit := fun s => Ret tt (f s).

(** [assert(b)] with assertions enabled. *)
Definition cassert {S} (b : bool) : M S unit :=
  if b then ret tt else stop AssertFailed.

(** Run a computation on a component of the state. *)
Definition zoom {S T A} (get : S -> T) (put : T -> S -> S) (m : M T A) : M S A :=
  fun s => match m (get s) with
           | Ret a t => Ret a (put t s)
           | Thr e t => Thr e (put t s)
           | Halt h => Halt h
           end.

Declare Scope m_scope.
Delimit Scope m_scope with M.
Notation "x <- m ;; k" := (bind m (fun x => k))
  (at level 61, m at next level, right associativity) : m_scope.
Notation "m ;; k" := (bind m (fun _ => k))
  (at level 61, right associativity) : m_scope.
Open Scope m_scope.

(** Loop over a list, as a range-for whose body has effects. *)
Fixpoint mfor {S A} (l : list A) (body : A -> M S unit) : M S unit :=
  match l with
  | [] => ret tt
  | x :: l' => body x ;; mfor l' body
  end.

(** Stateless results (const member functions). *)
Inductive res (A : Type) : Type :=
| Ok (a : A)
| Err (e : exn)
| Bad (h : halt).
Arguments Ok {A}.
Arguments Err {A}.
Arguments Bad {A}.

Definition rbind {A B} (m : res A) (f : A -> res B) : res B :=
  match m with
  | Ok a => f a
  | Err e => Err e
  | Bad h => Bad h
  end.
Notation "x <-! m ; k" := (rbind m (fun x => k))
  (at level 61, m at next level, right associativity) : m_scope.

Definition lift {S A} (r : res A) : M S A :=
  fun s => match r with
           | Ok a => Ret a s
           | Err e => Thr e s
           | Bad h => Halt h
           end.

(** ** [int] *)

Definition INT_MAX : Z := 2147483647.
Definition INT_MIN : Z := -2147483648.
Definition in_int (z : Z) : bool := (INT_MIN <=? z) && (z <=? INT_MAX).

(** Signed arithmetic: overflow is undefined behaviour. *)
Definition chk (z : Z) : res Z := if in_int z then Ok z else Bad Undefined.

(** constants.hpp:10-11 *)
Definition unassignedId : Z := INT_MIN.
Definition inf_iterations : Z := INT_MAX.

(** ** [std::unordered_map<int,V>]

    An association list in iteration order.  A key that is not yet present
    is placed wherever the implementation likes. *)

Definition umap (V : Type) : Type := list (Z * V).

Fixpoint ulookup {V} (k : Z) (m : umap V) : option V :=
  match m with
  | [] => None
  | (k', v) :: m' => if k =? k' then Some v else ulookup k m'
  end.

Definition umem {V} (k : Z) (m : umap V) : bool :=
  match ulookup k m with Some _ => true | None => false end.

Definition ukeys {V} (m : umap V) : list Z := map fst m.

Fixpoint ureplace {V} (k : Z) (v : V) (m : umap V) : umap V :=
  match m with
  | [] => []
  | (k', v') :: m' =>
      if k =? k' then (k', v) :: m' else (k', v') :: ureplace k v m'
  end.

Fixpoint uremove {V} (k : Z) (m : umap V) : umap V :=
  match m with
  | [] => []
  | (k', v') :: m' => if k =? k' then m' else (k', v') :: uremove k m'
  end.

(** Value of [m[k]] when only the value matters (absent keys read as the
    value-initialised [d]). *)
Definition uget {V} (d : V) (k : Z) (m : umap V) : V :=
  match ulookup k m with Some v => v | None => d end.

(** Choices the standard library leaves to the implementation: where a new
    key lands in the iteration order of an unordered container, and which of
    the sorted permutations [std::sort] returns. *)
Class Impl := {
  hplace : forall V : Type, umap V -> Z -> V -> umap V;
  hplace_perm : forall V (m : umap V) k v, Permutation (hplace V m k v) ((k, v) :: m);
  psort : forall A : Type, (A -> A -> bool) -> list A -> list A;
  psort_perm : forall A lt (l : list A), Permutation (psort A lt l) l;
  psort_sorted : forall A (lt : A -> A -> bool) (l : list A),
      (forall x, In x l -> lt x x = false) ->
      (forall x y z, In x l -> In y l -> In z l ->
         lt x y = true -> lt y z = true -> lt x z = true) ->
      (forall x y z, In x l -> In y l -> In z l ->
         lt x y = false -> lt y z = false -> lt x z = false) ->
      forall i j x y, (i < j)%nat ->
        nth_error (psort A lt l) i = Some x ->
        nth_error (psort A lt l) j = Some y -> lt y x = false
}.

(** [m[k] = v] *)
Definition uset `{Impl} {V} (m : umap V) (k : Z) (v : V) : umap V :=
  if umem k m then ureplace k v m else hplace V m k v.

(** [s.insert(k)] on an unordered_set; also [std::set<int>], where only
    membership and size matter. *)
Definition uinsert `{Impl} (s : umap unit) (k : Z) : umap unit :=
  if umem k s then s else hplace unit s k tt.
