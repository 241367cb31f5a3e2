(** * Model of mythical::Rate_Container
    src/libmythical/rate_container.hpp:15-36, rate_container.cpp *)
From Coq Require Import ZArith List Bool.
From Verif Require Import Base.
Import ListNotations.
Open Scope Z_scope.

Section Rate.
Context {I : Impl}.

(** double*: null or an address *)
Definition ptr := option Z.
Definition null : ptr := None.

(** typedef Rate_Map, rate_container.hpp:10; the only member is rates_ (line 33) *)
Definition rmap := umap (umap ptr).

(** rates_[i], inserting an empty row when absent *)
Definition row_at (m : rmap) (i : Z) : umap ptr * rmap :=
  match ulookup i m with
  | Some r => (r, m)
  | None => ([], uset m i [])
  end.

(** rate_container.cpp:11-18 *)
Definition r_addRate (i j : Z) (p : ptr) : M rmap unit :=
  fun m =>
    if umem i m && umem j (fst (row_at m i)) then Thr InvalidArgument m
    else let (r, m') := row_at m i in Ret tt (uset m' i (uset r j p)).

(** rate_container.cpp:24-28, the nested loops *)
Definition r_addRow (i : Z) (row : umap ptr) : M rmap unit :=
  mfor row (fun e => r_addRate i (fst e) (snd e)).
Definition r_addRates_loop (rates : rmap) : M rmap unit :=
  mfor rates (fun e => r_addRow (fst e) (snd e)).

(** rate_container.cpp:20-31 *)
Definition r_addRates (rates : rmap) : M rmap unit :=
  fun m => if Nat.eqb (length m) 0 then Ret tt rates else r_addRates_loop rates m.

(** rate_container.cpp:33-40.  The first operator[] inserts an empty row, the
    last line inserts a null pointer when the neighbour is absent. *)
Definition r_getRate (i j : Z) : M rmap ptr :=
  fun m =>
    if negb (umem i m) then
      let (r, m') := row_at m i in
      if negb (umem j r) then Thr InvalidArgument m'
      else Ret (uget null j r) m'
    else
      let (r, m') := row_at m i in
      match ulookup j r with
      | Some p => Ret p m'
      | None => Ret null (uset m' i (uset r j null))
      end.

(** rate_container.cpp:42-46 *)
Definition r_incomingRateCount (s : Z) : M rmap Z :=
  gets (fun m => Z.of_nat (length (filter (fun e => umem s (snd e)) m))).

(** rate_container.cpp:48-50 *)
Definition r_outgoingRateCount (s : Z) : M rmap Z :=
  fun m => let (r, m') := row_at m s in Ret (Z.of_nat (length r)) m'.

(** rate_container.cpp:52-62 *)
Definition r_getIncomingRates (s : Z) : M rmap rmap :=
  gets (fun m =>
    fold_left (fun acc site =>
      fold_left (fun acc neigh =>
        if fst neigh =? s
        then let (r, acc') := row_at acc (fst site) in
             uset acc' (fst site) (uset r (fst neigh) (snd neigh))
        else acc) (snd site) acc) m []).

(** rate_container.cpp:64-70 *)
Definition r_getOutgoingRates (s : Z) : M rmap rmap :=
  gets (fun m => match ulookup s m with Some r => uset [] s r | None => [] end).

(** rate_container.cpp:85-89 *)
Definition r_outgoingIds (m : rmap) : umap unit :=
  fold_left (fun acc site => uinsert acc (fst site)) m [].

(** rate_container.cpp:104-112 *)
Definition r_incomingIds (m : rmap) : umap unit :=
  fold_left (fun acc site => fold_left (fun acc n => uinsert acc (fst n)) (snd site) acc) m [].

(** rate_container.cpp:72-83 *)
Definition r_getSourceSiteIds : M rmap (list Z) :=
  gets (fun m => filter (fun s => negb (umem s (r_incomingIds m))) (ukeys (r_outgoingIds m))).

(** rate_container.cpp:91-102 *)
Definition r_getSinkSiteIds : M rmap (list Z) :=
  gets (fun m => filter (fun s => negb (umem s (r_outgoingIds m))) (ukeys (r_incomingIds m))).

(** ** Histories *)
Inductive rop :=
| RAdd (i j : Z) (p : ptr) | RAddAll (rates : rmap)
| RGet (i j : Z) | RInCount (s : Z) | ROutCount (s : Z)
| RIncoming (s : Z) | ROutgoing (s : Z) | RSources | RSinks.

(** State after a call, returned or thrown (no call halts). *)
Definition rafter {A} (o : outcome rmap A) (m : rmap) : rmap :=
  match o with Ret _ m' => m' | Thr _ m' => m' | Halt _ => m end.

Definition r_step (o : rop) (m : rmap) : rmap :=
  match o with
  | RAdd i j p => rafter (r_addRate i j p m) m
  | RAddAll rs => rafter (r_addRates rs m) m
  | RGet i j => rafter (r_getRate i j m) m
  | RInCount s => rafter (r_incomingRateCount s m) m
  | ROutCount s => rafter (r_outgoingRateCount s m) m
  | RIncoming s => rafter (r_getIncomingRates s m) m
  | ROutgoing s => rafter (r_getOutgoingRates s m) m
  | RSources => rafter (r_getSourceSiteIds m) m
  | RSinks => rafter (r_getSinkSiteIds m) m
  end.
Definition r_exec (ops : list rop) (m : rmap) : rmap := fold_left (fun m o => r_step o m) ops m.
End Rate.
