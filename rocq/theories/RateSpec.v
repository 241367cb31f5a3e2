(** * Specification of the rate container: a flat list of (from, to, pointer)

    What a user expects to be stored after a history of calls, written
    without maps of maps and without insertion on lookup. *)
From Coq Require Import ZArith List Bool.
From Verif Require Import Base RateModel.
Import ListNotations.
Open Scope Z_scope.

Definition triple := (Z * Z * ptr)%type.

Definition is_pair (i j : Z) (t : triple) : bool :=
  let '(a, b, _) := t in (a =? i) && (b =? j).

(** the pointer stored for (i,j) *)
Definition stored (l : list triple) (i j : Z) : option ptr :=
  match find (is_pair i j) l with Some (_, _, p) => Some p | None => None end.

Definition has_out (l : list triple) (i : Z) : Prop := exists j, stored l i j <> None.
Definition has_in (l : list triple) (j : Z) : Prop := exists i, stored l i j <> None.

(** add one triple; the boolean says whether it was accepted *)
Definition add1 (l : list triple) (t : triple) : list triple * bool :=
  let '(i, j, p) := t in
  match stored l i j with
  | Some _ => (l, false)
  | None => (l ++ [t], true)
  end.

(** add several, up to the first that is refused *)
Fixpoint add_many (l : list triple) (ts : list triple) : list triple :=
  match ts with
  | [] => l
  | t :: r => let (l', ok) := add1 l t in if ok then add_many l' r else l'
  end.

(** the triples of a map of maps, in iteration order *)
Definition triples_of (m : rmap) : list triple :=
  flat_map (fun row => map (fun e => (fst row, fst e, snd e)) (snd row)) m.

Definition spec_step (l : list triple) (o : rop) : list triple :=
  match o with
  | RAdd i j p => fst (add1 l (i, j, p))
  | RAddAll rs => add_many l (triples_of rs)
  | _ => l
  end.

(** a C++ map of maps: distinct keys; [full]: no empty rows *)
Definition wf_map (m : rmap) : Prop :=
  NoDup (ukeys m) /\ forall i r, In (i, r) m -> NoDup (ukeys r).
Definition full_map (m : rmap) : Prop := forall i r, In (i, r) m -> r <> [].

(** The calls that behave as documented: additions of proper maps, lookups of
    pairs that are stored, counting the outgoing rates of sites that have one,
    and all other queries. *)
Definition clean (l : list triple) (o : rop) : Prop :=
  match o with
  | RAddAll rs => wf_map rs /\ full_map rs
  | RGet i j => stored l i j <> None
  | ROutCount s => has_out l s
  | _ => True
  end.

Fixpoint clean_history (l : list triple) (ops : list rop) : Prop :=
  match ops with
  | [] => True
  | o :: r => clean l o /\ clean_history (spec_step l o) r
  end.

Definition spec_exec (ops : list rop) : list triple := fold_left spec_step ops [].

(** what a map of maps holds for (i,j) *)
Definition entry_of (m : rmap) (i j : Z) : option ptr :=
  match ulookup i m with Some r => ulookup j r | None => None end.
