(** * Specification: two queries that answer alike *)
From Verif Require Import Base.

(** what [r] gives, seen through [f]: the answer mapped, the same exception,
    the same failure *)
Definition through {A C : Type} (f : A -> C) (r : res A) : res C :=
  match r with Ok a => Ok (f a) | Err e => Err e | Bad h => Bad h end.
