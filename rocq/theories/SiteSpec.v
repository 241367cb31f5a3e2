(** * Specification vocabulary for sites *)
From Coq Require Import ZArith List Bool Reals.
From Verif Require Import Base Num RSum SiteModel.
Import ListNotations.
Open Scope R_scope.

(** the user's rate map, as (neighbour, address), holds rate [r] towards [n] *)
Definition user_rate (h : @heap XR) (rates : umap Z) (n : Z) (r : R) : Prop :=
  exists a, In (n, a) rates /\ h a = Fin r.

(** a non-empty map with distinct neighbours and finite positive rates *)
Definition good_rates (h : @heap XR) (rates : umap Z) : Prop :=
  rates <> [] /\ NoDup (ukeys rates) /\
  forall n a, In (n, a) rates -> exists r, h a = Fin r /\ 0 < r.

(** value of a finite number *)
Definition realv (x : @num XR) : R := match x with Fin r => r | _ => 0 end.

(** sum of the rates of a map *)
Definition total_rate (h : @heap XR) (rates : umap Z) : R :=
  Rsum (fun e => realv (h (snd e))) rates.

(** what a site looks like after its rates were (re)read from memory [h] *)
Definition reads {G : @Rng XR} (h : @heap XR) (rates : umap Z) (s : @site XR G) : Prop :=
  (forall n p, In (n, p) (s_getProbs s) <->
     exists r, user_rate h rates n r /\ p = Fin (r / total_rate h rates)) /\
  NoDup (map fst (s_getProbs s)) /\
  (forall n p, In (n, p) (s_getProbs s) -> exists q, p = Fin q /\ 0 < q) /\
  Rsum (fun e => realv (snd e)) (s_getProbs s) = 1 /\
  (forall n p, s_probTo s n = Ok p <-> In (n, p) (s_getProbs s)) /\
  s_getTimeConstant s = Fin (1 / total_rate h rates) /\
  (forall n, In n (s_neighIds s) <-> In n (ukeys rates)).
