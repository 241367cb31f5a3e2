(** * Specification: how a hop-by-hop walker leaves a set of sites *)
From Coq Require Import ZArith List Bool Reals.
From Verif Require Import Base Num RSum SiteModel SiteSpec ClusterModel ClusterSpec.
Import ListNotations.
Open Scope R_scope.

Section Escape.
Context {G : @Rng XR}.
Implicit Types (sites : umap (@site XR G)) (P Q : Z -> R).

(** a positive distribution over the members that keeps its shape when a
    walker hops and is still inside *)
Definition quasi_stationary (h : @heap XR) sites Q : Prop :=
  (forall k, In k (ukeys sites) -> 0 < Q k) /\ Rsum Q (ukeys sites) = 1 /\
  forall k, In k (ukeys sites) -> in_flow h sites Q k = Rsum (in_flow h sites Q) (ukeys sites) * Q k.
(** the probability that a hop from a member drawn from [Q] stays inside *)
Definition stay_prob (h : @heap XR) sites Q : R := Rsum (in_flow h sites Q) (ukeys sites).

(** A walker starts on a member drawn from [P] and hops from site to site with
    the rates: the probability that it is on [k] after [n] hops without having
    left, and that its next hop leads out to [m]. *)
Fixpoint still_in (h : @heap XR) sites P (n : nat) : Z -> R :=
  match n with O => P | S n' => in_flow h sites (still_in h sites P n') end.
Definition leave_to (h : @heap XR) sites P (m : Z) (n : nat) : R :=
  Rsum (fun k => still_in h sites P n k * mprob h sites k m) (ukeys sites).
(** it leaves to [m] with probability [p], some time *)
Definition leaves (h : @heap XR) sites P (m : Z) (p : R) : Prop := infinite_sum (leave_to h sites P m) p.
(** [T] is the mean time it spends, before it leaves, on the members that
    satisfy [sel]; one visit of k takes [mtau k] on average *)
Definition mean_time (h : @heap XR) sites P (sel : Z -> bool) (T : R) : Prop :=
  infinite_sum (fun n => Rsum (fun k => still_in h sites P n k * (if sel k then mtau h sites k else 0)) (ukeys sites)) T.
Definition mean_stay (h : @heap XR) sites P (T : R) : Prop := mean_time h sites P (fun _ => true) T.
(** some rate of [k] leads out *)
Definition edge_member (h : @heap XR) sites (k : Z) : bool := Rltb 0 (moff h sites k).
(** a walker on [k] *)
Definition on (k j : Z) : R := if Z.eqb j k then 1 else 0.

(** at least [N] iterations, or a positive tolerance of at most [t] *)
Definition finer (N : Z) (t : R) (c : @cluster XR G) : Prop :=
  match c_method c with
  | PerCluster | PerSite => (N <= c_iters c)%Z
  | ByTolerance => exists x, c_tol c = Fin x /\ 0 < x <= t
  end.
End Escape.
