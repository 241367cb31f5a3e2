(** * Specification vocabulary for clusters *)
From Coq Require Import ZArith List Bool Reals Relations.
From Verif Require Import Base Num RSum SiteModel SiteSpec ClusterModel.
Import ListNotations.
Open Scope R_scope.

(** ** The graph of a set of members, for every arithmetic *)
Section Graph.
Context {N : Num} {G : Rng}.
Implicit Types (s : site) (sites : umap site).

(** a rate from member [i] to member [k] *)
Definition internal_edge sites (i k : Z) : Prop :=
  exists s, In (i, s) sites /\ In k (s_neighIds s) /\ In k (ukeys sites).
(** every internal rate has a reverse rate *)
Definition mutual sites : Prop := forall i k, internal_edge sites i k -> internal_edge sites k i.
(** every member has a rate to some member *)
Definition linked sites : Prop := forall k, In k (ukeys sites) -> exists n, internal_edge sites k n.
(** some rate stays inside *)
Definition has_link sites : Prop := exists i k, internal_edge sites i k.
(** every member can be reached from every other inside the cluster *)
Definition joined sites : Prop :=
  forall j k, In j (ukeys sites) -> In k (ukeys sites) -> clos_refl_trans Z (internal_edge sites) j k.
(** some rate leads out *)
Definition has_exit sites : Prop :=
  exists k s n, In (k, s) sites /\ In n (s_neighIds s) /\ ~ In n (ukeys sites).

(** [n] is a neighbour of the cluster *)
Definition outside sites (n : Z) : Prop :=
  ~ In n (ukeys sites) /\ exists k s, In (k, s) sites /\ In n (s_neighIds s).
End Graph.

Section Spec.
Context {G : @Rng XR}.
Implicit Types (s : @site XR G) (sites : umap (@site XR G)).

(** rate from a site to [n], 0 when there is none *)
Definition site_rate (h : @heap XR) s (n : Z) : R :=
  match ulookup n (s_neigh s) with Some a => realv (h a) | None => 0 end.
(** probability to hop from a site to [n] *)
Definition site_prob (h : @heap XR) s (n : Z) : R := site_rate h s n / total_rate h (s_neigh s).

(** a site whose probabilities were calculated from the rates in memory *)
Definition site_ok (h : @heap XR) s : Prop := good_rates h (s_neigh s) /\ reads h (s_neigh s) s.
Definition members_ok (h : @heap XR) sites : Prop :=
  NoDup (ukeys sites) /\ forall k s, In (k, s) sites -> site_ok h s.

(** sum of the rates of [s] that leave the cluster, and of those that stay *)
Definition off_rate (h : @heap XR) sites s : R :=
  Rsum (fun na => if umem (fst na) sites then 0 else realv (h (snd na))) (s_neigh s).
Definition inner_rate (h : @heap XR) sites s : R :=
  Rsum (fun na => if umem (fst na) sites then realv (h (snd na)) else 0) (s_neigh s).
(** the same for the member with id [k], and its time constant *)
Definition moff (h : @heap XR) sites (k : Z) : R :=
  match ulookup k sites with Some s => off_rate h sites s | None => 0 end.
Definition minner (h : @heap XR) sites (k : Z) : R :=
  match ulookup k sites with Some s => inner_rate h sites s | None => 0 end.
Definition mtau (h : @heap XR) sites (k : Z) : R :=
  match ulookup k sites with Some s => / total_rate h (s_neigh s) | None => 0 end.
Definition mprob (h : @heap XR) sites (k n : Z) : R :=
  match ulookup k sites with Some s => site_prob h s n | None => 0 end.

(** ** The solver's relaxation step *)
(** probability that flows into member [k] from the members *)
Definition in_flow (h : @heap XR) sites (P : Z -> R) (k : Z) : R :=
  Rsum (fun n => mprob h sites n k * P n) (ukeys sites).
(** the mean of the old distribution and the normalised inflow *)
Definition relax (h : @heap XR) sites (P : Z -> R) (k : Z) : R :=
  (in_flow h sites P k / Rsum (in_flow h sites P) (ukeys sites) + P k) / 2.
Fixpoint relaxed (h : @heap XR) sites (n : nat) : Z -> R :=
  match n with
  | O => fun _ => / INR (length sites)
  | S n' => relax h sites (relaxed h sites n')
  end.
(** size of the [n]-th change *)
Definition change (h : @heap XR) sites (n : nat) : R :=
  sqrt (Rsum (fun k => (relaxed h sites n k - relaxed h sites (S n) k) * (relaxed h sites n k - relaxed h sites (S n) k)) (ukeys sites)).

End Spec.
