(** * Specification: thermal equilibrium inside a cluster *)
From Coq Require Import ZArith List Bool Reals.
From Verif Require Import Base Num RSum MarcusModel SiteModel SiteSpec ClusterModel ClusterSpec ClusterHist.
Import ListNotations.
Open Scope R_scope.

Section Thermal.
Context {I : Impl} {G : @Rng XR}.
Implicit Types (sites : umap (@site XR G)).

(** the rate from member [i] to [k], 0 if there is none *)
Definition mrate (h : @heap XR) sites (i k : Z) : R :=
  match ulookup i sites with Some s => site_rate h s k | None => 0 end.
(** in equilibrium with the weights [w] as many walkers hop from i to k as back *)
Definition balanced (h : @heap XR) sites (w : Z -> R) : Prop :=
  (forall k, In k (ukeys sites) -> 0 < w k) /\
  forall i k, In i (ukeys sites) -> In k (ukeys sites) -> w i * mrate h sites i k = w k * mrate h sites k i.
(** the same fraction [e] of the rate of every member leads out *)
Definition even_exits (h : @heap XR) sites (e : R) : Prop :=
  forall k, In k (ukeys sites) -> moff h sites k = e * (moff h sites k + minner h sites k).
(** an internal pick yields [k] exactly for the draws in an interval of length [x] *)
Definition internal_share (c : @cluster XR G) (k : Z) (x : R) : Prop :=
  exists lo, 0 <= lo /\ lo + x <= 1 /\
    forall c2 u e j c3, moves c c2 -> edraw (c_rng c2) = (Fin u, e) -> 0 <= u < 1 ->
      c_pickInternal c2 = Ret j c3 -> (j = k <-> lo <= u < lo + x).
(** the rates between the members are Marcus rates: [lambda] reorganisation
    energy, [T] temperature, [E k] the energy of member k, [J i k] the transfer
    integral, the same in both directions *)
Definition marcus_rates (h : @heap XR) sites (lambda T : R) (E : Z -> R) (J : Z -> Z -> R) : Prop :=
  (forall i k, J i k = J k i) /\
  forall i k, internal_edge sites i k -> mrate h sites i k = marcus_getRate (marcus_new lambda T) (E i) (E k) (J i k).
End Thermal.
