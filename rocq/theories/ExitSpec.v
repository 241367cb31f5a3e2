(** * Where a cluster of a system sends its walkers *)
From Coq Require Import ZArith List Bool Reals.
From Verif Require Import Base Num RSum WalkerModel SiteModel SiteSpec ClusterModel ClusterHist ClusterSpec ContainerModel BasinModel SystemModel SystemSpec StaySpec.
Import ListNotations.
Open Scope R_scope.

Section Spec.
Context {I : Impl} {G : @Rng XR} {U : @Ugly XR}.
Implicit Types (g : @world XR G).

(** the rate from site [k] to [n], or 0 *)
Definition rate_to g (k n : Z) : R :=
  match ulookup k (g_sites g) with Some s => ClusterSpec.site_rate (g_heap g) s n | None => 0 end.
(** the sum of the rates from site [k] *)
Definition rate_off g (k : Z) : R :=
  match ulookup k (g_sites g) with Some s => total_rate (g_heap g) (s_neigh s) | None => 0 end.
(** a neighbour of a site of cluster [c] that is not part of it *)
Definition beside g (c n : Z) : Prop :=
  ~ listed g c n /\ exists k r, listed g c k /\ StaySpec.site_rate g k n r.
(** the probability that cluster [c] gives for its site [k] is [x] *)
Definition occupation g (c k : Z) (x : R) : Prop :=
  exists cl, ulookup c (g_clusters g) = Some cl /\ c_probOn k cl = Ret (Fin x : @num XR) cl.
(** The number with which cluster [c] chooses the next site for the walker id
    [w]: the next one of its generator, or the one after it if the next one is
    used for how long the walker stays. *)
Definition next_number g (c w : Z) (v : R) : Prop :=
  exists cl e, ulookup c (g_clusters g) = Some cl /\
    ((~ entering w cl /\ edraw (c_rng cl) = ((Fin v : @num XR), e)) \/
     (entering w cl /\ exists u e0, edraw (c_rng cl) = ((Fin u : @num XR), e0) /\ edraw e0 = ((Fin v : @num XR), e))).
End Spec.

(** the numbers from 0 to 1 divided among [l]: [n] has those from [a n] on, [share n] of them *)
Definition divided (share a : Z -> R) (l : list Z) : Prop :=
  NoDup l /\ (forall n, In n l -> 0 < share n) /\ Rsum share l = 1 /\
  forall v, 0 <= v < 1 -> exists n, In n l /\ forall m, In m l -> (a m <= v < a m + share m <-> m = n).
