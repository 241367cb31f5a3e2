(** * Model of the remaining calls of mythical::TopologyFeature
    src/libmythical/topologyfeatures/topology_feature.hpp *)
From Coq Require Import ZArith List Bool.
From Verif Require Import Base Num SiteModel ClusterModel.
Import ListNotations.
Open Scope Z_scope.

Section Tally.
Context {I : Impl} {N : Num} {G : Rng}.
(** setToOccupiedStatus, setToUnoccupiedStatus, topology_feature.hpp:148-149, as calls *)
Definition s_setOccupied : M site unit := modify s_setToOccupied.
Definition s_setUnoccupied : M site unit := modify (s_with_occ 0).
(** setVisitFrequency(n) and getVisitFrequency() without a site, of a cluster
    used as a TopologyFeature: inherited, topology_feature.hpp:186-192 *)
Definition c_setVisits0 (n : Z) : M cluster unit := modify (c_with_visits n).
Definition c_getVisits0 (c : cluster) : Z := c_visits c.
End Tally.
