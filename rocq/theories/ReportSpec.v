(** * What the system reports about its clusters *)
From Coq Require Import ZArith List.
From Verif Require Import Base Num SiteModel ClusterModel ContainerModel SystemModel.

Section Spec.
Context {I : Impl} {N : Num} {G : Rng}.
(** the entry of cluster [c] in getTimeIncrementOfClusters *)
Definition increment (g : world) (c : Z) (x : num) : Prop :=
  exists m g', sys_getIncrements g = Ret m g' /\ ulookup c m = Some x.
(** the entry of cluster [c] in getResolutionOfClusters *)
Definition cluster_resolution (g : world) (c : Z) (r : num) : Prop :=
  exists m g', sys_getResolutions g = Ret m g' /\ ulookup c m = Some r.
(** getTimeConstant of cluster [c] *)
Definition time_constant (g : world) (c : Z) (t : num) : Prop :=
  exists cl, ulookup c (g_clusters g) = Some cl /\ c_getTimeConstant cl = t.
End Spec.
