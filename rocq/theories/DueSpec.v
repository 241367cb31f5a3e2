(** * When coarse graining is due *)
From Coq Require Import ZArith List Bool Reals.
From Verif Require Import Base Num SiteModel ClusterModel ContainerModel BasinModel BasinSpec SystemModel SystemSpec.
Import ListNotations.
Open Scope R_scope.

Section Spec.
Context {I : Impl} {G : @Rng XR} {U : @Ugly XR}.
(** the fastest rate off site [k], or off its cluster if it is part of one *)
Definition fastest_off_of (g : @world XR G) (k : Z) (ref : R) : Prop :=
  (cluster_of g k unassignedId /\ top (fun x => exists j, rate_between (g_heap g) (g_sites g) k j x) ref) \/
  (exists c, c <> unassignedId /\ cluster_of g k c /\
     top (fun x => exists i j, listed g c i /\ ~ listed g c j /\ rate_between (g_heap g) (g_sites g) i j x) ref).
End Spec.
