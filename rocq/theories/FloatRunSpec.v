(** * Specification vocabulary for walkers of a system in double arithmetic *)
From Coq Require Import ZArith List.
From Verif Require Import Base Num WalkerModel SiteModel ClusterModel ContainerModel BasinModel SystemModel SystemSpec.

Section Spec.
Context {N : Num} {G : Rng}.

(** the next two numbers that the generator of site [k] gives *)
Definition numbers (g : world) (k : Z) (u v : num) : Prop :=
  exists s e e', ulookup k (g_sites g) = Some s /\ edraw (s_rng s) = (u, e) /\ edraw e = (v, e').
(** getDwellTime of the walker [p] is [t] *)
Definition waits (g : world) (p : Z) (t : num) : Prop :=
  exists w, ulookup p (g_walkers g) = Some w /\ w_getDwellTime w = Ret t w.
End Spec.
