(** * Specification: programs that differ in their visit queries (C56, C57) *)
From Coq Require Import ZArith List Bool.
From Verif Require Import Base Num WalkerModel SiteModel ClusterModel ContainerModel BasinModel SystemModel SystemSpec SystemRuns.
Import ListNotations.
Open Scope Z_scope.

(** where a new key lands in an unordered_map does not depend on the values in it *)
Definition vmap {V W} (f : V -> W) (m : umap V) : umap W := map (fun e => (fst e, f (snd e))) m.
Definition keys_only {I : Impl} : Prop :=
  forall V W (f : V -> W) (m : umap V) k v, hplace W (vmap f m) k (f v) = vmap f (hplace V m k v).

Section Spec.
Context {I : Impl} {N : Num} {G : Rng} {U : Ugly}.

(** the calls of a program other than getVisitFrequencyOfSite *)
Definition is_query (a : act) : bool := match a with AVisits _ => true | _ => false end.
Definition without_queries (l : list act) : list act := filter (fun a => negb (is_query a)) l.

(** The two systems have the same walkers, on the same sites, with the same
    targets and dwell times, the same clusters with the same sites, resolutions
    and time increments, the same labels and the same occupied sites. *)
Definition same_but_visits (g g' : world) : Prop :=
  g_walkers g = g_walkers g' /\
  (forall m m' x x', sys_getClusters g = Ret m x -> sys_getClusters g' = Ret m' x' -> m = m') /\
  (forall m m' x x', sys_getResolutions g = Ret m x -> sys_getResolutions g' = Ret m' x' -> m = m') /\
  (forall m m' x x', sys_getIncrements g = Ret m x -> sys_getIncrements g' = Ret m' x' -> m = m') /\
  (forall k c, cluster_of g k c <-> cluster_of g' k c) /\
  (forall k b, taken g k b <-> taken g' k b).
End Spec.
