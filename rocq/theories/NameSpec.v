(** * Specification: programs that differ in the ids of their walkers (C77) *)
From Coq Require Import ZArith List Bool.
From Verif Require Import Base Num WalkerModel SiteModel ClusterModel ContainerModel BasinModel SystemModel SystemSpec SystemRuns.
Import ListNotations.
Open Scope Z_scope.

Section Spec.
Context {I : Impl} {N : Num} {G : Rng} {U : Ugly}.

(** the call with the walker ids replaced; walkers themselves are pointers
    and stay what they are *)
Definition rename (f : Z -> Z) (a : act) : act :=
  match a with
  | AEnter l => AEnter (map (fun w => (f (fst w), snd w)) l)
  | AHop fuel id p => AHop fuel (f id) p
  | ALeave id p => ALeave (f id) p
  | _ => a
  end.
(** the walker ids in a call *)
Definition ids_of (a : act) : list Z :=
  match a with AEnter l => map fst l | AHop _ id _ => [id] | ALeave id _ => [id] | _ => [] end.
(** the ids that a program uses; [f] gives different names to different ones *)
Definition distinct_names (f : Z -> Z) (l : list act) : Prop :=
  forall i j, In i (flat_map ids_of l) -> In j (flat_map ids_of l) -> f i = f j -> i = j.

(** Nothing that a program can ask tells the two systems apart: same walkers
    on the same sites with the same targets and dwell times, same clusters with
    the same sites, resolutions and time increments, same labels, same occupied
    sites and same visits. *)
Definition same_answers (g g' : world) : Prop :=
  g_walkers g' = g_walkers g /\
  (forall m, (exists x, sys_getClusters g = Ret m x) <-> exists x, sys_getClusters g' = Ret m x) /\
  (forall m, (exists x, sys_getResolutions g = Ret m x) <-> exists x, sys_getResolutions g' = Ret m x) /\
  (forall m, (exists x, sys_getIncrements g = Ret m x) <-> exists x, sys_getIncrements g' = Ret m x) /\
  (forall k c, cluster_of g k c <-> cluster_of g' k c) /\
  (forall k b, taken g k b <-> taken g' k b) /\
  (forall k v, visits g k v <-> visits g' k v).

(** how a call ends *)
Inductive ending := Returns | Throws (e : exn) | Stops (h : halt).
Definition ends {A} (o : outcome world A) : ending :=
  match o with Ret _ _ => Returns | Thr e _ => Throws e | Halt h => Stops h end.
(** the call that an entry of a program stands for, without the checks on the
    caller that [exec1] adds *)
Definition outcome_of (clk : Z -> Z) (a : act) (g : world) : ending :=
  match a with
  | APerf p => ends (sys_setPerformanceRatio p g)
  | ARes t => ends (sys_setTimeResolution t g)
  | AThr t => ends (sys_setThreshold t g)
  | ASeed s => ends (sys_setRandomSeed s g)
  | AInit r => ends (sys_initializeSystem clk r g)
  | ARates h => Returns
  | AEnter l => ends (sys_initializeWalkers l g)
  | AHop fuel id p => ends (sys_hop clk fuel id p g)
  | ALeave id p => ends (sys_removeWalker clk id p g)
  | AVisits k => ends (sys_getVisits k g)
  end.
End Spec.
