(** * Specification: the same program in another unit of time (C65, C66)

    Measured in a unit of time [c] times as long, all rates are [c] times as
    large and all times [c] times as small. *)
From Coq Require Import ZArith List Bool Reals.
From Verif Require Import Base Num B53 WalkerModel SiteModel ClusterModel ContainerModel BasinModel SystemModel SystemSpec SystemRuns QuerySpec.
Import ListNotations.
Open Scope R_scope.

(** [a] times a number *)
Definition times (a : R) (x : xr) : xr := match x with Fin r => Fin (a * r) | _ => x end.
(** what becomes of a rate and of a time in the new unit *)
Record change {N : Num} := mkChange { new_rate : num -> num; new_time : num -> num }.
Arguments change : clear implicits.
(** exact arithmetic *)
Definition exact_change (c : R) : change XR := @mkChange XR (times c) (times (/ c)).

(** binary floating point, [c] = 2^k *)
Definition bshift (k : Z) (x : bf) : bf := match x with BF n m e => BF n m (e + k) | _ => x end.
Definition binary_change {sqrtf lnf} (k : Z) : change (B53 sqrtf lnf) := @mkChange (B53 sqrtf lnf) (bshift k) (bshift (- k)).

Section Calls.
Context {N : Num}.
Definition new_heap (c : change N) (h : heap) : heap := fun a => new_rate c (h a).
Definition new_walker (c : change N) (w : walker) : walker := mkWalker (w_cur w) (w_pot w) (new_time c (w_dwell w)).
(** the calls in the new unit: only a time resolution and new rates change.  A
    search may need another number of steps in the model. *)
Inductive new_act (c : change N) : act -> act -> Prop :=
| nu_perf p : new_act c (APerf p) (APerf p)
| nu_res t : new_act c (ARes t) (ARes (new_time c t))
| nu_thr t : new_act c (AThr t) (AThr t)
| nu_seed s : new_act c (ASeed s) (ASeed s)
| nu_init rates : new_act c (AInit rates) (AInit rates)
| nu_rates h : new_act c (ARates h) (ARates (new_heap c h))
| nu_enter l : new_act c (AEnter l) (AEnter l)
| nu_hop fuel fuel' id p : new_act c (AHop fuel id p) (AHop fuel' id p)
| nu_leave id p : new_act c (ALeave id p) (ALeave id p)
| nu_visits k : new_act c (AVisits k) (AVisits k).

(** the graph library makes the same choices in both units *)
Definition new_edge (c : change N) (e : edge) : edge := (fst e, new_rate c (snd e)).
Definition same_choices (c : change N) (U U' : Ugly) : Prop :=
  (forall n i l, @u_order N U' n i (map (new_edge c) l) = map (new_edge c) (@u_order N U n i l)) /\
  (forall n i e l, @u_next N U' n i (new_edge c e) (map (new_edge c) l) = new_edge c (@u_next N U n i e l)) /\
  (forall n l, @u_verts N U' n l = @u_verts N U n l) /\
  (forall n i j, @u_far N U' n i j = option_map (new_time c) (@u_far N U n i j)).

Context {I : Impl} {G : Rng}.
(** The second system is the first one in the new unit: the same walkers on the
    same sites with the same targets, their dwell times in the new unit; the same
    clusters with the same sites, labels and resolutions, their time increments
    in the new unit; the same occupied sites. *)
Definition same_in_unit (c : change N) (g g' : world) : Prop :=
  g_walkers g' = vmap (new_walker c) (g_walkers g) /\
  (forall m m' x x', sys_getClusters g = Ret m x -> sys_getClusters g' = Ret m' x' -> m = m') /\
  (forall m m' x x', sys_getResolutions g = Ret m x -> sys_getResolutions g' = Ret m' x' -> m = m') /\
  (forall m m' x x', sys_getIncrements g = Ret m x -> sys_getIncrements g' = Ret m' x' -> m' = vmap (new_time c) m) /\
  (forall k i, cluster_of g k i <-> cluster_of g' k i) /\
  (forall k b, taken g k b <-> taken g' k b).
(** every cluster has a time constant other than the smallest double, with which
    the code marks a time constant that is not known *)
Definition clusters_timed (g : world) : Prop :=
  forall k d, In (k, d) (g_clusters g) -> c_getTimeConstant d <> unassigned_value.
End Calls.
