(** * Specification: occupation and visits of a site or cluster as counts (C85) *)
From Coq Require Import ZArith List Bool.
From Verif Require Import Base Num SiteModel ClusterModel TallyModel.
Import ListNotations.
Open Scope Z_scope.

Section Tally.
Context {I : Impl} {N : Num} {G : Rng}.

(** every call that can change a site *)
Inductive scall :=
| SOccupy | SVacate | SRemove                       (* occupy, vacate, removeWalker *)
| SOccupied | SUnoccupied                           (* setToOccupiedStatus, setToUnoccupiedStatus *)
| SVisits (n : Z)                                   (* setVisitFrequency *)
| SId (i : Z) | SCluster (c : Z) | SSeed (x : Z)    (* setId, setClusterId, setRandomSeed *)
| SRates (h : heap) (r : umap Z)                    (* setRatesToNeighbors *)
| SAdd (h : heap) (n a : Z) | SReset (h : heap) (n a : Z)  (* addNeighRate, resetNeighRate *)
| SDwell | SPick.                                   (* getDwellTime, pickNewSiteId *)
Definition site_do (c : scall) : M site unit :=
  match c with
  | SOccupy => s_occupy | SVacate => s_vacate | SRemove => s_removeWalker
  | SOccupied => s_setOccupied | SUnoccupied => s_setUnoccupied
  | SVisits n => s_setVisitFrequency n
  | SId i => s_setId i | SCluster c => s_setClusterId c | SSeed x => s_setRandomSeed x
  | SRates h r => s_setRates h r | SAdd h n a => s_addNeighRate h n a | SReset h n a => s_resetNeighRate h n a
  | SDwell => _ <- s_getDwellTime ;; ret tt
  | SPick => _ <- s_pick ;; ret tt
  end.

(** how often walkers came, counting from what was last set; the last call first *)
Fixpoint came (l : list scall) : Z :=
  match l with
  | [] => 0
  | SVisits n :: _ => n
  | SOccupy :: r => came r + 1
  | _ :: r => came r
  end.
(** walkers that came minus walkers that left, counting from the last change of
    the status (1 or 0); the last call first *)
Fixpoint balance (l : list scall) : Z :=
  match l with
  | [] => 0
  | SOccupied :: _ => 1
  | SUnoccupied :: _ => 0
  | SOccupy :: r => balance r + 1
  | SVacate :: r | SRemove :: r => balance r - 1
  | _ :: r => balance r
  end.
(** nobody left who had not come, and the status was not set by hand; the last
    call first *)
Fixpoint orderly (l : list scall) : Prop :=
  match l with
  | [] => True
  | SOccupied :: _ | SUnoccupied :: _ => False
  | SVacate :: r | SRemove :: r => 0 < balance r /\ orderly r
  | _ :: r => orderly r
  end.

(** [ctally c ins outs v]: a program can own [c]; [ins] calls of occupy() were
    made to it and [outs] of vacate() without a site, vacate(site) and
    removeWalker; [v] is what setVisitFrequency() without a site was last given
    plus the calls of occupy() and occupy(site) made since *)
Inductive ctally : cluster -> Z -> Z -> Z -> Prop :=
| ct_new i clock : ctally (cluster_new i clock) 0 0 0
| ct_occupy0 c i o v c' : ctally c i o v -> c_occupy0 c = Ret tt c' -> ctally c' (i + 1) o (v + 1)
| ct_occupy k c i o v c' : ctally c i o v -> c_occupy k c = Ret tt c' -> ctally c' i o (v + 1)
| ct_vacate0 c i o v c' : ctally c i o v -> c_vacate0 c = Ret tt c' -> ctally c' i (o + 1) v
| ct_vacate clock k c i o v c' : ctally c i o v -> c_vacate clock k c = Ret tt c' -> ctally c' i (o + 1) v
| ct_remove clock w k c i o v c' : ctally c i o v -> c_removeWalker clock w k c = Ret tt c' -> ctally c' i (o + 1) v
| ct_setVisits0 n c i o v c' : ctally c i o v -> c_setVisits0 n c = Ret tt c' -> ctally c' i o n
| ct_method m c i o v c' : ctally c i o v -> c_setMethod m c = Ret tt c' -> ctally c' i o v
| ct_tol t c i o v c' : ctally c i o v -> c_setTolerance t c = Ret tt c' -> ctally c' i o v
| ct_iters n c i o v c' : ctally c i o v -> c_setIterations n c = Ret tt c' -> ctally c' i o v
| ct_res r c i o v c' : ctally c i o v -> c_setResolution r c = Ret tt c' -> ctally c' i o v
| ct_seed s c i o v c' : ctally c i o v -> c_setRandomSeed s c = Ret tt c' -> ctally c' i o v
| ct_add l c i o v c' : ctally c i o v -> c_addSites l c = Ret tt c' -> ctally c' i o v
| ct_update fuel h c i o v c' : ctally c i o v -> c_update fuel h c = Ret tt c' -> ctally c' i o v
| ct_getVisits k x c i o v c' : ctally c i o v -> c_getVisits k c = Ret x c' -> ctally c' i o v
| ct_setVisits k x c i o v c' : ctally c i o v -> c_setVisits x k c = Ret tt c' -> ctally c' i o v
| ct_probOn k p c i o v c' : ctally c i o v -> c_probOn k c = Ret p c' -> ctally c' i o v
| ct_dwell w d c i o v c' : ctally c i o v -> c_getDwellTime w c = Ret d c' -> ctally c' i o v
| ct_pick w k c i o v c' : ctally c i o v -> c_pick w c = Ret k c' -> ctally c' i o v
| ct_merge fuel h c d c' d' i o v : ctally c i o v -> c_migrate fuel h (c, d) = Ret tt (c', d') -> ctally c' i o v
| ct_merged fuel h c d c' d' i o v : ctally d i o v -> c_migrate fuel h (c, d) = Ret tt (c', d') -> ctally d' i o v.
End Tally.
