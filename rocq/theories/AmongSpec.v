(** * Programs with several systems, run call by call *)
From Coq Require Import ZArith List Bool.
From Verif Require Import Base Num WalkerModel SiteModel ClusterModel ContainerModel BasinModel SystemModel SystemSpec SystemRuns ManySpec.
Import ListNotations.
Open Scope Z_scope.

Section Spec.
Context {I : Impl} {N : Num} {G : Rng} {U : Ugly}.
(** the program after a call of system [i] that left it in [fst gw] *)
Definition changed (p : program) (i : Z) (gw : world * list Z) : program :=
  mkProgram (g_walkers (fst gw)) (g_heap (fst gw)) (g_count (fst gw)) (g_tick (fst gw))
            (at_name (p_systems p) i (fst gw)) (at_name (p_inside p) i (snd gw)).
(** The calls [(i, a)] one after the other, [a] being made to system [i]; they
    all work on the same walkers, rates, cluster id counter and clock. *)
Fixpoint exec_many (clk : Z -> Z) (l : list (Z * act)) (p : program) : option program :=
  match l with
  | [] => Some p
  | (i, a) :: r => match exec1 clk a (view p i, p_inside p i) with Some gw => exec_many clk r (changed p i gw) | None => None end
  end.
(** the calls made to system [i] *)
Definition calls_to (i : Z) (l : list (Z * act)) : list act :=
  flat_map (fun e => if fst e =? i then [snd e] else []) l.
(** the walkers a program puts into system [i] *)
Definition walker_of (l : list (Z * act)) (i p : Z) : Prop := exists w, In (i, AEnter w) l /\ In p (map snd w).
(** no walker is put into two systems *)
Definition own_walkers (l : list (Z * act)) : Prop := forall i j p, walker_of l i p -> walker_of l j p -> i = j.
(** the program does not change rates it handed out *)
Definition rates_stay (l : list (Z * act)) : Prop := forall i h, ~ In (i, ARates h) l.
End Spec.
