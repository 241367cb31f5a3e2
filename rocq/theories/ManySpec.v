(** * Programs that use several systems at once *)
From Coq Require Import ZArith List Bool.
From Verif Require Import Base Num WalkerModel SiteModel ClusterModel ContainerModel BasinModel SystemModel SystemSpec.
Import ListNotations.
Open Scope Z_scope.

Section Many.
Context {I : Impl} {N : Num} {G : Rng} {U : Ugly}.

(** The memory that all parts of a program share (walkers, rates, the static
    counter of cluster ids, the clock), the systems by name, and the walkers
    inside each of them.  The fields of [p_systems p i] that stand for shared
    memory are not looked at. *)
Record program := mkProgram {
  p_walkers : umap walker; p_heap : heap; p_count : Z; p_tick : Z;
  p_systems : Z -> world; p_inside : Z -> list Z }.
(** system [i] with the memory it works on *)
Definition view (p : program) (i : Z) : world :=
  g_with_walkers (p_walkers p) (g_with_heap (p_heap p) (g_with_count (p_count p) (g_with_tick (p_tick p) (p_systems p i)))).
Definition at_name {V} (f : Z -> V) (i : Z) (v : V) (j : Z) : V := if j =? i then v else f j.

(** a call of system [i], or something else the program does *)
Inductive event := On (i : Z) (c : call) | Rates | Walkers | Outside.
(** calls of the library *)
Definition library_call (c : call) : bool := match c with KRates | KWalkers | KElsewhere => false | _ => true end.

Inductive happens (clk : Z -> Z) (p : program) : event -> program -> Prop :=
(** a call that returned; a walker is in one system at a time *)
| ev_call i c g ws : library_call c = true -> step clk (view p i) (p_inside p i) c g ws ->
    (forall q j, In q ws -> j <> i -> ~ In q (p_inside p j)) ->
    happens clk p (On i c)
      (mkProgram (g_walkers g) (g_heap g) (g_count g) (g_tick g) (at_name (p_systems p) i g) (at_name (p_inside p) i ws))
| ev_rates h : happens clk p Rates (mkProgram (p_walkers p) h (p_count p) (p_tick p) (p_systems p) (p_inside p))
| ev_walkers m : NoDup (ukeys m) -> (forall q j, In q (p_inside p j) -> ulookup q m = ulookup q (p_walkers p)) ->
    happens clk p Walkers (mkProgram m (p_heap p) (p_count p) (p_tick p) (p_systems p) (p_inside p))
| ev_outside n t : p_count p <= n ->
    happens clk p Outside (mkProgram (p_walkers p) (p_heap p) n t (p_systems p) (p_inside p)).

(** what happened since the start, when all systems were newly constructed *)
Definition program_new (m : umap walker) (h : heap) (count tick : Z) : program :=
  mkProgram m h count tick (fun _ => world_new m h count tick) (fun _ => []).
Inductive goes (clk : Z -> Z) (p : program) : list event -> program -> Prop :=
| go_refl : goes clk p [] p
| go_step es p1 e p2 : goes clk p es p1 -> happens clk p1 e p2 -> goes clk p (es ++ [e]) p2.
Definition happened (clk : Z -> Z) (es : list event) (p : program) : Prop :=
  exists m h count tick, NoDup (ukeys m) /\ 0 <= count /\ goes clk (program_new m h count tick) es p.

(** the calls of system [i]; to it, calls of other systems are changes
    elsewhere and of walkers it does not know *)
Definition seen_by (i : Z) (e : event) : list call :=
  match e with
  | On j c => if j =? i then [c] else [KElsewhere; KWalkers]
  | Rates => [KRates] | Walkers => [KWalkers] | Outside => [KElsewhere]
  end.
(** the calls of system [i] alone *)
Definition calls_on (i : Z) (es : list event) : list call :=
  flat_map (fun e => match e with On j c => if j =? i then [c] else [] | _ => [] end) es.
End Many.
