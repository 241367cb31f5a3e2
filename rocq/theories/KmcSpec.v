(** * Specification: kinetic Monte Carlo on a network of rates (C58) *)
From Coq Require Import ZArith List Bool Reals.
From Verif Require Import Base Num RSum SiteModel SiteSpec WalkerModel BasinModel SystemModel SystemSpec.
Import ListNotations.
Open Scope R_scope.

Section Kmc.
Context {I : Impl} {G : @Rng XR}.
(** the user's rates: for every site its neighbours and the address of the rate *)
Variable h : @heap XR.
Variable rates : umap (umap Z).
(** the site that is drawn at a site with a number from [0,1) *)
Variable choose : Z -> R -> Z.

(** the rates leading away from [k] *)
Definition away (k : Z) : umap Z := match ulookup k rates with Some r => r | None => [] end.
(** distinct sites with positive rates, each of which leads to a site with rates;
    the reserved id is not used *)
Definition network : Prop :=
  NoDup (ukeys rates) /\ ~ In unassignedId (ukeys rates) /\
  forall k r, In (k, r) rates -> good_rates h r /\ forall n, In n (ukeys r) -> In n (ukeys rates).
(** the share of the rates in [r] that goes to neighbours with a smaller id than [j] *)
Definition below (r : umap Z) (j : Z) : R :=
  Rsum (fun e => if (fst e <? j)%Z then realv (h (snd e)) else 0) r / total_rate h r.
(** every number from [0,1) gives a neighbour, and a neighbour is given by an
    interval of numbers that is as long as its share of the rates; the intervals
    follow each other in the order of the ids *)
Definition fair : Prop :=
  forall k, In k (ukeys rates) ->
    (forall u, 0 <= u < 1 -> In (choose k u) (ukeys (away k))) /\
    (forall j r, user_rate h (away k) j r ->
       forall u, 0 <= u < 1 -> (choose k u = j <-> below (away k) j <= u < below (away k) j + r / total_rate h (away k))).

(** a walker stands on a site, waits, and then wants to go to another *)
Record hopper := mkHopper { on : Z; aim : Z; wait : R }.
(** the walkers, the stream of random numbers of each site, and how often walkers
    came to (or stayed on) each site *)
Record kmc := mkKmc { walkers : list (Z * hopper); stream : Z -> @eng XR G; arrivals : Z -> Z }.

Definition set {A} (f : Z -> A) (k : Z) (a : A) : Z -> A := fun j => if (j =? k)%Z then a else f j.
Definition someone (k : Z) (l : list (Z * hopper)) : bool := existsb (fun e => (on (snd e) =? k)%Z) l.
Definition seek (p : Z) (l : list (Z * hopper)) : option hopper :=
  match find (fun e => (fst e =? p)%Z) l with Some e => Some (snd e) | None => None end.

(** A walker comes to [k] or stays there: the waiting time is exponential with the
    sum of the rates, the next site is chosen in proportion to the rates; both from
    the stream of the site. *)
Definition settle (k : Z) (K : kmc) : hopper * kmc :=
  let (u, e) := edraw (stream K k) in
  let (v, e') := edraw e in
  (mkHopper k (choose k (realv v)) (- ln (realv u) / total_rate h (away k)),
   mkKmc (walkers K) (set (stream K) k e') (set (arrivals K) k (arrivals K k + 1)%Z)).

(** walker [p] enters at [k], makes the hop it waited for, or leaves *)
Inductive event := Enter (id p k : Z) | Hop (id p : Z) | Leave (id p : Z).
Definition kmc_step (v : event) (K : kmc) : option kmc :=
  match v with
  | Enter _ p k =>
      match seek p (walkers K) with
      | Some _ => None
      | None =>
          if someone k (walkers K) || negb (existsb (Z.eqb k) (ukeys rates)) then None
          else let (w, K') := settle k K in Some (mkKmc ((p, w) :: walkers K) (stream K') (arrivals K'))
      end
  | Hop _ p =>
      match seek p (walkers K) with
      | None => None
      | Some w =>
          (* only a free site can be entered *)
          let (w', K') := settle (if someone (aim w) (walkers K) then on w else aim w) K in
          Some (mkKmc (map (fun e => if (fst e =? p)%Z then (p, w') else e) (walkers K)) (stream K') (arrivals K'))
      end
  | Leave _ p =>
      match seek p (walkers K) with
      | None => None
      | Some _ => Some (mkKmc (filter (fun e => negb (fst e =? p)%Z) (walkers K)) (stream K) (arrivals K))
      end
  end.
Fixpoint kmc_run (l : list event) (K : kmc) : option kmc :=
  match l with [] => Some K | v :: r => match kmc_step v K with Some K' => kmc_run r K' | None => None end end.
Definition empty (s : Z -> @eng XR G) : kmc := mkKmc [] s (fun _ => 0%Z).
Definition is_hop_event (v : event) : bool := match v with Hop _ _ => true | _ => false end.
Definition hop_events (l : list event) : Z := Z.of_nat (length (filter is_hop_event l)).

(** ** The library driven by the same events *)
Section Drive.
Context {U : @Ugly XR}.
Variable clk : Z -> Z.
(** perhaps setMinCoarseGrainIterationThreshold, setTimeResolution, perhaps
    setRandomSeed, initializeSystem *)
Definition prologue (thr : option Z) (t : @num XR) (seed : option Z) : M (@world XR G) unit :=
  (match thr with Some b => sys_setThreshold b | None => ret tt end) ;;
  sys_setTimeResolution t ;;
  (match seed with Some s => sys_setRandomSeed s | None => ret tt end) ;;
  sys_initializeSystem clk rates.
(** hops after which the first search for a cluster is made: the threshold that was
    set, else 1000 (coarsegrainsystem.cpp:53-64) *)
Definition search_after (thr : option Z) : Z := match thr with Some b => b | None => 1000 end.
(** a new walker is put on a site and given to initializeWalkers; hop;
    removeWalkerFromSystem *)
Definition drive (fuel : nat) (v : event) : M (@world XR G) unit :=
  match v with
  | Enter id p k =>
      modify (fun g : @world XR G => g_with_walkers (uset (g_walkers g) p (@mkWalker XR k unassignedId (nofZ (-1)))) g) ;;
      sys_initializeWalkers [(id, p)]
  | Hop id p => sys_hop clk fuel id p
  | Leave id p => sys_removeWalker clk id p
  end.
(** what the user sees: every walker's site, potential site and dwell time, every
    site's visits and whether it is occupied, and no clusters *)
Definition shows (g : @world XR G) (K : kmc) : Prop :=
  (forall p w, In (p, w) (walkers K) -> ulookup p (g_walkers g) = Some (mkWalker (on w) (aim w) (Fin (wait w)))) /\
  (forall k, In k (ukeys rates) -> visits g k (arrivals K k) /\ taken g k (someone k (walkers K))) /\
  sys_getClusters g = Ret [] g.
End Drive.
End Kmc.
