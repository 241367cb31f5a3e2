(** * Model of mythical::TopologyFeature and mythical::Site
    src/libmythical/topologyfeatures/topology_feature.cpp, site.cpp, site.hpp

    A rate is reached through a pointer: [heap] is the memory the pointers
    point into, owned and changed by the user.  Visit counters and occupation
    counters are unbounded integers (the code uses int). *)
From Coq Require Import ZArith List Bool.
From Verif Require Import Base Num.
Import ListNotations.
Open Scope Z_scope.

(** std::mt19937 together with uniform_real_distribution(0,1): an engine is
    made from a seed and every draw gives a number and the next engine.  Only
    the interface is modelled; the stream is arbitrary. *)
Class Rng {N : Num} := {
  eng : Type;
  eseed : Z -> eng;
  edraw : eng -> num * eng
}.

(** *addr for every address; never null in a site *)
Definition heap {N : Num} : Type := Z -> num.

Section Site.
Context {I : Impl} {N : Num} {G : Rng}.

(** Members of TopologyFeature (topology_feature.hpp:31-61) and Site
    (site.hpp:173-183); the id is None until setId (identity.hpp). *)
Record site := mkSite {
  s_id : option Z;             (* Identity *)
  s_cluster : Z;               (* cluster_id_ *)
  s_occ : Z;                   (* occupied_ *)
  s_visits : Z;                (* total_visit_freq_ *)
  s_tau : num;                 (* escape_time_constant_ *)
  s_neigh : umap Z;            (* neighRates_: neighbour -> address of the rate *)
  s_prob : list (Z * num);     (* probabilityHopToNeighbor_ *)
  s_rng : eng }.               (* random_engine_ *)

Definition s_with_id v (s : site) := mkSite v (s_cluster s) (s_occ s) (s_visits s) (s_tau s) (s_neigh s) (s_prob s) (s_rng s).
Definition s_with_cluster v (s : site) := mkSite (s_id s) v (s_occ s) (s_visits s) (s_tau s) (s_neigh s) (s_prob s) (s_rng s).
Definition s_with_occ v (s : site) := mkSite (s_id s) (s_cluster s) v (s_visits s) (s_tau s) (s_neigh s) (s_prob s) (s_rng s).
Definition s_with_visits v (s : site) := mkSite (s_id s) (s_cluster s) (s_occ s) v (s_tau s) (s_neigh s) (s_prob s) (s_rng s).
Definition s_with_tau v (s : site) := mkSite (s_id s) (s_cluster s) (s_occ s) (s_visits s) v (s_neigh s) (s_prob s) (s_rng s).
Definition s_with_neigh v (s : site) := mkSite (s_id s) (s_cluster s) (s_occ s) (s_visits s) (s_tau s) v (s_prob s) (s_rng s).
Definition s_with_prob v (s : site) := mkSite (s_id s) (s_cluster s) (s_occ s) (s_visits s) (s_tau s) (s_neigh s) v (s_rng s).
Definition s_with_rng v (s : site) := mkSite (s_id s) (s_cluster s) (s_occ s) (s_visits s) (s_tau s) (s_neigh s) (s_prob s) v.

(** Constructors topology_feature.cpp:40-58, site.cpp:34-38; [clock] is what
    the system clock returned. *)
Definition site_new (clock : Z) : site :=
  mkSite None unassignedId 0 0 n0 [] [] (eseed clock).

(** identity.hpp:22-28 *)
Definition s_setId (i : Z) : M site unit := modify (s_with_id (Some i)).
Definition s_getId (s : site) : res Z :=
  match s_id s with Some i => Ok i | None => Err RuntimeError end.

(** topology_feature.cpp:60-62 *)
Definition s_setRandomSeed (seed : Z) : M site unit := modify (s_with_rng (eseed seed)).

(** occupyTopology_, topology_feature.cpp:10-18 (both overloads) *)
Definition s_occupy : M site unit :=
  modify (fun s => s_with_visits (s_visits s + 1) (s_with_occ (s_occ s + 1) s)).
(** vacateTopology_, 20-26 *)
Definition s_vacate : M site unit := modify (fun s => s_with_occ (s_occ s - 1) s).
(** isOccupiedTopology_, 28-34 *)
Definition s_isOccupied (s : site) : bool := s_occ s >? 0.
(** removeWalker, topology_feature.hpp:124-127 with removeWalker_ (cpp:36-38) *)
Definition s_removeWalker : M site unit := s_vacate.
(** setToOccupiedStatus, topology_feature.hpp:148 *)
Definition s_setToOccupied (s : site) : site := s_with_occ 1 s.
(** topology_feature.hpp:186-194 *)
Definition s_setVisitFrequency (f : Z) : M site unit := modify (s_with_visits f).
Definition s_getVisitFrequency (s : site) : Z := s_visits s.
(** topology_feature.hpp:156 *)
Definition s_getTimeConstant (s : site) : num := s_tau s.

(** the uniform random number of the feature *)
Definition s_draw : M site num :=
  fun s => let (u, e) := edraw (s_rng s) in Ret u (s_with_rng e s).

(** topology_feature.cpp:64-67 *)
Definition dwell_of (u tau : num) : num := nmul (nmul (nofZ (-1)) (nlog u)) tau.
Definition s_getDwellTime : M site num :=
  u <- s_draw ;; tau <- gets s_tau ;; ret (dwell_of u tau).

(** site.hpp:72, 81, 130, 137 *)
Definition s_isNeighbor (s : site) (n : Z) : bool := umem n (s_neigh s).
Definition s_partOfCluster (s : site) : bool := s_cluster s >? -1.
Definition s_getClusterId (s : site) : Z := s_cluster s.
Definition s_setClusterId (c : Z) : M site unit := modify (s_with_cluster c).

(** getSumOfRates_, site.cpp:174-180 *)
Definition sum_rates (h : heap) (neigh : umap Z) : num :=
  fold_left (fun acc e => nadd acc (h (snd e))) neigh n0.

(** CustomComparitor, site.cpp:15-28: the set holds pair<int,double>, the
    comparator takes pair<double,int>, so both arguments are converted: the
    id to double (exact) and the probability to int (truncation; undefined
    when out of range). *)
Definition set_cmp (x y : Z * num) : res bool :=
  match ntrunc (snd x), ntrunc (snd y) with
  | Some a, Some b =>
      Ok (if fst x =? fst y then false else if a =? b then fst x <? fst y else a <? b)
  | _, _ => Bad Undefined
  end.

(** std::set::insert on the ordered contents.  Simplification: the tree is the
    list of its elements in order; the first element is inserted without any
    comparison, as in the tree. *)
Fixpoint set_insert (x : Z * num) (l : list (Z * num)) : res (list (Z * num)) :=
  match l with
  | [] => Ok [x]
  | y :: l' =>
      b <-! set_cmp x y;
      if b then Ok (x :: y :: l')
      else
        b' <-! set_cmp y x;
        if b' then r <-! set_insert x l'; Ok (y :: r)
        else Ok (y :: l')
  end.

(** calculateProbabilityHopToNeighbors_, site.cpp:157-167 *)
Fixpoint prob_loop (h : heap) (sum : num) (neigh : umap Z) (acc : list (Z * num)) : res (list (Z * num)) :=
  match neigh with
  | [] => Ok acc
  | e :: r => acc' <-! set_insert (fst e, ndiv (h (snd e)) sum) acc; prob_loop h sum r acc'
  end.
Definition s_calcProb (h : heap) : M site unit :=
  fun s => match prob_loop h (sum_rates h (s_neigh s)) (s_neigh s) [] with
           | Ok l => Ret tt (s_with_prob l s)
           | Err e => Thr e s
           | Bad b => Halt b
           end.
(** calculateDwellTimeConstant_, site.cpp:169-172 *)
Definition s_calcTau (h : heap) : M site unit :=
  modify (fun s => s_with_tau (ndiv n1 (sum_rates h (s_neigh s))) s).

(** setRatesToNeighbors, site.cpp:42-52; [rates] maps a neighbour to the
    address of its rate in the user's map *)
Definition s_setRates (h : heap) (rates : umap Z) : M site unit :=
  cassert (negb (Nat.eqb (length rates) 0)) ;;
  mfor rates (fun e =>
    cassert (negb (neqb (h (snd e)) n0)) ;;
    modify (fun s => s_with_neigh (uset (s_neigh s) (fst e) (snd e)) s)) ;;
  s_calcTau h ;; s_calcProb h.

(** addNeighRate, site.cpp:54-60 *)
Definition s_addNeighRate (h : heap) (n a : Z) : M site unit :=
  nb <- gets s_neigh ;;
  cassert (negb (umem n nb)) ;;
  modify (fun s => s_with_neigh (uset (s_neigh s) n a) s) ;;
  s_calcTau h ;; s_calcProb h.

(** resetNeighRate, site.cpp:62-66 *)
Definition s_resetNeighRate (h : heap) (n a : Z) : M site unit :=
  modify (fun s => s_with_neigh (uset (s_neigh s) n a) s) ;;
  s_calcTau h ;; s_calcProb h.

(** getRateToNeighbors, site.cpp:68-72 *)
Definition s_getRates (h : heap) (s : site) : list num := map (fun e => h (snd e)) (s_neigh s).

(** getRateToNeighbor, site.cpp:74-77 *)
Definition s_getRateTo (h : heap) (s : site) (n : Z) : res num :=
  match ulookup n (s_neigh s) with Some a => Ok (h a) | None => Bad AssertFailed end.

(** getFastestRate, site.cpp:79-85 *)
Definition s_getFastestRate (h : heap) (s : site) : num :=
  fold_left (fun r e => if nltb r (h (snd e)) then h (snd e) else r) (s_neigh s) n0.

(** getNeighborSiteIds, site.cpp:87-91 *)
Definition s_neighIds (s : site) : list Z := ukeys (s_neigh s).

(** the scan of pickNewSiteId, site.cpp:99-107 *)
Fixpoint pick_scan (u threshold : num) (l : list (Z * num)) : Z :=
  match l with
  | [] => -1
  | e :: r => let t := nadd threshold (snd e) in
              if nltb u t then fst e else pick_scan u t r
  end.
(** pickNewSiteId, site.cpp:93-108; assert("...") is always true *)
Definition s_pick : M site Z :=
  u <- s_draw ;; l <- gets s_prob ;; ret (pick_scan u n0 l).

(** getProbabilityOfHoppingToNeighboringSite, site.cpp:118-131: dereferencing
    end() is undefined *)
Definition s_probTo (s : site) (n : Z) : res num :=
  if umem n (s_neigh s) then
    match ulookup n (s_prob s) with Some p => Ok p | None => Bad Undefined end
  else Bad AssertFailed.

(** getProbabilitiesAndIdsOfNeighbors, site.cpp:133-135 *)
Definition s_getProbs (s : site) : list (Z * num) := s_prob s.
End Site.
