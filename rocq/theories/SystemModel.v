(** * Model of mythical::CoarseGrainSystem
    src/libmythical/coarsegrainsystem.cpp, include/mythical/coarsegrainsystem.hpp

    The state is the system together with the memory it works on: the user's
    walkers, the user's rates, and the global counter of cluster ids. *)
From Coq Require Import ZArith List Bool.
From Verif Require Import Base Num WalkerModel SiteModel ClusterModel ContainerModel BasinModel.
Import ListNotations.
Open Scope Z_scope.

(** TopologyFeature*: null, &sites_[k], &clusters_[c] (dangling once c is erased) *)
Inductive ptr := PNull | PSite (k : Z) | PCluster (c : Z).

Section System.
Context {I : Impl} {N : Num} {G : Rng} {U : Ugly}.
(** what the system clock returns, call by call *)
Variable clk : Z -> Z.

(** coarsegrainsystem.hpp:220-262.  minimum_coarse_graining_resolution_ is
    always 2. *)
Record world := mkWorld {
  g_perf : num;                (* performance_ratio_ *)
  g_seed : option Z;           (* seed_set_, seed_ *)
  g_res : option num;          (* time_resolution_set_, time_resolution_ *)
  g_iter : Z;                  (* iteration_ *)
  g_thr : Z;                   (* iteration_threshold_ *)
  g_thrmin : Z;                (* iteration_threshold_min_ *)
  g_feats : umap ptr;          (* topology_features_ *)
  g_sites : umap site;         (* sites_ *)
  g_clusters : umap cluster;   (* clusters_ *)
  g_walkers : umap walker;     (* what the shared_ptr<Walker> point to *)
  g_heap : heap;               (* what the rate pointers point to *)
  g_count : Z;                 (* clusterIdCounter, cluster.cpp:22 *)
  g_tick : Z }.                (* number of clock readings and searches so far *)

Definition g_with_perf v (g : world) := mkWorld v (g_seed g) (g_res g) (g_iter g) (g_thr g) (g_thrmin g) (g_feats g) (g_sites g) (g_clusters g) (g_walkers g) (g_heap g) (g_count g) (g_tick g).
Definition g_with_seed v (g : world) := mkWorld (g_perf g) v (g_res g) (g_iter g) (g_thr g) (g_thrmin g) (g_feats g) (g_sites g) (g_clusters g) (g_walkers g) (g_heap g) (g_count g) (g_tick g).
Definition g_with_res v (g : world) := mkWorld (g_perf g) (g_seed g) v (g_iter g) (g_thr g) (g_thrmin g) (g_feats g) (g_sites g) (g_clusters g) (g_walkers g) (g_heap g) (g_count g) (g_tick g).
Definition g_with_iter v (g : world) := mkWorld (g_perf g) (g_seed g) (g_res g) v (g_thr g) (g_thrmin g) (g_feats g) (g_sites g) (g_clusters g) (g_walkers g) (g_heap g) (g_count g) (g_tick g).
Definition g_with_thr v (g : world) := mkWorld (g_perf g) (g_seed g) (g_res g) (g_iter g) v (g_thrmin g) (g_feats g) (g_sites g) (g_clusters g) (g_walkers g) (g_heap g) (g_count g) (g_tick g).
Definition g_with_thrmin v (g : world) := mkWorld (g_perf g) (g_seed g) (g_res g) (g_iter g) (g_thr g) v (g_feats g) (g_sites g) (g_clusters g) (g_walkers g) (g_heap g) (g_count g) (g_tick g).
Definition g_with_feats v (g : world) := mkWorld (g_perf g) (g_seed g) (g_res g) (g_iter g) (g_thr g) (g_thrmin g) v (g_sites g) (g_clusters g) (g_walkers g) (g_heap g) (g_count g) (g_tick g).
Definition g_with_sites v (g : world) := mkWorld (g_perf g) (g_seed g) (g_res g) (g_iter g) (g_thr g) (g_thrmin g) (g_feats g) v (g_clusters g) (g_walkers g) (g_heap g) (g_count g) (g_tick g).
Definition g_with_clusters v (g : world) := mkWorld (g_perf g) (g_seed g) (g_res g) (g_iter g) (g_thr g) (g_thrmin g) (g_feats g) (g_sites g) v (g_walkers g) (g_heap g) (g_count g) (g_tick g).
Definition g_with_walkers v (g : world) := mkWorld (g_perf g) (g_seed g) (g_res g) (g_iter g) (g_thr g) (g_thrmin g) (g_feats g) (g_sites g) (g_clusters g) v (g_heap g) (g_count g) (g_tick g).
Definition g_with_heap v (g : world) := mkWorld (g_perf g) (g_seed g) (g_res g) (g_iter g) (g_thr g) (g_thrmin g) (g_feats g) (g_sites g) (g_clusters g) (g_walkers g) v (g_count g) (g_tick g).
Definition g_with_count v (g : world) := mkWorld (g_perf g) (g_seed g) (g_res g) (g_iter g) (g_thr g) (g_thrmin g) (g_feats g) (g_sites g) (g_clusters g) (g_walkers g) (g_heap g) v (g_tick g).
Definition g_with_tick v (g : world) := mkWorld (g_perf g) (g_seed g) (g_res g) (g_iter g) (g_thr g) (g_thrmin g) (g_feats g) (g_sites g) (g_clusters g) (g_walkers g) (g_heap g) (g_count g) v.

(** the constructor, 53-64, in a program with the given walkers, rates and
    cluster id counter *)
Definition world_new (walkers : umap walker) (h : heap) (count tick : Z) : world :=
  mkWorld n1 None None 0 1000 1000 [] [] [] walkers h count tick.

(** ** Plumbing *)
Definition in_sites {A} (m : M (umap site) A) : M world A := zoom g_sites g_with_sites m.
Definition in_clusters {A} (m : M (umap cluster) A) : M world A := zoom g_clusters g_with_clusters m.
(** *p for a walker: a null pointer is undefined *)
Definition in_walker {A} (p : Z) (m : M walker A) : M world A :=
  zoom g_walkers g_with_walkers (at_key p (stop Undefined) m).
(** a value local to a function *)
Definition local {S A} (m : M S A) (s : S) : M world (A * S) :=
  fun g => match m s with Ret a s' => Ret (a, s') g | Thr e _ => Thr e g | Halt h => Halt h end.
(** the next clock reading / the number of the next search *)
Definition next_tick : M world Z :=
  fun g => Ret (g_tick g) (g_with_tick (g_tick g + 1) g).
Definition read_clock : M world Z := t <- next_tick ;; ret (clk t).
(** ++seed_ on an unsigned long, if it was set *)
Definition use_seed : M world (option Z) :=
  fun g => match g_seed g with
           | Some s => Ret (Some s) (g_with_seed (Some ((s + 1) mod 2 ^ 64)) g)
           | None => Ret None g
           end.
(** Cluster(): the id is clusterIdCounter++ *)
Definition new_cluster : M world cluster :=
  t <- read_clock ;;
  i <- gets g_count ;;
  modify (g_with_count (i + 1)) ;;
  ret (cluster_new i t).

(** virtual calls through topology_features_[k] *)
Definition on_feature {A} (k : Z) (ms : M site A) (mc : M cluster A) : M world A :=
  f <- gets (fun g => ulookup k (g_feats g)) ;;
  match f with
  | Some (PSite j) => in_sites (at_key j (stop Undefined) ms)
  | Some (PCluster c) => in_clusters (at_key c (stop Undefined) mc)
  | _ => stop Undefined
  end.
Definition f_isOccupied (k j : Z) : M world bool :=
  on_feature k (gets s_isOccupied) (c <- gets (fun c => c) ;; lift (c_isOccupied c j)).
Definition f_occupy (k j : Z) : M world unit := on_feature k s_occupy (c_occupy j).
Definition f_occupy0 (k : Z) : M world unit := on_feature k s_occupy c_occupy0.
Definition f_vacate (k j : Z) : M world unit :=
  t <- read_clock ;; on_feature k s_vacate (c_vacate t j).
Definition f_getDwellTime (k w : Z) : M world num := on_feature k s_getDwellTime (c_getDwellTime w).
Definition f_pick (k w : Z) : M world Z := on_feature k s_pick (c_pick w).
Definition f_removeWalker (k w j : Z) : M world unit :=
  t <- read_clock ;; on_feature k s_removeWalker (c_removeWalker t w j).

(** ** Configuration, 69-83, 177-191; coarsegrainsystem.hpp:216-218 *)
Definition sys_getTimeResolution : M world num :=
  r <- gets g_res ;; match r with Some t => ret t | None => throw RuntimeError end.
Definition sys_setTimeResolution (t : num) : M world unit :=
  if nleb t n0 then throw InvalidArgument else modify (g_with_res (Some t)).
Definition sys_setPerformanceRatio (p : num) : M world unit := modify (g_with_perf p).
Definition sys_setThreshold (t : Z) : M world unit :=
  modify (fun g => g_with_thr t (g_with_thrmin t g)).
Definition sys_setRandomSeed (s : Z) : M world unit :=
  f <- gets g_feats ;;
  match f with [] => modify (g_with_seed (Some s)) | _ => throw RuntimeError end.

(** ** initializeSystem, 85-123 *)
(** one iteration of the first loop; [rates] maps neighbours to the addresses
    of the rates *)
Definition init_site (k : Z) (rates : umap Z) : M world unit :=
  t <- read_clock ;;
  h <- gets g_heap ;;
  s <- local (s_setId k ;; s_setRates h rates) (site_new t) ;;
  seed <- use_seed ;;
  s <- local (match seed with Some x => s_setRandomSeed x | None => ret tt end) (snd s) ;;
  in_sites (sc_addSite (snd s)) ;;
  modify (fun g => g_with_feats (uset (g_feats g) k (PSite k)) g).
(** one iteration of the loop over drains *)
Definition init_drain (k : Z) : M world unit :=
  t <- read_clock ;;
  s <- local (s_setId k) (site_new t) ;;
  in_sites (sc_addSite (snd s)) ;;
  modify (fun g => g_with_feats (uset (g_feats g) k (PSite k)) g).
(** the set of targets without an entry, in iteration order *)
Definition drains (rates : umap (umap Z)) : umap unit :=
  fold_left (fun d e => fold_left (fun d n => if umem (fst n) rates then d else uinsert d (fst n)) (snd e) d) rates [].
Definition sys_initializeSystem (rates : umap (umap Z)) : M world unit :=
  r <- gets g_res ;;
  match r with
  | None => throw RuntimeError
  | Some _ =>
      mfor rates (fun e => init_site (fst e) (snd e)) ;;
      mfor (ukeys (drains rates)) init_drain
  end.

(** ** Walkers *)
(** one iteration of initializeWalkers, 139-175; [catch(...)] turns the
    exception of an unplaced walker into a runtime_error *)
Definition init_walker (id p : Z) : M world unit :=
  k <- in_walker p w_getSite ;;
  f <- gets g_feats ;;
  if umem k f then
    f_occupy0 k ;;
    t <- f_getDwellTime k id ;;
    n <- f_pick k id ;;
    in_walker p (w_setDwellTime t) ;;
    in_walker p (w_setPotentialSite n)
  else throw RuntimeError.
Definition sys_initializeWalkers (l : list (Z * Z)) : M world unit :=
  f <- gets g_feats ;;
  match f with
  | [] => throw RuntimeError
  | _ => mfor l (fun w => init_walker (fst w) (snd w))
  end.
(** removeWalkerFromSystem, 193-201 *)
Definition sys_removeWalker (id p : Z) : M world unit :=
  k <- in_walker p w_getSite ;;
  f_removeWalker k id k.

(** ** Coarse graining *)
(** getTimeConstantFromSitesToNeighbors_, 440-459 *)
Fixpoint exit_sum (h : heap) (sites : umap site) (all ids : list Z) (acc : num) : res num :=
  match ids with
  | [] => Ok acc
  | k :: r =>
      ns <-! ask (sc_getNeighIds k) sites;
      a <-! (fix go (ns : list Z) (acc : num) : res num :=
               match ns with
               | [] => Ok acc
               | n :: ns' =>
                   if existsb (Z.eqb n) all then go ns' acc
                   else x <-! ask (sc_getRateTo h k n) sites; go ns' (nadd acc x)
               end) ns acc;
      exit_sum h sites all r a
  end.
Definition exit_time (h : heap) (sites : umap site) (ids : list Z) : res num :=
  s <-! exit_sum h sites ids ids n0;
  Ok (if neqb s n0 then n0 else ndiv n1 s).
(** sitesSatisfyEquilibriumCondition_, 431-438; an unset time resolution is
    an uninitialised double *)
Definition equilibrium (ids : list Z) (limit : num) : M world bool :=
  g <- gets (fun g => g) ;;
  tc <- lift (exit_time (g_heap g) (g_sites g) ids) ;;
  let cross := nmul limit (nofZ 2) in
  if nltb (nmul cross (g_perf g)) tc then
    match g_res g with Some t => ret (nltb cross t) | None => stop Undefined end
  else ret false.

(** getClustersOfSites, 296-306 *)
Fixpoint clusters_of (ids : list Z) (acc : umap Z) : M world (umap Z) :=
  match ids with
  | [] => ret acc
  | k :: r =>
      b <- in_sites (sc_partOfCluster k) ;;
      c <- (if b : bool then in_sites (sc_getClusterId k) else ret unassignedId) ;;
      clusters_of r (uset acc k c)
  end.
(** countUniqueClusters, 274-280: only the size of the set matters *)
Definition count_clusters (sac : umap Z) : nat :=
  length (fold_left (fun s e => uinsert s (snd e)) sac []).
(** getFavoredClusterId, 282-293 *)
Definition favored (sac : umap Z) : Z :=
  fold_left (fun c e => if negb (snd e =? unassignedId) && ((c =? unassignedId) || (snd e <? c)) then snd e else c)
            sac unassignedId.

(** copies of the sites, 315-317 *)
Fixpoint copy_sites (ids : list Z) : M world (list site) :=
  match ids with
  | [] => ret []
  | k :: r => s <- in_sites (sc_getSite k) ;; l <- copy_sites r ;; ret (s :: l)
  end.
(** the resolution of a new cluster, 321-331 *)
Definition chosen_resolution (tau limit tres : num) : num :=
  let r := ndiv tau (nmul (nofZ 2) limit) in
  let a := ndiv tau tres in
  let c := if nltb a r then a else r in
  if nltb c (nofZ 2) then nofZ 2 else c.
(** createCluster_, 308-347.  Adding the cluster builds another default
    cluster, which uses up an id and a clock reading. *)
Definition create_cluster (fuel : nat) (ids : list Z) (limit : num) : M world unit :=
  c0 <- new_cluster ;;
  l <- copy_sites ids ;;
  h <- gets g_heap ;;
  c <- local (c_setMethod ByTolerance ;; c_setTolerance (nlit 1 1000) ;; c_addSites l ;; c_update fuel h) c0 ;;
  tres <- gets g_res ;;
  match tres with
  | None => stop Undefined
  | Some tres =>
      c <- local (c_setResolution (chosen_resolution (c_getTimeConstant (snd c)) limit tres)) (snd c) ;;
      seed <- use_seed ;;
      c <- local (match seed with Some x => c_setRandomSeed x | None => ret tt end) (snd c) ;;
      in_clusters (cc_addCluster (snd c)) ;;
      new_cluster ;;
      mfor ids (fun k =>
        in_sites (sc_setClusterId k (c_id c0)) ;;
        modify (fun g => g_with_feats (uset (g_feats g) k (PCluster (c_id c0))) g))
  end.

(** the first loop of mergeSitesAndClusters_, 355-366 *)
Fixpoint merge_scan (fav : Z) (sac : umap Z) (iso : list site) (cids : umap unit) : M world (list site * umap unit) :=
  match sac with
  | [] => ret (iso, cids)
  | (k, c) :: r =>
      if c =? fav then merge_scan fav r iso cids
      else
        iso' <- (if c =? unassignedId then s <- in_sites (sc_getSite k) ;; ret (iso ++ [s]) else ret iso) ;;
        in_clusters (cc_getCluster fav) ;;
        modify (fun g => g_with_feats (uset (g_feats g) k (PCluster fav)) g) ;;
        in_sites (sc_setClusterId k fav) ;;
        merge_scan fav r iso' (if c =? unassignedId then cids else uinsert cids c)
  end.
(** one iteration of the last loop, 369-372.  Simplification: when
    migrateSitesFrom throws, what it already changed in the two clusters is
    not kept. *)
Definition absorb (fuel : nat) (fav c : Z) : M world unit :=
  a <- in_clusters (cc_getCluster fav) ;;
  b <- in_clusters (cc_getCluster c) ;;
  h <- gets g_heap ;;
  p <- local (c_migrate fuel h) (a, b) ;;
  in_clusters (modify (ureplace fav (fst (snd p)))) ;;
  in_clusters (modify (ureplace c (snd (snd p)))) ;;
  in_clusters (cc_erase c).
(** mergeSitesAndClusters_, 349-373 *)
Definition merge_clusters (fuel : nat) (sac : umap Z) (fav : Z) : M world unit :=
  x <- merge_scan fav sac [] [] ;;
  h <- gets g_heap ;;
  in_clusters (at_key fav (throw InvalidArgument) (c_addSites (fst x))) ;;
  in_clusters (at_key fav (throw InvalidArgument) (c_update fuel h)) ;;
  mfor (ukeys (snd x)) (absorb fuel fav).

(** coarseGrain_, 249-272; the basin explorer has its default settings *)
Definition coarse_grain (fuel : nat) (k : Z) : M world bool :=
  nonce <- next_tick ;;
  g <- gets (fun g => g) ;;
  ids <- lift (find_basin fuel nonce (g_heap g) explorer_new (g_sites g) (g_clusters g) k) ;;
  let limit := internal_limit nonce (g_heap g) (g_sites g) ids in
  ok <- equilibrium ids limit ;;
  if ok : bool then
    sac <- clusters_of ids [] ;;
    let n := count_clusters sac in
    if Nat.eqb n 1 && match sac with (_, c) :: _ => c =? unassignedId | [] => false end then
      create_cluster fuel ids limit ;; ret true
    else if negb (Nat.eqb n 1) then
      merge_clusters fuel sac (favored sac) ;; ret true
    else ret false
  else ret false.

(** ** hop, 205-243 *)
(** the move, 212-231 *)
Definition hop_move (id p src dst : Z) : M world unit :=
  b <- f_isOccupied dst dst ;;
  if b : bool then
    f_vacate src src ;;
    f_occupy src src ;;
    t <- f_getDwellTime src id ;;
    in_walker p (w_setDwellTime t) ;;
    n <- f_pick src id ;;
    in_walker p (w_setPotentialSite n)
  else
    f_vacate src src ;;
    f_occupy dst dst ;;
    in_walker p (w_occupySite dst) ;;
    t <- f_getDwellTime dst id ;;
    in_walker p (w_setDwellTime t) ;;
    n <- f_pick dst id ;;
    in_walker p (w_setPotentialSite n).
(** the attempt to coarse grain, 233-242 *)
Definition hop_attempt (fuel : nat) (dst : Z) : M world unit :=
  i <- gets g_iter ;;
  i' <- lift (chk (i + 1)) ;;
  modify (g_with_iter i') ;;
  t <- gets g_thr ;;
  if t <? i' then
    m <- gets g_thrmin ;;
    (if negb (m =? inf_iterations) then
       b <- coarse_grain fuel dst ;;
       if b : bool then modify (g_with_thr m)
       else (t <- gets g_thr ;; t' <- lift (chk (t * 2)) ;; modify (g_with_thr t'))
     else ret tt) ;;
    modify (g_with_iter 0)
  else ret tt.
Definition sys_hop (fuel : nat) (id p : Z) : M world unit :=
  src <- in_walker p w_getSite ;;
  dst <- in_walker p w_getPotentialSite ;;
  hop_move id p src dst ;;
  hop_attempt fuel dst.

(** ** Queries, 125-137, 203, 461-471 *)
Definition sys_getVisits (k : Z) : M world Z :=
  m <- gets g_sites ;;
  if umem k m then
    s <- in_sites (sc_getSite k) ;;
    b <- in_sites (sc_partOfCluster k) ;;
    if b : bool then
      c <- in_sites (sc_getClusterId k) ;;
      v <- in_clusters (at_key c (throw InvalidArgument) (c_getVisits k)) ;;
      ret (s_getVisitFrequency s + v)
    else ret (s_getVisitFrequency s)
  else throw InvalidArgument.
Definition sys_getClusterId (k : Z) : M world Z := in_sites (sc_getClusterId k).
Definition sys_getClusters : M world (umap (list Z)) := in_clusters cc_getSiteIds.
Definition sys_getResolutions : M world (umap num) := in_clusters cc_getResolutions.
Definition sys_getIncrements : M world (umap num) := in_clusters cc_getIncrements.
End System.
