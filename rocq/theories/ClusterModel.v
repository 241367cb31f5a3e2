(** * Model of mythical::Cluster
    src/libmythical/topologyfeatures/cluster.cpp, cluster.hpp

    A cluster owns copies of its sites.  Visit counters are unbounded integers
    (the code uses int).  Functions that read [sitesInCluster_[k]] for a key k
    that is not a member would insert a default site; those keys come from
    [probabilityOnSite_], whose keys are always members, and the model makes
    the impossible case [Undefined]. *)
From Coq Require Import ZArith List Bool.
From Verif Require Import Base Num SiteModel.
Import ListNotations.
Open Scope Z_scope.

(** cluster.hpp:84-88 *)
Inductive method := PerCluster | PerSite | ByTolerance.

Section Cluster.
Context {I : Impl} {N : Num} {G : Rng}.

(** Members of TopologyFeature and Cluster (cluster.hpp:283-400) *)
Record cluster := mkCluster {
  c_id : Z; (* Identity; set by the constructor *)
  c_occ : Z; (* occupied_ *)
  c_visits : Z; (* total_visit_freq_ *)
  c_prev : Z; (* prev_total_visit_freq_ *)
  c_tau : num; (* escape_time_constant_ *)
  c_rng : eng; (* random_engine_ *)
  c_res : num; (* resolution_ *)
  c_iters : Z; (* iterations_ *)
  c_tol : num; (* convergenceTolerance_ *)
  c_method : method; (* convergence_method_ *)
  c_inc : num; (* time_increment_ *)
  c_itau : num; (* internal_time_constant_ *)
  c_remaining : umap num; (* remaining_walker_dwell_times_ *)
  c_pnbr : list (Z * num); (* probabilityHopToNeighbor_ *)
  c_cnbr : list (Z * num); (* cumulitive_probabilityHopToNeighbor_ *)
  c_idwell : umap num; (* internal_dwell_time_ *)
  c_svisits : umap num; (* site_visits_ *)
  c_sumoff : umap num; (* sumOfEscapeRateFromSiteToNeighbor_ *)
  c_sumint : umap num; (* sumOfEscapeRateFromSiteToInternalSite_ *)
  c_sites : umap site; (* sitesInCluster_ *)
  c_hopoff : umap num; (* probabilityHopOffInternalSite_ *)
  c_hopbet : umap num; (* probabilityHopBetweenInternalSite_ *)
  c_pon : umap num; (* probabilityOnSite_ *)
  c_pint : list (Z * num); (* probabilityHopToInternalSite_ *)
  c_cint : list (Z * num) }. (* cumulitive_probabilityHopToInternalSite_ *)
Definition c_with_id v (c : cluster) := mkCluster v (c_occ c) (c_visits c) (c_prev c) (c_tau c) (c_rng c) (c_res c) (c_iters c) (c_tol c) (c_method c) (c_inc c) (c_itau c) (c_remaining c) (c_pnbr c) (c_cnbr c) (c_idwell c) (c_svisits c) (c_sumoff c) (c_sumint c) (c_sites c) (c_hopoff c) (c_hopbet c) (c_pon c) (c_pint c) (c_cint c).
Definition c_with_occ v (c : cluster) := mkCluster (c_id c) v (c_visits c) (c_prev c) (c_tau c) (c_rng c) (c_res c) (c_iters c) (c_tol c) (c_method c) (c_inc c) (c_itau c) (c_remaining c) (c_pnbr c) (c_cnbr c) (c_idwell c) (c_svisits c) (c_sumoff c) (c_sumint c) (c_sites c) (c_hopoff c) (c_hopbet c) (c_pon c) (c_pint c) (c_cint c).
Definition c_with_visits v (c : cluster) := mkCluster (c_id c) (c_occ c) v (c_prev c) (c_tau c) (c_rng c) (c_res c) (c_iters c) (c_tol c) (c_method c) (c_inc c) (c_itau c) (c_remaining c) (c_pnbr c) (c_cnbr c) (c_idwell c) (c_svisits c) (c_sumoff c) (c_sumint c) (c_sites c) (c_hopoff c) (c_hopbet c) (c_pon c) (c_pint c) (c_cint c).
Definition c_with_prev v (c : cluster) := mkCluster (c_id c) (c_occ c) (c_visits c) v (c_tau c) (c_rng c) (c_res c) (c_iters c) (c_tol c) (c_method c) (c_inc c) (c_itau c) (c_remaining c) (c_pnbr c) (c_cnbr c) (c_idwell c) (c_svisits c) (c_sumoff c) (c_sumint c) (c_sites c) (c_hopoff c) (c_hopbet c) (c_pon c) (c_pint c) (c_cint c).
Definition c_with_tau v (c : cluster) := mkCluster (c_id c) (c_occ c) (c_visits c) (c_prev c) v (c_rng c) (c_res c) (c_iters c) (c_tol c) (c_method c) (c_inc c) (c_itau c) (c_remaining c) (c_pnbr c) (c_cnbr c) (c_idwell c) (c_svisits c) (c_sumoff c) (c_sumint c) (c_sites c) (c_hopoff c) (c_hopbet c) (c_pon c) (c_pint c) (c_cint c).
Definition c_with_rng v (c : cluster) := mkCluster (c_id c) (c_occ c) (c_visits c) (c_prev c) (c_tau c) v (c_res c) (c_iters c) (c_tol c) (c_method c) (c_inc c) (c_itau c) (c_remaining c) (c_pnbr c) (c_cnbr c) (c_idwell c) (c_svisits c) (c_sumoff c) (c_sumint c) (c_sites c) (c_hopoff c) (c_hopbet c) (c_pon c) (c_pint c) (c_cint c).
Definition c_with_res v (c : cluster) := mkCluster (c_id c) (c_occ c) (c_visits c) (c_prev c) (c_tau c) (c_rng c) v (c_iters c) (c_tol c) (c_method c) (c_inc c) (c_itau c) (c_remaining c) (c_pnbr c) (c_cnbr c) (c_idwell c) (c_svisits c) (c_sumoff c) (c_sumint c) (c_sites c) (c_hopoff c) (c_hopbet c) (c_pon c) (c_pint c) (c_cint c).
Definition c_with_iters v (c : cluster) := mkCluster (c_id c) (c_occ c) (c_visits c) (c_prev c) (c_tau c) (c_rng c) (c_res c) v (c_tol c) (c_method c) (c_inc c) (c_itau c) (c_remaining c) (c_pnbr c) (c_cnbr c) (c_idwell c) (c_svisits c) (c_sumoff c) (c_sumint c) (c_sites c) (c_hopoff c) (c_hopbet c) (c_pon c) (c_pint c) (c_cint c).
Definition c_with_tol v (c : cluster) := mkCluster (c_id c) (c_occ c) (c_visits c) (c_prev c) (c_tau c) (c_rng c) (c_res c) (c_iters c) v (c_method c) (c_inc c) (c_itau c) (c_remaining c) (c_pnbr c) (c_cnbr c) (c_idwell c) (c_svisits c) (c_sumoff c) (c_sumint c) (c_sites c) (c_hopoff c) (c_hopbet c) (c_pon c) (c_pint c) (c_cint c).
Definition c_with_method v (c : cluster) := mkCluster (c_id c) (c_occ c) (c_visits c) (c_prev c) (c_tau c) (c_rng c) (c_res c) (c_iters c) (c_tol c) v (c_inc c) (c_itau c) (c_remaining c) (c_pnbr c) (c_cnbr c) (c_idwell c) (c_svisits c) (c_sumoff c) (c_sumint c) (c_sites c) (c_hopoff c) (c_hopbet c) (c_pon c) (c_pint c) (c_cint c).
Definition c_with_inc v (c : cluster) := mkCluster (c_id c) (c_occ c) (c_visits c) (c_prev c) (c_tau c) (c_rng c) (c_res c) (c_iters c) (c_tol c) (c_method c) v (c_itau c) (c_remaining c) (c_pnbr c) (c_cnbr c) (c_idwell c) (c_svisits c) (c_sumoff c) (c_sumint c) (c_sites c) (c_hopoff c) (c_hopbet c) (c_pon c) (c_pint c) (c_cint c).
Definition c_with_itau v (c : cluster) := mkCluster (c_id c) (c_occ c) (c_visits c) (c_prev c) (c_tau c) (c_rng c) (c_res c) (c_iters c) (c_tol c) (c_method c) (c_inc c) v (c_remaining c) (c_pnbr c) (c_cnbr c) (c_idwell c) (c_svisits c) (c_sumoff c) (c_sumint c) (c_sites c) (c_hopoff c) (c_hopbet c) (c_pon c) (c_pint c) (c_cint c).
Definition c_with_remaining v (c : cluster) := mkCluster (c_id c) (c_occ c) (c_visits c) (c_prev c) (c_tau c) (c_rng c) (c_res c) (c_iters c) (c_tol c) (c_method c) (c_inc c) (c_itau c) v (c_pnbr c) (c_cnbr c) (c_idwell c) (c_svisits c) (c_sumoff c) (c_sumint c) (c_sites c) (c_hopoff c) (c_hopbet c) (c_pon c) (c_pint c) (c_cint c).
Definition c_with_pnbr v (c : cluster) := mkCluster (c_id c) (c_occ c) (c_visits c) (c_prev c) (c_tau c) (c_rng c) (c_res c) (c_iters c) (c_tol c) (c_method c) (c_inc c) (c_itau c) (c_remaining c) v (c_cnbr c) (c_idwell c) (c_svisits c) (c_sumoff c) (c_sumint c) (c_sites c) (c_hopoff c) (c_hopbet c) (c_pon c) (c_pint c) (c_cint c).
Definition c_with_cnbr v (c : cluster) := mkCluster (c_id c) (c_occ c) (c_visits c) (c_prev c) (c_tau c) (c_rng c) (c_res c) (c_iters c) (c_tol c) (c_method c) (c_inc c) (c_itau c) (c_remaining c) (c_pnbr c) v (c_idwell c) (c_svisits c) (c_sumoff c) (c_sumint c) (c_sites c) (c_hopoff c) (c_hopbet c) (c_pon c) (c_pint c) (c_cint c).
Definition c_with_idwell v (c : cluster) := mkCluster (c_id c) (c_occ c) (c_visits c) (c_prev c) (c_tau c) (c_rng c) (c_res c) (c_iters c) (c_tol c) (c_method c) (c_inc c) (c_itau c) (c_remaining c) (c_pnbr c) (c_cnbr c) v (c_svisits c) (c_sumoff c) (c_sumint c) (c_sites c) (c_hopoff c) (c_hopbet c) (c_pon c) (c_pint c) (c_cint c).
Definition c_with_svisits v (c : cluster) := mkCluster (c_id c) (c_occ c) (c_visits c) (c_prev c) (c_tau c) (c_rng c) (c_res c) (c_iters c) (c_tol c) (c_method c) (c_inc c) (c_itau c) (c_remaining c) (c_pnbr c) (c_cnbr c) (c_idwell c) v (c_sumoff c) (c_sumint c) (c_sites c) (c_hopoff c) (c_hopbet c) (c_pon c) (c_pint c) (c_cint c).
Definition c_with_sumoff v (c : cluster) := mkCluster (c_id c) (c_occ c) (c_visits c) (c_prev c) (c_tau c) (c_rng c) (c_res c) (c_iters c) (c_tol c) (c_method c) (c_inc c) (c_itau c) (c_remaining c) (c_pnbr c) (c_cnbr c) (c_idwell c) (c_svisits c) v (c_sumint c) (c_sites c) (c_hopoff c) (c_hopbet c) (c_pon c) (c_pint c) (c_cint c).
Definition c_with_sumint v (c : cluster) := mkCluster (c_id c) (c_occ c) (c_visits c) (c_prev c) (c_tau c) (c_rng c) (c_res c) (c_iters c) (c_tol c) (c_method c) (c_inc c) (c_itau c) (c_remaining c) (c_pnbr c) (c_cnbr c) (c_idwell c) (c_svisits c) (c_sumoff c) v (c_sites c) (c_hopoff c) (c_hopbet c) (c_pon c) (c_pint c) (c_cint c).
Definition c_with_sites v (c : cluster) := mkCluster (c_id c) (c_occ c) (c_visits c) (c_prev c) (c_tau c) (c_rng c) (c_res c) (c_iters c) (c_tol c) (c_method c) (c_inc c) (c_itau c) (c_remaining c) (c_pnbr c) (c_cnbr c) (c_idwell c) (c_svisits c) (c_sumoff c) (c_sumint c) v (c_hopoff c) (c_hopbet c) (c_pon c) (c_pint c) (c_cint c).
Definition c_with_hopoff v (c : cluster) := mkCluster (c_id c) (c_occ c) (c_visits c) (c_prev c) (c_tau c) (c_rng c) (c_res c) (c_iters c) (c_tol c) (c_method c) (c_inc c) (c_itau c) (c_remaining c) (c_pnbr c) (c_cnbr c) (c_idwell c) (c_svisits c) (c_sumoff c) (c_sumint c) (c_sites c) v (c_hopbet c) (c_pon c) (c_pint c) (c_cint c).
Definition c_with_hopbet v (c : cluster) := mkCluster (c_id c) (c_occ c) (c_visits c) (c_prev c) (c_tau c) (c_rng c) (c_res c) (c_iters c) (c_tol c) (c_method c) (c_inc c) (c_itau c) (c_remaining c) (c_pnbr c) (c_cnbr c) (c_idwell c) (c_svisits c) (c_sumoff c) (c_sumint c) (c_sites c) (c_hopoff c) v (c_pon c) (c_pint c) (c_cint c).
Definition c_with_pon v (c : cluster) := mkCluster (c_id c) (c_occ c) (c_visits c) (c_prev c) (c_tau c) (c_rng c) (c_res c) (c_iters c) (c_tol c) (c_method c) (c_inc c) (c_itau c) (c_remaining c) (c_pnbr c) (c_cnbr c) (c_idwell c) (c_svisits c) (c_sumoff c) (c_sumint c) (c_sites c) (c_hopoff c) (c_hopbet c) v (c_pint c) (c_cint c).
Definition c_with_pint v (c : cluster) := mkCluster (c_id c) (c_occ c) (c_visits c) (c_prev c) (c_tau c) (c_rng c) (c_res c) (c_iters c) (c_tol c) (c_method c) (c_inc c) (c_itau c) (c_remaining c) (c_pnbr c) (c_cnbr c) (c_idwell c) (c_svisits c) (c_sumoff c) (c_sumint c) (c_sites c) (c_hopoff c) (c_hopbet c) (c_pon c) v (c_cint c).
Definition c_with_cint v (c : cluster) := mkCluster (c_id c) (c_occ c) (c_visits c) (c_prev c) (c_tau c) (c_rng c) (c_res c) (c_iters c) (c_tol c) (c_method c) (c_inc c) (c_itau c) (c_remaining c) (c_pnbr c) (c_cnbr c) (c_idwell c) (c_svisits c) (c_sumoff c) (c_sumint c) (c_sites c) (c_hopoff c) (c_hopbet c) (c_pon c) (c_pint c) v.

(** std::numeric_limits<double>::min(), constants.hpp:12 *)
Definition unassigned_value : num := ndblmin.
Definition isNaN (x : num) : bool := negb (neqb x x).

(** Constructors cluster.cpp:52-66, topology_feature.cpp:40-58.  [i] is the
    value of clusterIdCounter; time_increment_ and internal_time_constant_
    are not initialised by the code: here 0 (they are written before they are
    read). *)
Definition cluster_new (i clock : Z) : cluster :=
  mkCluster i 0 0 0 n0 (eseed clock) (nofZ 20) 3 (nlit 1 100) PerSite n0 n0
            [] [] [] [] [] [] [] [] [] [] [] [] [].

(** cluster.hpp:121-123, 139, 178-191, 213-215, 225, 239; cluster.cpp:123-129 *)
Definition c_isIn (c : cluster) (k : Z) : bool := umem k (c_sites c).
Definition c_size (c : cluster) : nat := length (c_sites c).
Definition c_siteIds (c : cluster) : list Z := ukeys (c_sites c).
Definition c_setResolution (r : num) : M cluster unit :=
  cassert (nleb (nofZ 2) r) ;;
  modify (fun c => c_with_inc (ndiv (c_tau c) r) (c_with_res r c)).
Definition c_getResolution (c : cluster) : num := c_res c.
Definition c_getTimeIncrement (c : cluster) : num := c_inc c.
Definition c_getTimeConstant (c : cluster) : num := c_tau c.
Definition c_setMethod (m : method) : M cluster unit := modify (c_with_method m).
(** cluster.cpp:195-203 *)
Definition c_setTolerance (t : num) : M cluster unit :=
  cassert (nleb n0 t) ;; modify (c_with_tol t).
Definition c_setIterations (n : Z) : M cluster unit :=
  cassert (0 <? n) ;; modify (c_with_iters n).
(** topology_feature.cpp:60-62 *)
Definition c_setRandomSeed (seed : Z) : M cluster unit := modify (c_with_rng (eseed seed)).
(** cluster.cpp:131-135 *)
Definition c_neighborIds (c : cluster) : list Z := map fst (c_pnbr c).

(** ** Occupation *)
(** occupy() and vacate() without a site: inherited, topology_feature.cpp:10-13, 20-22 *)
Definition c_occupy0 : M cluster unit :=
  modify (fun c => c_with_visits (c_visits c + 1) (c_with_occ (c_occ c + 1) c)).
Definition c_vacate0 : M cluster unit := modify (fun c => c_with_occ (c_occ c - 1) c).
(** isOccupied() without a site, topology_feature.cpp:28-30 *)
Definition c_isOccupied0 (c : cluster) : bool := c_occ c >? 0.

(** occupyCluster_, cluster.cpp:26-33.  An absent site would be inserted
    before the assert; the assert (site_visits_.count) then fails unless the
    id is a stale key of site_visits_, in which case the code would go on with
    a default site: keys of site_visits_ are members, so this is [Undefined]. *)
Definition c_occupy (k : Z) : M cluster unit :=
  c <- gets (fun c => c) ;;
  cassert (umem k (c_svisits c)) ;;
  match ulookup k (c_sites c) with
  | None => stop Undefined
  | Some s =>
      modify (fun c => c_with_sites (uset (c_sites c) k (s_setToOccupied s))
                         (c_with_visits (c_visits c + 1) c))
  end.
(** isOccupiedCluster_, 35-39 *)
Definition c_isOccupied (c : cluster) (k : Z) : res bool :=
  match ulookup k (c_sites c) with
  | Some s => Ok (s_isOccupied s)
  | None => Bad AssertFailed
  end.
(** vacateCluster_, 41-45: an absent site is inserted (a default site; its
    engine is seeded from the clock and never used) *)
Definition c_vacate (clock : Z) (k : Z) : M cluster unit :=
  modify (fun c =>
    let s := match ulookup k (c_sites c) with Some s => s | None => site_new clock end in
    c_with_sites (uset (c_sites c) k (s_with_occ (s_occ s - 1) s)) c) ;;
  c_vacate0.
(** removeWalker, topology_feature.hpp:124-127: remove_ptr_ is never set to
    removeWalkerCluster_, so it is the empty removeWalker_ *)
Definition c_removeWalker (clock : Z) (walker k : Z) : M cluster unit := c_vacate clock k.

(** ** Members *)
(** addSite, cluster.cpp:68-74; the caller's site gets the cluster id too
    (returned) *)
Definition c_addSite (s : site) : M cluster site :=
  i <- lift (s_getId s) ;;
  c <- gets (fun c => c) ;;
  cassert (negb (umem i (c_sites c))) ;;
  let s' := s_with_cluster (c_id c) s in
  modify (fun c => c_with_sites (uset (c_sites c) i s') c) ;;
  ret s'.
(** addSites, 76-83 (the updated vector is not used by any caller) *)
Definition c_addSites (l : list site) : M cluster unit :=
  mfor l (fun s => c_addSite s ;; ret tt).

(** ** Rates leaving the cluster and inside it *)
(** getRatesToNeighborsOfCluster_ 293-307 ([keep] = not a member) and
    getRatesBetweenInternalSites_ 309-323 ([keep] = member).  A site's
    neighbours and rates are read from its map in one pass; getRateToNeighbor
    of a listed neighbour cannot fail. *)
Definition rates_where (h : heap) (keep : Z -> bool) (sites : umap site) : umap (umap num) :=
  fold_left (fun (m : umap (umap num)) e =>
    fold_left (fun (m : umap (umap num)) na =>
      if keep (fst na) then uset m (fst e) (uset (uget ([] : umap num) (fst e) m) (fst na) (h (snd na))) else m)
      (s_neigh (snd e)) m) sites [].
Definition ext_rates (h : heap) (sites : umap site) : umap (umap num) :=
  rates_where h (fun k => negb (umem k sites)) sites.
Definition int_rates (h : heap) (sites : umap site) : umap (umap num) :=
  rates_where h (fun k => umem k sites) sites.

(** sum of the second components, in order *)
Definition sum_snd (l : umap num) : num := fold_left (fun acc e => nadd acc (snd e)) l n0.

(** getFastestRateOffCluster 274-285 *)
Definition c_fastestOff (h : heap) (c : cluster) : num :=
  fold_left (fun f e => fold_left (fun f r => if nltb f (snd r) then snd r else f) (snd e) f)
            (ext_rates h (c_sites c)) n0.

(** ** Master equation *)
(** initializeProbabilityOnSites_ 325-331 (the map is not cleared) *)
Definition init_pon (sites : umap site) (pon : umap num) : umap num :=
  fold_left (fun m e => uset m (fst e) (ndiv n1 (nofZ (Z.of_nat (length sites))))) sites pon.

(** the temporary probability of one site, 344-356 *)
Definition it_temp (sites : umap site) (pon : umap num) (k : Z) (s : site) : res num :=
  fold_left (fun acc n =>
    t <-! acc;
    t1 <-! (match ulookup n sites with
            | Some sn => p <-! s_probTo sn k; Ok (nadd t (nmul p (uget n0 n pon)))
            | None => Ok t
            end);
    p <-! s_probTo s n;
    Ok (nsub t1 (nmul p (uget n0 k pon))))
    (s_neighIds s) (Ok (uget n0 k pon)).

Fixpoint it_temps (sites : umap site) (pon : umap num) (l : umap site) : res (umap num) :=
  match l with
  | [] => Ok []
  | e :: r => t <-! it_temp sites pon (fst e) (snd e); ts <-! it_temps sites pon r; Ok ((fst e, t) :: ts)
  end.

(** iterate_ 333-372.  temp_probabilityOnSite is only read at the key just
    computed, so it is a list in the order of the sites. *)
Definition iterate (sites : umap site) (pon : umap num) : res (umap num) :=
  temps <-! it_temps sites pon sites;
  let inv := ndiv n1 (sum_snd temps) in
  let new := map (fun e => (fst e, nmul (nadd (nmul (snd e) inv) (uget n0 (fst e) pon)) (nlit 1 2))) temps in
  let inv2 := ndiv n1 (sum_snd new) in
  Ok (fold_left (fun m e => uset m (fst e) (nmul (snd e) inv2)) new pon).

Fixpoint iterate_n (n : nat) (sites : umap site) (pon : umap num) : res (umap num) :=
  match n with
  | O => Ok pon
  | S n' => pon' <-! iterate sites pon; iterate_n n' sites pon'
  end.

(** 394-401; pow(x, 2.0) is x*x and pow(x, 1.0/2.0) the square root *)
Definition iter_error (old new : umap num) : num :=
  nsqrt (fold_left (fun acc e =>
    let d := nsub (snd e) (uget n0 (fst e) new) in nadd acc (nmul d d)) old n0).

(** while (error > convergenceTolerance_), 391-403 *)
Fixpoint iterate_tol (fuel : nat) (tol err : num) (sites : umap site) (pon : umap num) : res (umap num) :=
  if nltb tol err then
    match fuel with
    | O => Bad Diverged
    | S f => pon' <-! iterate sites pon; iterate_tol f tol (iter_error pon pon') sites pon'
    end
  else Ok pon.

(** solveMasterEquation_ 374-403, without the table calculations *)
Definition solve_pon (fuel : nat) (m : method) (iters : Z) (tol : num) (sites : umap site) (pon : umap num)
  : res (umap num) :=
  let pon0 := init_pon sites pon in
  match m with
  | PerCluster => iterate_n (Z.to_nat iters) sites pon0
  | PerSite => iterate_n (Z.to_nat (iters * Z.of_nat (length sites))) sites pon0
  | ByTolerance => iterate_tol fuel tol (nmul tol (nlit 11 10)) sites pon0
  end.

(** sort(..., x.second > y.second): with a NaN among two or more entries the
    comparison is no ordering and the behaviour undefined *)
Definition sort_desc (l : list (Z * num)) : res (list (Z * num)) :=
  if existsb (fun e => isNaN (snd e)) l && (1 <? Z.of_nat (length l)) then Bad Undefined
  else Ok (psort (Z * num) (fun x y => nltb (snd y) (snd x)) l).

(** the running sums pushed behind the existing entries *)
Fixpoint cumulate (total : num) (l : list (Z * num)) : list (Z * num) :=
  match l with
  | [] => []
  | e :: r => let t := nadd (snd e) total in (fst e, t) :: cumulate t r
  end.

(** the time constant of a member *)
Definition tau_of (sites : umap site) (k : Z) : res num :=
  match ulookup k sites with Some s => Ok (s_tau s) | None => Bad Undefined end.

(** the values p_k * tau_k in the order of probabilityOnSite_ *)
Fixpoint weigh_tau (sites : umap site) (pon : umap num) : res (umap num) :=
  match pon with
  | [] => Ok []
  | e :: r => t <-! tau_of sites (fst e); l <-! weigh_tau sites r; Ok ((fst e, nmul (snd e) t) :: l)
  end.
(** a fresh unordered_map filled in this order *)
Definition umap_of {V} (l : list (Z * V)) : umap V :=
  fold_left (fun m e => uset m (fst e) (snd e)) l [].

(** calculateProbabilityHopToInternalSite_ 584-616 *)
Definition c_calcHopToInternal : M cluster unit :=
  c <- gets (fun c => c) ;;
  w <- lift (weigh_tau (c_sites c) (c_pon c)) ;;
  let total := sum_snd w in
  l <- lift (sort_desc (map (fun e => (fst e, ndiv (snd e) total)) (umap_of w))) ;;
  modify (fun c => c_with_cint (c_cint c ++ cumulate n0 l) (c_with_pint l c)).

(** accumulated weights towards the outside neighbours, 624-638 *)
Definition exit_weights (sites : umap site) (pon : umap num) : res (umap num) :=
  fold_left (fun acc e =>
    fold_left (fun acc n =>
      m <-! acc;
      if umem n sites then Ok m
      else p <-! s_probTo (snd e) n;
           let v := nmul p (uget n0 (fst e) pon) in
           Ok (match ulookup n m with Some w => uset m n (nadd w v) | None => uset m n v end))
      (s_neighIds (snd e)) acc) sites (Ok []).

(** calculateProbabilityHopToNeighbors_ 619-668 *)
Definition c_calcHopToNeighbors : M cluster unit :=
  c <- gets (fun c => c) ;;
  w <- lift (exit_weights (c_sites c) (c_pon c)) ;;
  let inv := ndiv n1 (sum_snd w) in
  l <- lift (sort_desc (umap_of (map (fun e => (fst e, nmul (snd e) inv)) w))) ;;
  modify (fun c => c_with_cnbr (c_cnbr c ++ cumulate n0 l) (c_with_pnbr l c)).

(** calculateInternalDwellTimes_ 670-680 *)
Definition c_calcInternalDwell (h : heap) : M cluster unit :=
  modify (fun c =>
    c_with_idwell (fold_left (fun m e => uset m (fst e) (ndiv n1 (sum_snd (snd e))))
                             (int_rates h (c_sites c)) (c_idwell c)) c).

(** solveMasterEquation_ 374-407 *)
Definition c_solve (fuel : nat) (h : heap) : M cluster unit :=
  c <- gets (fun c => c) ;;
  pon <- lift (solve_pon fuel (c_method c) (c_iters c) (c_tol c) (c_sites c) (c_pon c)) ;;
  modify (c_with_pon pon) ;;
  c_calcHopToInternal ;;
  c_calcHopToNeighbors ;;
  c_calcInternalDwell h.

(** calculateSumOfEscapeRatesFromSitesToTheirNeighbors_ 520-537: the running
    sum starts with the first rate *)
Definition sum_first (l : umap num) : num :=
  match l with [] => n0 | e :: r => fold_left (fun acc e => nadd acc (snd e)) r (snd e) end.
Definition c_calcSumOff (h : heap) : M cluster unit :=
  modify (fun c => c_with_sumoff (umap_of (map (fun e => (fst e, sum_first (snd e))) (ext_rates h (c_sites c)))) c).
(** ...InternalSites_ 541-555: temp[k] starts at 0 *)
Definition c_calcSumInt (h : heap) : M cluster unit :=
  modify (fun c => c_with_sumint (umap_of (map (fun e => (fst e, nadd n0 (sum_snd (snd e)))) (int_rates h (c_sites c)))) c).

(** calculateProbabilityHopOffInternalSite_ 459-485.  Reading
    sumOfEscapeRateFromSiteToNeighbor_[k] at an absent k gives 0 (the entry
    it inserts is never observable). *)
Fixpoint sum_taus (sites : umap site) (pon : umap num) (acc : num) : res num :=
  match pon with
  | [] => Ok acc
  | e :: r => t <-! tau_of sites (fst e); sum_taus sites r (nadd acc t)
  end.
Fixpoint hopoff_raw (sites : umap site) (sumoff : umap num) (sr st : num) (pon : umap num) : res (umap num) :=
  match pon with
  | [] => Ok []
  | e :: r =>
      t <-! tau_of sites (fst e);
      l <-! hopoff_raw sites sumoff sr st r;
      Ok ((fst e, ndiv (nmul (ndiv (nmul (snd e) (uget n0 (fst e) sumoff)) sr) t) st) :: l)
  end.
Definition c_calcHopOff (h : heap) : M cluster unit :=
  c <- gets (fun c => c) ;;
  cassert (1 <? Z.of_nat (c_size c)) ;;
  let sr := fold_left (fun acc e => fold_left (fun acc r => nadd acc (snd r)) (snd e) acc)
                      (ext_rates h (c_sites c)) n0 in
  st <- lift (sum_taus (c_sites c) (c_pon c) n0) ;;
  raw <- lift (hopoff_raw (c_sites c) (c_sumoff c) sr st (c_pon c)) ;;
  let total2 := sum_snd raw in
  modify (c_with_hopoff (map (fun e => (fst e, ndiv (snd e) total2)) (umap_of raw))).

(** calculateProbabilityHopBetweenInternalSite_ 488-516: the loop that should
    normalise probabilityHopBetweenInternalSite_ divides
    probabilityHopOffInternalSite_ instead *)
Fixpoint hopbet_raw (sites : umap site) (pon : umap num) (l : umap (umap num)) : res (umap num) :=
  match l with
  | [] => Ok []
  | e :: r =>
      t <-! tau_of sites (fst e);
      m <-! hopbet_raw sites pon r;
      Ok ((fst e, nmul (nmul (sum_snd (snd e)) t) (uget n0 (fst e) pon)) :: m)
  end.
Definition c_calcHopBetween (h : heap) : M cluster unit :=
  c <- gets (fun c => c) ;;
  cassert (1 <? Z.of_nat (c_size c)) ;;
  raw <- lift (hopbet_raw (c_sites c) (c_pon c) (int_rates h (c_sites c))) ;;
  let sum_internal := sum_snd raw in
  let hb := umap_of raw in
  modify (fun c =>
    c_with_hopoff (fold_left (fun m e => uset m (fst e) (ndiv (uget n0 (fst e) m) sum_internal)) hb (c_hopoff c))
      (c_with_hopbet hb c)).

(** the weighted mean of 1/rate, 562-567 and 576-581 *)
Definition mean_inverse (sums : umap num) (p : umap num) : num :=
  fold_left (fun acc e =>
    let r := uget n0 (fst e) sums in
    if nltb n0 r then nadd acc (nmul (ndiv n1 r) (snd e)) else acc) p n0.

(** calculateEscapeTimeConstant_ 557-570 *)
Definition c_calcTau (h : heap) : M cluster unit :=
  modify (fun c =>
    let tau := match ext_rates h (c_sites c) with
               | [] => unassigned_value
               | _ => mean_inverse (c_sumoff c) (c_hopoff c)
               end in
    c_with_inc (ndiv tau (c_res c)) (c_with_tau tau c)).
(** calculateInternalTimeConstant_ 571-583 *)
Definition c_calcITau (h : heap) : M cluster unit :=
  modify (fun c =>
    c_with_itau (match int_rates h (c_sites c) with
                 | [] => unassigned_value
                 | _ => mean_inverse (c_sumint c) (c_hopbet c)
                 end) c).

(** ** Visit frequencies *)
(** setVisitFrequency 223-234 *)
Definition c_setVisits (f k : Z) : M cluster unit :=
  c <- gets (fun c => c) ;;
  cassert (umem k (c_svisits c)) ;;
  cassert (negb (neqb (c_tau c) unassigned_value)) ;;
  modify (fun c => c_with_svisits (uset (c_svisits c) k (nofZ f)) c).

(** the loop of getVisitFrequency 244-251; [at] throws when a key is missing.
    probabilityOnSite_[k] of an absent key reads 0. *)
Fixpoint spread_visits (c : cluster) (diff : num) (l : umap num) (sv : umap num) : res (umap num) :=
  match l with
  | [] => Ok sv
  | e :: r =>
      match ulookup (fst e) (c_sites c), ulookup (fst e) (c_idwell c) with
      | Some s, Some d =>
          let v := nmul (nmul diff (uget n0 (fst e) (c_pon c))) (s_tau s) in
          let v := ndiv (nmul (c_tau c) (ndiv v d)) (c_res c) in
          spread_visits c diff r (uset sv (fst e) (nadd (uget n0 (fst e) sv) (nround v)))
      | _, _ => Err OutOfRange
      end
  end.
(** getVisitFrequency 236-257.  Simplification: when [at] throws, the entries
    of site_visits_ already updated by the loop are not kept. *)
Definition c_getVisits (k : Z) : M cluster Z :=
  c <- gets (fun c => c) ;;
  cassert (umem k (c_svisits c)) ;;
  cassert (negb (neqb (c_tau c) unassigned_value)) ;;
  (if c_visits c =? c_prev c then ret tt
   else sv <- lift (spread_visits c (nofZ (c_visits c - c_prev c)) (c_svisits c) (c_svisits c)) ;;
        modify (fun c => c_with_prev (c_visits c) (c_with_svisits sv c))) ;;
  sv <- gets c_svisits ;;
  match ntrunc (nround (uget n0 k sv)) with Some z => ret z | None => stop Undefined end.

(** getVisitFrequencies_ 108-115: the keys are those of site_visits_, which
    the loop does not change *)
Fixpoint c_visitList (l : list Z) : M cluster (umap Z) :=
  match l with
  | [] => ret []
  | k :: r => v <- c_getVisits k ;; m <- c_visitList r ;; ret ((k, v) :: m)
  end.

(** ** updateProbabilitiesAndTimeConstant 85-106 *)
Definition c_update (fuel : nat) (h : heap) : M cluster unit :=
  keys <- gets (fun c => ukeys (c_svisits c)) ;;
  saved <- c_visitList keys ;;
  c_solve fuel h ;;
  c_calcSumOff h ;;
  c_calcSumInt h ;;
  c_calcHopOff h ;;
  c_calcHopBetween h ;;
  c_calcTau h ;;
  c_calcITau h ;;
  modify (c_with_svisits []) ;;
  ids <- gets c_siteIds ;;
  mfor ids (fun k =>
    modify (fun c => c_with_svisits (uset (c_svisits c) k n0) c) ;;
    match ulookup k saved with
    | Some v => c_setVisits v k
    | None => ret tt
    end) ;;
  c_calcInternalDwell h.

(** getProbabilityOfOccupyingInternalSite 137-140; operator[] inserts an
    absent key *)
Definition c_probOn (k : Z) : M cluster num :=
  c <- gets (fun c => c) ;;
  cassert (umem k (c_sites c)) ;;
  (if umem k (c_pon c) then ret tt else modify (fun c => c_with_pon (uset (c_pon c) k n0) c)) ;;
  ret (uget n0 k (c_pon c)).
(** getProbabilityOfHoppingToNeighborOfCluster 181-193 *)
Definition c_probToNeighbor (c : cluster) (k : Z) : res num :=
  match ulookup k (c_pnbr c) with Some p => Ok p | None => Bad AssertFailed end.

(** ** migrateSitesFrom 142-172: runs on the pair (this, cluster) *)
Definition onFst {A} (m : M cluster A) : M (cluster * cluster) A :=
  zoom fst (fun a p => (a, snd p)) m.
Definition onSnd {A} (m : M cluster A) : M (cluster * cluster) A :=
  zoom snd (fun b p => (fst p, b)) m.

Definition c_clearMigrated (c : cluster) : cluster :=
  c_with_sites [] (c_with_pon [] (c_with_sumoff [] (c_with_svisits [] (c_with_idwell []
    (c_with_pnbr [] (c_with_cnbr [] (c_with_tau unassigned_value (c_with_itau unassigned_value c)))))))).

Definition c_migrate (fuel : nat) (h : heap) : M (cluster * cluster) unit :=
  i <- gets (fun p => c_id (fst p)) ;;
  onSnd (modify (fun c => c_with_sites (map (fun e => (fst e, s_with_cluster i (snd e))) (c_sites c)) c)) ;;
  ids <- gets (fun p => c_siteIds (snd p)) ;;
  visits <- onSnd (c_visitList ids) ;;
  moved <- gets (fun p => c_sites (snd p)) ;;
  onFst (modify (fun c => c_with_sites
           (fold_left (fun m e => if umem (fst e) m then m else uset m (fst e) (snd e)) moved (c_sites c)) c)) ;;
  onSnd (modify c_clearMigrated) ;;
  onFst (c_update fuel h) ;;
  mfor visits (fun e => onFst (c_setVisits (snd e) (fst e))).

(** ** Time and picks *)
Definition c_draw : M cluster num :=
  fun c => let (u, e) := edraw (c_rng c) in Ret u (c_with_rng e c).

(** getDwellTime 205-221 *)
Definition c_getDwellTime (w : Z) : M cluster num :=
  c <- gets (fun c => c) ;;
  cassert (negb (neqb (c_tau c) unassigned_value)) ;;
  (if umem w (c_remaining c) then ret tt
   else u <- c_draw ;;
        modify (fun c => c_with_remaining (uset (c_remaining c) w (dwell_of u (c_tau c))) c)) ;;
  c <- gets (fun c => c) ;;
  let d := uget n0 w (c_remaining c) in
  modify (fun c => c_with_remaining (uset (c_remaining c) w (nsub d (c_inc c))) c) ;;
  if nltb (c_inc c) d then ret (c_inc c)
  else cassert (nltb n0 d) ;; ret d.

(** hopWithinCluster_ 427-432 *)
Definition c_hopWithin (c : cluster) (w : Z) : res bool :=
  match ulookup w (c_remaining c) with
  | Some d => Ok (nltb n0 d)
  | None => Bad AssertFailed
  end.

(** the scans 437-443 and 449-456; assert("...") is always true *)
Fixpoint cum_scan (u : num) (l : list (Z * num)) : Z :=
  match l with
  | [] => -1
  | e :: r => if nltb u (snd e) then fst e else cum_scan u r
  end.
(** pickClusterNeighbor_ 434-444 *)
Definition c_pickNeighbor (w : Z) : M cluster Z :=
  modify (fun c => c_with_remaining (uremove w (c_remaining c)) c) ;;
  u <- c_draw ;; l <- gets c_cnbr ;; ret (cum_scan u l).
(** pickInternalSite_ 446-457 *)
Definition c_pickInternal : M cluster Z :=
  u <- c_draw ;; l <- gets c_cint ;; ret (cum_scan u l).
(** pickNewSiteId 174-179 *)
Definition c_pick (w : Z) : M cluster Z :=
  c <- gets (fun c => c) ;;
  b <- lift (c_hopWithin c w) ;;
  if b : bool then c_pickInternal else c_pickNeighbor w.
End Cluster.
