(** * Model of mythical::Site_Container and mythical::Cluster_Container
    src/libmythical/site_container.cpp, cluster_container.cpp

    A container is the unordered_map it owns.  [getSite] and [getCluster]
    return references; the model returns the stored value, and callers that
    write through the reference use [at_key]. *)
From Coq Require Import ZArith List Bool.
From Verif Require Import Base Num SiteModel ClusterModel.
Import ListNotations.
Open Scope Z_scope.

(** Run [m] on the value stored under [k] (sites_[siteId].f() after the
    count check); [absent] is what happens when there is none. *)
Definition at_key {V A} (k : Z) (absent : M (umap V) A) (m : M V A) : M (umap V) A :=
  fun mp => match ulookup k mp with
            | None => absent mp
            | Some v => match m v with
                        | Ret a v' => Ret a (ureplace k v' mp)
                        | Thr e v' => Thr e (ureplace k v' mp)
                        | Halt h => Halt h
                        end
            end.
(** the same for a query *)
Definition read_key {V A} (k : Z) (f : V -> res A) : M (umap V) A :=
  fun mp => match ulookup k mp with
            | None => Thr InvalidArgument mp
            | Some v => lift (f v) mp
            end.

Section Containers.
Context {I : Impl} {N : Num} {G : Rng}.

(** ** Site_Container *)
Definition sites_t := umap site.

(** addSite, site_container.cpp:8-13 *)
Definition sc_addSite (s : site) : M sites_t unit :=
  i <- lift (s_getId s) ;;
  m <- gets (fun m => m) ;;
  if umem i m then throw InvalidArgument
  else modify (fun m => uset m i s).
(** addSites, 15-19 *)
Definition sc_addSites (l : list site) : M sites_t unit := mfor l sc_addSite.
(** getSite, 21-26 *)
Definition sc_getSite (k : Z) : M sites_t site := read_key k (fun s => Ok s).
(** getSites(ids), 28-38 *)
Fixpoint sc_getSitesOf (ids : list Z) (acc : umap site) : M sites_t (umap site) :=
  match ids with
  | [] => ret acc
  | k :: r => s <- sc_getSite k ;; sc_getSitesOf r (uset acc k s)
  end.
(** getSites(), 40-42 *)
Definition sc_getSites : M sites_t (umap site) := gets (fun m => m).
(** size, site_container.hpp:31 *)
Definition sc_size : M sites_t Z := gets (fun m => Z.of_nat (length m)).
(** setClusterId, 44-49 *)
Definition sc_setClusterId (k c : Z) : M sites_t unit :=
  at_key k (throw InvalidArgument) (s_setClusterId c).
(** getClusterIdOfSite, 51-56; partOfCluster, 58-63 *)
Definition sc_getClusterId (k : Z) : M sites_t Z := read_key k (fun s => Ok (s_getClusterId s)).
Definition sc_partOfCluster (k : Z) : M sites_t bool := read_key k (fun s => Ok (s_partOfCluster s)).
(** getSmallestClusterId, 65-78: sites_[siteId] inserts a default site for an
    unknown id ([clock i] seeds the engine of the i-th one) *)
Fixpoint sc_smallest (clock : nat -> Z) (ids : list Z) (best : Z) : M sites_t Z :=
  match ids with
  | [] => ret best
  | k :: r =>
      modify (fun m => if umem k m then m else uset m k (site_new (clock (length r)))) ;;
      c <- sc_getClusterId k ;;
      sc_smallest clock r
        (if best =? unassignedId then c
         else if negb (c =? unassignedId) && (c <? best) then c else best)
  end.
Definition sc_getSmallestClusterId (clock : nat -> Z) (ids : list Z) : M sites_t Z :=
  sc_smallest clock ids unassignedId.
(** exist, 80-82 *)
Definition sc_exist (k : Z) : M sites_t bool := gets (umem k).
(** isOccupied, 84-90; vacate, 92-98; occupy, 100-106 *)
Definition sc_isOccupied (k : Z) : M sites_t bool := read_key k (fun s => Ok (s_isOccupied s)).
Definition sc_vacate (k : Z) : M sites_t unit := at_key k (throw InvalidArgument) s_vacate.
Definition sc_occupy (k : Z) : M sites_t unit := at_key k (throw InvalidArgument) s_occupy.
(** getSiteIds, 116-122 *)
Definition sc_getSiteIds : M sites_t (list Z) := gets ukeys.
(** getDwellTime, 144-150 *)
Definition sc_getDwellTime (k : Z) : M sites_t num := at_key k (throw InvalidArgument) s_getDwellTime.
(** getTimeConstant, 152-158 *)
Definition sc_getTimeConstant (k : Z) : M sites_t num := read_key k (fun s => Ok (s_getTimeConstant s)).
(** getRates, 160-167: site -> neighbour -> address of the rate *)
Definition rates_of (m : sites_t) : umap (umap Z) :=
  fold_left (fun acc e => uset acc (fst e) (s_neigh (snd e))) m [].
Definition sc_getRates : M sites_t (umap (umap Z)) := gets rates_of.
(** getFastestRateOffSite, 169-175 *)
Definition sc_getFastest (h : heap) (k : Z) : M sites_t num := read_key k (fun s => Ok (s_getFastestRate h s)).
(** getRateToNeighborOfSite, 177-183 *)
Definition sc_getRateTo (h : heap) (k n : Z) : M sites_t num := read_key k (fun s => s_getRateTo h s n).
(** getSiteIdsOfNeighbors, 185-191 *)
Definition sc_getNeighIds (k : Z) : M sites_t (list Z) := read_key k (fun s => Ok (s_neighIds s)).

(** ** Cluster_Container *)
Definition clusters_t := umap cluster.

(** addCluster, cluster_container.cpp:10-16.  clusters_[id] first builds a
    default cluster, which advances the global id counter (see SystemModel);
    the contents are then overwritten. *)
Definition cc_addCluster (c : cluster) : M clusters_t unit :=
  m <- gets (fun m => m) ;;
  if umem (c_id c) m then throw InvalidArgument
  else modify (fun m => uset m (c_id c) c).
(** addClusters, 18-22 *)
Definition cc_addClusters (l : list cluster) : M clusters_t unit := mfor l cc_addCluster.
(** getCluster, 24-31 *)
Definition cc_getCluster (k : Z) : M clusters_t cluster := read_key k (fun c => Ok c).
(** exist, 33-38; size, cluster_container.hpp:29 *)
Definition cc_exist (k : Z) : M clusters_t bool := gets (umem k).
Definition cc_size : M clusters_t Z := gets (fun m => Z.of_nat (length m)).
(** erase, 40-45 *)
Definition cc_erase (k : Z) : M clusters_t unit := modify (uremove k).
(** isOccupied, 47-53; vacate, 55-61; occupy, 63-69: the overloads without a site *)
Definition cc_isOccupied (k : Z) : M clusters_t bool := read_key k (fun c => Ok (c_isOccupied0 c)).
Definition cc_vacate (k : Z) : M clusters_t unit := at_key k (throw InvalidArgument) c_vacate0.
Definition cc_occupy (k : Z) : M clusters_t unit := at_key k (throw InvalidArgument) c_occupy0.
(** getClusterIds, 71-77 *)
Definition cc_getClusterIds : M clusters_t (list Z) := gets ukeys.
(** getDwellTime, 79-85 *)
Definition cc_getDwellTime (w k : Z) : M clusters_t num := at_key k (throw InvalidArgument) (c_getDwellTime w).
(** getTimeConstant, 87-93 *)
Definition cc_getTimeConstant (k : Z) : M clusters_t num := read_key k (fun c => Ok (c_getTimeConstant c)).
(** getFastestRateOffCluster, 95-101 *)
Definition cc_getFastest (h : heap) (k : Z) : M clusters_t num := read_key k (fun c => Ok (c_fastestOff h c)).
(** getSiteIdsOfNeighbors, 103-109 *)
Definition cc_getNeighIds (k : Z) : M clusters_t (list Z) := read_key k (fun c => Ok (c_neighborIds c)).
(** getSiteIdsOfClusters, 111-117; getResolutionOfClusters, 119-125;
    getTimeIncrementOfClusters, 127-133 *)
Definition per_cluster {V} (f : cluster -> V) (m : clusters_t) : umap V :=
  fold_left (fun acc e => uset acc (fst e) (f (snd e))) m [].
Definition cc_getSiteIds : M clusters_t (umap (list Z)) := gets (per_cluster c_siteIds).
Definition cc_getResolutions : M clusters_t (umap num) := gets (per_cluster c_getResolution).
Definition cc_getIncrements : M clusters_t (umap num) := gets (per_cluster c_getTimeIncrement).
End Containers.
