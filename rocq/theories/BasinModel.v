(** * Model of mythical::BasinExplorer and of the adapter to the graph library
    src/libmythical/basin_explorer.cpp, graph_library_adapter.hpp/.cpp

    UGLY (the graph library) is not in the repository.  Its parts used here are
    modelled by their contract: GraphVisitorLargestKnownValue keeps the explored
    vertices and the added edges that lead to unexplored ones;
    maxMinimumDistanceBetweenEveryVertex reports for every ordered pair of
    different vertices the length of a shortest path. *)
From Coq Require Import ZArith List Bool Permutation.
From Verif Require Import Base Num SiteModel ClusterModel ContainerModel.
Import ListNotations.
Open Scope Z_scope.

(** EdgeDirectedWeighted: source, target, weight *)
Definition edge {N : Num} : Type := (Z * Z * num)%type.
Definition e_src {N : Num} (e : edge) : Z := fst (fst e).
Definition e_dst {N : Num} (e : edge) : Z := snd (fst e).

(** What the search leaves open: the order of an unordered_set of pointers
    (it depends on addresses), which of the added edges is the next one (the
    library takes one with the largest known value; here any), the order of
    the list of explored vertices, and what is reported for a pair of vertices
    without a path (nothing, or some number).  The first argument tells
    different searches apart, the second the steps of one search. *)
Class Ugly {N : Num} := {
  u_order : Z -> nat -> list edge -> list edge;
  u_order_perm : forall n i l, Permutation (u_order n i l) l;
  u_next : Z -> nat -> edge -> list edge -> edge;
  u_next_in : forall n i e l, In (u_next n i e l) (e :: l);
  u_verts : Z -> list Z -> list Z;
  u_verts_perm : forall n l, Permutation (u_verts n l) l;
  u_far : Z -> Z -> Z -> option num
}.

Section Basin.
Context {I : Impl} {N : Num} {G : Rng} {U : Ugly}.

(** a call that does not change the container *)
Definition ask {S A} (m : M S A) (s : S) : res A :=
  match m s with Ret a _ => Ok a | Thr e _ => Err e | Halt h => Bad h end.

(** convertSitesOutgoingRatesToSharedWeightedEdges, graph_library_adapter.hpp:34-51;
    rate_map[siteId] of an unknown site is empty *)
Definition edges_of (h : heap) (sites : sites_t) (k : Z) : list edge :=
  map (fun na => (k, fst na, h (snd na))) (uget [] k (rates_of sites)).

(** basin_explorer.hpp:12-35; max_exploration_count_ is a size_t *)
Record explorer := mkExplorer { b_threshold : num; b_max : Z }.
(** basin_explorer.hpp:14 *)
Definition explorer_new : explorer := mkExplorer (nlit 95 100) 5.
(** setThreshold 90-92; setMaxExplorationCount 94-96: the int becomes a size_t *)
Definition b_setThreshold (t : num) : M explorer unit := modify (fun b => mkExplorer t (b_max b)).
Definition b_setMax (c : Z) : M explorer unit :=
  modify (fun b => mkExplorer (b_threshold b) (c mod 2 ^ 64)).

(** the rates kept by the explorer during a search, and the visitor *)
Record search := mkSearch {
  q_fast : num; (* fastest_rate_ *)
  q_slow : num; (* slowest_rate_ *)
  q_cur : num;  (* current_sites_fastest_rate_ *)
  q_seen : list Z; (* explored vertices, in order of exploration *)
  q_front : list edge }. (* added edges to unexplored vertices *)

(** edgeCanBeAdded *)
Definition can_add (q : search) (e : edge) : bool :=
  existsb (Z.eqb (e_src e)) (q_seen q) && negb (existsb (Z.eqb (e_dst e)) (q_seen q))
  && negb (existsb (fun e' => (e_src e' =? e_src e) && (e_dst e' =? e_dst e)) (q_front q)).

(** rateFastEnough_ 110-116 *)
Definition fast_enough (thr : num) (q : search) (rate : num) : bool :=
  let coef1 := ndiv rate (q_fast q) in
  let coef2 := ndiv (nsub rate (q_cur q)) (q_cur q) in
  let ratio := nmul coef1 coef2 in
  nltb thr ratio || nleb (nmul (q_slow q) (nlit 9999 10000)) rate.

(** the body of addEdges_ 71-86, with getRate_ 118-126, updateFastestRate_
    98-102 and updateSlowestRate_ 104-108 *)
Definition add_edge (h : heap) (sites : sites_t) (thr : num) (vertex : Z) (e : edge) (q : search) : res search :=
  if can_add q e then
    rate <-! ask (sc_getRateTo h vertex (if e_src e =? vertex then e_dst e else e_src e)) sites;
    let fast := if nltb (q_fast q) rate then rate else q_fast q in
    cur <-! ask (sc_getFastest h vertex) sites;
    let q1 := mkSearch fast (q_slow q) cur (q_seen q) (q_front q) in
    if fast_enough thr q1 rate
    then Ok (mkSearch fast (if nltb rate (q_slow q) then rate else q_slow q) cur (q_seen q) (q_front q ++ [e]))
    else Ok q1
  else Ok q.
(** addEdges_ 65-88 *)
Fixpoint add_edges (h : heap) (sites : sites_t) (thr : num) (vertex : Z) (l : list edge) (q : search) : res search :=
  match l with
  | [] => Ok q
  | e :: r => q' <-! add_edge h sites thr vertex e q; add_edges h sites thr vertex r q'
  end.

(** exploreEdge: the target becomes explored, edges to it are dropped *)
Definition explore (q : search) (v : Z) : search :=
  mkSearch (q_fast q) (q_slow q) (q_cur q) (q_seen q ++ [v]) (filter (fun e => negb (e_dst e =? v)) (q_front q)).

(** the loop 42-61 *)
Fixpoint basin_loop (fuel : nat) (nonce : Z) (i : nat) (h : heap) (b : explorer) (sites : sites_t) (q : search)
  : res (list Z) :=
  match q_front q with
  | [] => Ok (u_verts nonce (q_seen q))
  | e :: r =>
      match fuel with
      | O => Bad Diverged
      | S f =>
          let v := e_dst (u_next nonce i e r) in
          q' <-! add_edges h sites (b_threshold b) v (u_order nonce i (edges_of h sites v)) (explore q v);
          if b_max b <? Z.of_nat (length (q_seen q')) then Ok []
          else basin_loop f nonce (S i) h b sites q'
      end
  end.

(** findBasin 16-63 *)
Definition find_basin (fuel : nat) (nonce : Z) (h : heap) (b : explorer) (sites : sites_t) (clusters : clusters_t) (k : Z)
  : res (list Z) :=
  fast <-! ask (sc_getFastest h k) sites;
  part <-! ask (sc_partOfCluster k) sites;
  slow <-! (if part : bool then
              cid <-! ask (sc_getClusterId k) sites;
              c <-! ask (cc_getCluster cid) clusters;
              Ok (c_fastestOff h c)
            else Ok fast);
  q <-! add_edges h sites (b_threshold b) k (u_order nonce 0 (edges_of h sites k)) (mkSearch fast slow fast [k] []);
  basin_loop fuel nonce 1 h b sites q.

(** ** Crossing times *)
(** convertSitesOutgoingRatesToTimeSharedWeightedEdges 74-91 *)
Definition time_edges (h : heap) (sites : sites_t) (ids : list Z) : list edge :=
  flat_map (fun k => map (fun na => (k, fst na, ndiv n1 (h (snd na)))) (uget [] k (rates_of sites))) ids.

(** convertSitesToEmptySharedNodes, graph_library_adapter.cpp:9-20: every id once *)
Fixpoint nodes_of (ids : list Z) : list Z :=
  match ids with
  | [] => []
  | k :: r => k :: filter (fun j => negb (j =? k)) (nodes_of r)
  end.

(** The smaller of two distances, None = no path *)
Definition dmin (a b : option num) : option num :=
  match a, b with
  | Some x, Some y => Some (if nltb y x then y else x)
  | Some x, None => Some x
  | None, y => y
  end.
(** length of the shortest walk of at most [n] edges from [i] to [j] through
    the given nodes, added up from the start *)
Fixpoint dist (n : nat) (nodes : list Z) (edges : list edge) (i j : Z) : option num :=
  match n with
  | O => if i =? j then Some n0 else None
  | S n' =>
      fold_left (fun acc e =>
        if (e_dst e =? j) && existsb (Z.eqb (e_src e)) nodes then
          match dist n' nodes edges i (e_src e) with
          | Some d => dmin acc (Some (nadd d (snd e)))
          | None => acc
          end
        else acc) edges (dist n' nodes edges i j)
  end.
(** maxMinimumDistanceBetweenEveryVertex: shortest paths have fewer edges than
    there are nodes *)
Definition pair_times (nonce : Z) (nodes : list Z) (edges : list edge) : list num :=
  flat_map (fun i => flat_map (fun j =>
    if i =? j then []
    else match dist (length nodes) nodes edges i j with
         | Some d => [d]
         | None => match u_far nonce i j with Some d => [d] | None => [] end
         end) nodes) nodes.
(** getInternalTimeLimit_, coarsegrainsystem.cpp:397-422 *)
Definition internal_limit (nonce : Z) (h : heap) (sites : sites_t) (ids : list Z) : num :=
  fold_left (fun m t => if nltb m t then t else m)
            (pair_times nonce (nodes_of ids) (time_edges h sites ids)) n0.
End Basin.
