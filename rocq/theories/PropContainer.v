(** * C49: the containers behave as finite maps *)
From Coq Require Import ZArith List Bool.
From Verif Require Import Base Num BaseProofs SiteModel ClusterModel ContainerModel ContainerSpec ContainerProofs.
Import ListNotations.
Open Scope Z_scope.

(** Full claim for Site_Container: every history of calls, from an empty
    container, gives the answers of a finite map ([sspec]).  Missing: queries of
    the smallest cluster id that name an unknown site, see
    [C49_smallest_query_refuted]. *)
Theorem C49_site_container_partial :
  forall (I : Impl) (N : Num) (G : Rng) (ops : list sop),
    asks_known [] ops ->
    exists f, runs sspec none ops (fst (exec sc_do ops [])) f
      /\ NoDup (ukeys (snd (exec sc_do ops []))) /\ forall k, ulookup k (snd (exec sc_do ops [])) = f k.
Proof. intros I N G ops Hk. exact (sites_history ops [] none content_empty Hk). Qed.
Print Assumptions C49_site_container_partial.

(** a history with a duplicate, an unknown id and every kind of change *)
Example C49_site_container_nonvacuous :
  forall (I : Impl) (N : Num) (G : Rng) (h : heap),
  let s := s_with_id (Some 3) (site_new 0) in
  let ops := [SAdd s; SAdd s; SGet 4; SOccupy 3; SIsOccupied 3; SSetCluster 3 8; SSmallest (fun _ => 0) [3; 3]; SExist 4] in
  asks_known [] ops
  /\ fst (exec sc_do ops []) =
     [Ok Done; Err InvalidArgument; Err InvalidArgument; Ok Done; Ok (ABool true); Ok Done; Ok (AInt 8); Ok (ABool false)].
Proof.
  intros I N G h s ops.
  assert (E : sc_do (SAdd s) [] = Ret Done [(3, s)]).
  { cbn [sc_do]; unfold fmap, bind; rewrite (add_first s 3 eq_refl); reflexivity. }
  split; unfold ops.
  - cbn [asks_known]; rewrite E.
    repeat (split; [first [exact Logic.I | intros k [<-|[<-|[]]]; left; reflexivity]|]); exact Logic.I.
  - rewrite (exec_ok _ _ _ _ _ _ E); reflexivity.
Qed.

(** Asking for the smallest cluster id of an unknown site is a query, yet it
    adds a site to the container instead of throwing. *)
Theorem C49_smallest_query_refuted :
  forall (I : Impl) (N : Num) (G : Rng),
    exists (clock : nat -> Z) (k : Z) (m m' : sites_t) c,
      ulookup k m = None /\ sc_getSmallestClusterId clock [k] m = Ret c m' /\ m' <> m /\ In k (ukeys m').
Proof.
  intros I N G. exists (fun _ => 0), 5, [].
  exists [(5, site_new 0)], unassignedId.
  split; [reflexivity|].
  split; [|split; [discriminate|left; reflexivity]].
  unfold sc_getSmallestClusterId; cbn [sc_smallest length]; unfold bind, modify; cbn [umem ulookup].
  rewrite uset_first; reflexivity.
Qed.
Print Assumptions C49_smallest_query_refuted.

(** addSites keeps the sites before the first duplicate although the call throws. *)
Theorem C49_batch_add_refuted :
  forall (I : Impl) (N : Num) (G : Rng),
    exists (l : list site) (m m' : sites_t),
      sc_addSites l m = Thr InvalidArgument m' /\ m' <> m.
Proof.
  intros I N G. pose (s := s_with_id (Some 3) (site_new 0)).
  exists [s; s], [], [(3, s)].
  split; [|discriminate].
  unfold sc_addSites; cbn [mfor]; unfold bind at 1; rewrite (add_first s 3 eq_refl); reflexivity.
Qed.
Print Assumptions C49_batch_add_refuted.

(** Cluster_Container: every history of calls gives the answers of a finite map. *)
Theorem C49_cluster_container :
  forall (I : Impl) (N : Num) (G : Rng) (ops : list cop),
    exists f, runs cspec none ops (fst (exec cc_do ops [])) f
      /\ NoDup (ukeys (snd (exec cc_do ops []))) /\ forall k, ulookup k (snd (exec cc_do ops [])) = f k.
Proof. intros I N G ops. exact (clusters_history ops [] none content_empty). Qed.
Print Assumptions C49_cluster_container.

Example C49_cluster_container_nonvacuous :
  forall (I : Impl) (N : Num) (G : Rng),
  let c := cluster_new 3 0 in
  let ops := [CAdd c; CAdd c; CGet 4; COccupy 3; CIsOccupied 3; CErase 3; CErase 3; CExist 3] in
  fst (exec cc_do ops []) =
     [Ok CDone; Err InvalidArgument; Err InvalidArgument; Ok CDone; Ok (CBool true); Ok CDone; Ok CDone; Ok (CBool false)].
Proof.
  intros I N G c ops.
  assert (E : cc_do (CAdd c) [] = Ret CDone [(3, c)]).
  { cbn [cc_do]; unfold fmap, bind; rewrite (cadd_first c); reflexivity. }
  unfold ops; rewrite (exec_ok _ _ _ _ _ _ E); reflexivity.
Qed.
