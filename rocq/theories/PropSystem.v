(** * C30 to C34, C47: exclusion, hops, visits and clusters of the system

    All theorems are about every state a program can reach ([reach],
    SystemSpec.v): any rate map, any number of walkers, any schedule of calls
    that return, any arithmetic, hash order, random stream and clock, and any
    tie-breaking of the graph library. *)
From Coq Require Import ZArith List Bool Floats Permutation Lia.
From Verif Require Import Base BaseProofs Num F64 WalkerModel SiteModel ClusterModel ContainerModel ContainerSpec ContainerProofs
  BasinModel SystemModel SystemSpec SystemShape SystemHop SystemCoarse SystemMerge SystemProofs SystemFacts SystemRuns.
Import ListNotations.
Open Scope Z_scope.

(** ** Concrete programs *)
(** the chain 1 - 2 - 3 - 4 - 5 with fast pairs 1 - 2 and 3 - 4, a time
    resolution of 5 and coarse graining attempted at every hop; walker 10
    starts on site 1, walker 20 on site 3 *)
Definition heap1 : @heap fz := fun a =>
  if a =? 0 then 100%float else if a =? 1 then 1%float else 0.0001220703125%float.
Definition chain : umap (umap Z) :=
  [(1, [(2, 0)]); (2, [(1, 0); (3, 1)]); (3, [(2, 1); (4, 0)]); (4, [(3, 0); (5, 2)]); (5, [(4, 2)])].
Notation rh := (rz 0.5%float).
Definition start1 : @world fz rh * list Z := (world_new [(10, wz 1); (20, wz 3); (30, wz 1); (31, wz 5)] heap1 0 0, []).
Definition setup1 : list (@act fz) :=
  [ARes (5%float : @num fz); AThr 0; AInit chain; AEnter [(0, 10); (1, 20)]].
(** nothing clustered yet *)
Definition calls0 : list (@act fz) := setup1.
(** clusters {1, 2} and {3, 4} *)
Definition calls2 : list (@act fz) := setup1 ++ [AHop 20 0 10; AHop 20 1 20].
(** one cluster of four sites *)
Definition calls3 : list (@act fz) := calls2 ++ [AHop 20 0 10].
Notation reachf := (@reach impl0 fz rh uz cz).
Notation listedf := (@listed impl0 fz rh).
Notation hopf := (@sys_hop impl0 fz rh uz cz).
Notation run1 := (@runs impl0 fz rh uz cz).
Notation final1 l := (@final impl0 fz rh uz cz l start1).
Notation inside1 l := (@inside impl0 fz rh uz cz l start1).
Lemma reach1 l : run1 l start1 = true -> @reach impl0 fz rh uz cz (final1 l) (inside1 l).
Proof.
  intros R. apply (@runs_reach impl0 fz rh uz cz [(10, wz 1); (20, wz 3); (30, wz 1); (31, wz 5)] heap1 0 0 l); [|lia|exact R].
  repeat constructor; cbn; intuition lia.
Qed.
Definition label {N : Num} {G : Rng} (g : world) (k : Z) : Z :=
  match ulookup k (g_sites g) with Some s => s_cluster s | None => unassignedId end.
Definition place {N : Num} {G : Rng} (g : world) (p : Z) : Z * Z :=
  match ulookup p (g_walkers g) with Some w => (w_cur w, w_pot w) | None => (unassignedId, unassignedId) end.
Lemma place_on {N : Num} {G : Rng} (g : world) p a b : place g p = (a, b) -> a <> unassignedId ->
  walker_on g p a /\ walker_to g p b.
Proof.
  unfold place, walker_on, walker_to. destruct (ulookup p (g_walkers g)) as [w|]; intros E; inversion E; intros; [split; eauto|congruence].
Qed.

(** the calls return; what the states look like *)
Example programs :
  run1 calls0 start1 = true /\ run1 calls2 start1 = true /\ run1 calls3 start1 = true
  /\ map (place (final1 calls0)) [10; 20] = [(1, 2); (3, 4)] /\ map (label (final1 calls0)) [1; 2; 3; 4; 5] = repeat unassignedId 5
  /\ map (place (final1 calls2)) [10; 20] = [(2, 1); (4, 3)] /\ map (label (final1 calls2)) [1; 2; 3; 4; 5] = [0; 0; 2; 2; unassignedId]
  /\ map (place (final1 calls3)) [10; 20] = [(1, 3); (4, 3)] /\ map (label (final1 calls3)) [1; 2; 3; 4; 5] = [0; 0; 0; 0; unassignedId]
  /\ inside1 calls3 = [10; 20].
Proof. vm_compute. repeat split. Qed.

Lemma on_by {N : Num} {G : Rng} (g : world) p k : fst (place g p) = k -> k <> unassignedId -> walker_on g p k.
Proof. intros E Hk. destruct (place g p) as [a b] eqn:Ep. cbn in E. subst a. apply (place_on _ _ _ _ Ep Hk). Qed.
Lemma to_by {N : Num} {G : Rng} (g : world) p a k : place g p = (a, k) -> a <> unassignedId -> walker_to g p k.
Proof. intros E Hk. apply (place_on _ _ _ _ E Hk). Qed.
Ltac on := apply on_by; [vm_compute; reflexivity|discriminate].
Ltac goes := eapply to_by; [vm_compute; reflexivity|discriminate].
Lemma listed_by {I : Impl} {N : Num} {G : Rng} (g : world) c k l :
  ulookup c (match sys_getClusters g with Ret m _ => m | _ => [] end) = Some l -> existsb (Z.eqb k) l = true -> listed g c k.
Proof. intros E H. exists l. split; [exact E|apply in_ok, H]. Qed.
Ltac listing := eapply listed_by; vm_compute; reflexivity.
Lemma taken_by {N : Num} {G : Rng} (g : world) k b :
  match f_isOccupied k k g with Ret b' _ => Bool.eqb b' b | _ => false end = true -> taken g k b.
Proof.
  intros E. unfold taken. destruct (f_isOccupied k k g) as [b' g'|? ?|?]; try discriminate.
  apply Bool.eqb_prop in E. subst. eauto.
Qed.
Lemma cluster_by {N : Num} {G : Rng} (g : world) k c :
  match sys_getClusterId k g with Ret c' _ => c' =? c | _ => false end = true -> cluster_of g k c.
Proof.
  intros E. unfold cluster_of. destruct (sys_getClusterId k g) as [c' g'|? ?|?]; try discriminate.
  apply Z.eqb_eq in E. subst. eauto.
Qed.
Lemma visits_by {I : Impl} {N : Num} {G : Rng} (g : world) k v :
  match sys_getVisits k g with Ret v' _ => v' =? v | _ => false end = true -> visits g k v.
Proof.
  intros E. unfold visits. destruct (sys_getVisits k g) as [v' g'|? ?|?]; try discriminate.
  apply Z.eqb_eq in E. subst. eauto.
Qed.
Ltac labelled := apply cluster_by; vm_compute; reflexivity.
Definition is_ret {S A} (o : outcome S A) : bool := match o with Ret _ _ => true | _ => false end.
Definition state_of {S A} (d : S) (o : outcome S A) : S := match o with Ret _ s => s | _ => d end.
Lemma ret_by {S} (o : outcome S unit) d : is_ret o = true -> o = Ret tt (state_of d o).
Proof. destruct o as [[] ?|? ?|?]; try discriminate. reflexivity. Qed.

(** ** C30 *)
Theorem C30_exclusion :
  forall (I : Impl) (N : Num) (G : Rng) (U : Ugly) (clk : Z -> Z) (g : world) (ws : list Z),
    reach clk g ws ->
    forall p q k, In p ws -> In q ws -> walker_on g p k -> walker_on g q k -> p = q.
Proof. intros I N G U clk g ws R. exact (v_excl _ _ (reach_inv clk _ _ R)). Qed.
Print Assumptions C30_exclusion.

(** two walkers in a system that has created two clusters and merged them *)
Example C30_exclusion_nonvacuous :
  exists (g : world) (ws : list Z), reachf g ws
    /\ ws = [10; 20] /\ walker_on g 10 1 /\ walker_on g 20 4
    /\ listedf g 0 1 /\ listedf g 0 2 /\ listedf g 0 3 /\ listedf g 0 4.
Proof.
  exists (final1 calls3), (inside1 calls3). split; [apply reach1; vm_compute; reflexivity|].
  split; [vm_compute; reflexivity|]. split; [on|]. split; [on|]. repeat split; listing.
Qed.

(** ** C31 *)
Theorem C31_hop_blocked :
  forall (I : Impl) (N : Num) (G : Rng) (U : Ugly) (clk : Z -> Z) (g : world) (ws : list Z) (fuel : nat) (id p src dst : Z) (g' : world),
    reach clk g ws -> In p ws -> walker_on g p src -> walker_to g p dst ->
    sys_hop clk fuel id p g = Ret tt g' ->
    ((exists q, In q ws /\ q <> p /\ walker_on g q dst) -> walker_on g' p src)
    /\ (~ (exists q, In q ws /\ q <> p /\ walker_on g q dst) -> walker_on g' p dst).
Proof. intros I N G U clk g ws fuel id p src dst g' R. apply hop_blocked. exact (reach_inv clk _ _ R). Qed.
Print Assumptions C31_hop_blocked.

Theorem C31_occupied :
  forall (I : Impl) (N : Num) (G : Rng) (U : Ugly) (clk : Z -> Z) (g : world) (ws : list Z) (k : Z) (b : bool),
    reach clk g ws -> taken g k b -> (b = true <-> exists q, In q ws /\ walker_on g q k).
Proof. intros I N G U clk g ws k b R. apply taken_iff. exact (reach_inv clk _ _ R). Qed.
Print Assumptions C31_occupied.

(** in the merged cluster walker 20 moves to site 3; then walker 10, which
    wants to go there too, is blocked *)
Example C31_nonvacuous :
  exists (g g1 g2 : world) (ws ws1 : list Z), reachf g ws /\ reachf g1 ws1
    /\ In 20 ws /\ walker_on g 20 4 /\ walker_to g 20 3 /\ taken g 4 true /\ taken g 3 false
    /\ hopf 20%nat 1 20 g = Ret tt g1 /\ walker_on g1 20 3
    /\ In 10 ws1 /\ walker_on g1 10 1 /\ walker_to g1 10 3 /\ taken g1 3 true
    /\ hopf 20%nat 0 10 g1 = Ret tt g2 /\ walker_on g2 10 1.
Proof.
  set (l1 := calls3 ++ [AHop 20 1 20]). set (l2 := l1 ++ [AHop 20 0 10]).
  assert (R2 : run1 l2 start1 = true) by (vm_compute; reflexivity).
  assert (R1 : run1 l1 start1 = true) by (vm_compute; reflexivity).
  destruct (final_hop _ _ _ _ _ _ R1) as [H1 I1]. destruct (final_hop _ _ _ _ _ _ R2) as [H2 I2].
  exists (final1 calls3), (final1 l1), (final1 l2), (inside1 calls3), (inside1 l1).
  split; [apply reach1; vm_compute; reflexivity|]. split; [apply reach1, R1|].
  split; [exact I1|]. split; [on|]. split; [goes|].
  split; [apply taken_by; vm_compute; reflexivity|]. split; [apply taken_by; vm_compute; reflexivity|].
  split; [exact H1|]. split; [on|]. split; [exact I2|]. split; [on|]. split; [goes|].
  split; [apply taken_by; vm_compute; reflexivity|]. split; [exact H2|on].
Qed.

(** ** C32 *)
(** Placing a walker on a free site reserves it if the site is in no cluster,
    and everything said about reachable states holds on with one more walker.
    Missing: sites in clusters, see [C32_clustered_refuted]. *)
Theorem C32_placement_partial :
  forall (I : Impl) (N : Num) (G : Rng) (U : Ugly) (clk : Z -> Z) (g : world) (ws : list Z) (id p k : Z) (g' : world),
    reach clk g ws -> ~ In p ws -> walker_on g p k -> (forall q, In q ws -> ~ walker_on g q k) ->
    cluster_of g k unassignedId ->
    sys_initializeWalkers [(id, p)] g = Ret tt g' ->
    walker_on g' p k /\ taken g' k true /\ reach clk g' (p :: ws).
Proof. intros I N G U clk g ws id p k g'. exact (place_one clk g ws id p k g'). Qed.
Print Assumptions C32_placement_partial.

(** a third walker enters next to a cluster *)
Example C32_placement_nonvacuous :
  exists (g g' : world) (ws : list Z), reachf g ws /\ ws = [10; 20] /\ walker_on g 31 5
    /\ cluster_of g 5 unassignedId /\ listedf g 0 1 /\ @sys_initializeWalkers impl0 fz rh [(2, 31)] g = Ret tt g'.
Proof.
  exists (final1 calls3), (state_of (final1 calls3) (@sys_initializeWalkers impl0 fz rh [(2, 31)] (final1 calls3))), (inside1 calls3).
  split; [apply reach1; vm_compute; reflexivity|]. split; [vm_compute; reflexivity|]. split; [on|].
  split; [labelled|]. split; [listing|]. apply ret_by. vm_compute. reflexivity.
Qed.

(** A walker placed on a free site of a cluster does not reserve it: the next
    hop of another walker ends on the same site. *)
Theorem C32_clustered_refuted :
  exists (I : Impl) (N : Num) (G : Rng) (U : Ugly) (clk : Z -> Z) (g g1 g2 : world) (ws : list Z) (p q k : Z),
    reach clk g ws /\ ~ In p ws /\ In q ws /\ walker_on g p k /\ (forall r, In r ws -> ~ walker_on g r k)
    /\ sys_initializeWalkers [(2, p)] g = Ret tt g1 /\ sys_hop clk 20 0 q g1 = Ret tt g2
    /\ p <> q /\ walker_on g2 p k /\ walker_on g2 q k.
Proof.
  set (l := setup1 ++ [AHop 20 0 10]). set (o := @sys_initializeWalkers impl0 fz rh [(2, 30)] (final1 l)).
  set (g1 := state_of (final1 l) o). set (g2 := state_of g1 (hopf 20%nat 0 10 g1)).
  exists impl0, fz, rh, uz, cz, (final1 l), g1, g2, (inside1 l), 30, 10, 1.
  assert (Iw : inside1 l = [10; 20]) by (vm_compute; reflexivity).
  split; [apply reach1; vm_compute; reflexivity|].
  split; [rewrite Iw; cbn; intuition lia|]. split; [rewrite Iw; left; reflexivity|]. split; [on|].
  split. { rewrite Iw. intros r [<-|[<-|[]]] Hr.
    - assert (X : walker_on (final1 l) 10 2) by on. pose proof (walker_on_fun _ _ _ _ Hr X). lia.
    - assert (X : walker_on (final1 l) 20 3) by on. pose proof (walker_on_fun _ _ _ _ Hr X). lia. }
  split; [apply ret_by; vm_compute; reflexivity|]. split; [apply ret_by; vm_compute; reflexivity|].
  split; [lia|]. split; on.
Qed.
Print Assumptions C32_clustered_refuted.

(** ** C33 *)
Theorem C33_other_walkers :
  forall (I : Impl) (N : Num) (G : Rng) (U : Ugly) (clk : Z -> Z) (g : world) (ws : list Z) (fuel : nat) (id p : Z) (g' : world),
    reach clk g ws -> In p ws -> sys_hop clk fuel id p g = Ret tt g' ->
    forall q, q <> p -> ulookup q (g_walkers g') = ulookup q (g_walkers g).
Proof. intros I N G U clk g ws fuel id p g' R. apply hop_others. exact (reach_inv clk _ _ R). Qed.
Print Assumptions C33_other_walkers.

(** The visit frequency of a site that is in no cluster after the hop is one
    larger if it is the site the walker is on after the hop, and unchanged
    otherwise.  Without coarse graining that is every site. *)
Theorem C33_one_visit :
  forall (I : Impl) (N : Num) (G : Rng) (U : Ugly) (clk : Z -> Z) (g : world) (ws : list Z) (fuel : nat) (id p fin : Z) (g' : world),
    reach clk g ws -> In p ws -> sys_hop clk fuel id p g = Ret tt g' -> walker_on g' p fin ->
    forall k v, cluster_of g' k unassignedId -> visits g k v ->
      visits g' k (v + (if k =? fin then 1 else 0)).
Proof. intros I N G U clk g ws fuel id p fin g' R. apply hop_one_visit. exact (reach_inv clk _ _ R). Qed.
Print Assumptions C33_one_visit.

(** a hop from 1 to 2 with coarse graining switched off *)
Example C33_nonvacuous :
  exists (g g' : world) (ws : list Z), reachf g ws /\ In 10 ws /\ In 20 ws
    /\ hopf 20%nat 0 10 g = Ret tt g' /\ walker_on g' 10 2
    /\ (forall k, In k [1; 2; 3; 4; 5] -> cluster_of g' k unassignedId)
    /\ @visits impl0 fz rh g 1 1 /\ @visits impl0 fz rh g 2 0 /\ @visits impl0 fz rh g' 1 1 /\ @visits impl0 fz rh g' 2 1.
Proof.
  set (l := [ARes (5%float : @num fz); AThr inf_iterations; AInit chain; AEnter [(0, 10); (1, 20)]] : list (@act fz)).
  set (l1 := l ++ [AHop 20 0 10]).
  assert (R1 : run1 l1 start1 = true) by (vm_compute; reflexivity).
  destruct (final_hop _ _ _ _ _ _ R1) as [H1 I1].
  exists (final1 l), (final1 l1), (inside1 l). split; [apply reach1; vm_compute; reflexivity|].
  split; [exact I1|]. split; [vm_compute; auto|]. split; [exact H1|]. split; [on|].
  split; [intros k Hk; cbn [In] in Hk; repeat (destruct Hk as [<-|Hk]; [labelled|]); destruct Hk|].
  repeat split; apply visits_by; vm_compute; reflexivity.
Qed.

(** ** C34 *)
Theorem C34_one_cluster :
  forall (I : Impl) (N : Num) (G : Rng) (U : Ugly) (clk : Z -> Z) (g : world) (ws : list Z) (k c c' : Z),
    reach clk g ws -> listed g c k -> listed g c' k -> c = c'.
Proof. intros I N G U clk g ws k c c' R. apply (listed_once g ws). exact (reach_inv clk _ _ R). Qed.
Print Assumptions C34_one_cluster.

Theorem C34_two_sites :
  forall (I : Impl) (N : Num) (G : Rng) (U : Ugly) (clk : Z -> Z) (g : world) (ws : list Z) (c : Z),
    reach clk g ws -> is_cluster g c -> exists i j, i <> j /\ listed g c i /\ listed g c j.
Proof. intros I N G U clk g ws c R. apply (listed_two g ws). exact (reach_inv clk _ _ R). Qed.
Print Assumptions C34_two_sites.

(** Full claim: getClusterIdOfSite(k) = c exactly when k is listed under c.
    Proved: if c is a cluster; and a listed site reports the cluster it is
    listed under or an id that is no cluster any more.  Missing: that the
    latter does not happen, see [C34_label_refuted]. *)
Theorem C34_label_partial :
  forall (I : Impl) (N : Num) (G : Rng) (U : Ugly) (clk : Z -> Z) (g : world) (ws : list Z) (k c : Z),
    reach clk g ws ->
    (cluster_of g k c -> is_cluster g c -> listed g c k)
    /\ (listed g c k -> exists c', cluster_of g k c' /\ c' <> unassignedId /\ (c' = c \/ ~ is_cluster g c')).
Proof. intros I N G U clk g ws k c R. apply (label_listed g ws). exact (reach_inv clk _ _ R). Qed.
Print Assumptions C34_label_partial.

(** Ids of clusters that are gone never come back. *)
Theorem C34_ids_not_reused :
  forall (I : Impl) (N : Num) (G : Rng) (U : Ugly) (clk : Z -> Z) (g g1 g2 : world) (ws ws1 ws2 : list Z) (tr tr1 : list call) (c : Z),
    reach clk g ws -> steps clk g ws tr g1 ws1 -> steps clk g1 ws1 tr1 g2 ws2 ->
    is_cluster g c -> ~ is_cluster g1 c -> ~ is_cluster g2 c.
Proof. intros I N G U clk g g1 g2 ws ws1 ws2 tr tr1 c R. apply (ids_once clk). exact (reach_inv clk _ _ R). Qed.
Print Assumptions C34_ids_not_reused.

Theorem C34_stay_together :
  forall (I : Impl) (N : Num) (G : Rng) (U : Ugly) (clk : Z -> Z) (g g' : world) (ws ws' : list Z) (tr : list call) (c i j : Z),
    reach clk g ws -> steps clk g ws tr g' ws' -> listed g c i -> listed g c j ->
    exists c', listed g' c' i /\ listed g' c' j.
Proof. intros I N G U clk g g' ws ws' tr c i j R. apply (stay_together clk). exact (reach_inv clk _ _ R). Qed.
Print Assumptions C34_stay_together.

(** two clusters; then one of them is gone and its sites are in the other *)
Example C34_nonvacuous :
  exists (g g' : world) (ws ws' : list Z), reachf g ws /\ @steps impl0 fz rh uz cz g ws [KHop 10] g' ws'
    /\ listedf g 0 1 /\ listedf g 0 2 /\ listedf g 2 3 /\ listedf g 2 4 /\ cluster_of g 3 2
    /\ listedf g' 0 1 /\ listedf g' 0 3 /\ listedf g' 0 4 /\ cluster_of g' 3 0 /\ ~ @is_cluster impl0 fz rh g' 2.
Proof.
  exists (final1 calls2), (final1 calls3), (inside1 calls2), (inside1 calls3).
  split; [apply reach1; vm_compute; reflexivity|].
  split; [apply (runs_steps cz calls2 [AHop 20 0 10]); vm_compute; reflexivity|].
  split; [listing|]. split; [listing|]. split; [listing|]. split; [listing|]. split; [labelled|].
  split; [listing|]. split; [listing|]. split; [listing|]. split; [labelled|].
  intros [l E]. assert (X : ulookup 2 (match @sys_getClusters impl0 fz rh (final1 calls3) with Ret m _ => m | _ => [] end) = None)
    by (vm_compute; reflexivity). congruence.
Qed.

(** A program with a small performance ratio, on rates that are positive,
    mutual and never change: a basin covers a part of a cluster, which is
    absorbed; the other sites of it keep the old id. *)
Definition heap2 : @heap fz := fun a =>
  if a =? 0 then 100%float else if a =? 1 then 1%float else if a =? 2 then 2%float else if a =? 3 then 10%float else 0.125%float.
Definition ladder : umap (umap Z) :=
  [(1, [(2, 0)]); (2, [(1, 0); (3, 3)]); (3, [(2, 2); (4, 1)]); (4, [(3, 0); (5, 0)]); (5, [(4, 0); (6, 4)]); (6, [(5, 4)])].
Definition start2 : @world fz rh * list Z := (world_new [(10, wz 1); (20, wz 5)] heap2 0 0, []).
Definition calls4 : list (@act fz) :=
  [APerf (0.015625%float : @num fz); ARes (5%float : @num fz); AThr 0; AInit ladder; AEnter [(0, 10); (1, 20)];
   AHop 200 0 10; AHop 200 1 20; AHop 200 0 10].
Notation final2 l := (@final impl0 fz rh uz cz l start2).
Notation inside2 l := (@inside impl0 fz rh uz cz l start2).
Lemma reach2 l : run1 l start2 = true -> reachf (final2 l) (inside2 l).
Proof.
  intros R. apply (@runs_reach impl0 fz rh uz cz [(10, wz 1); (20, wz 5)] heap2 0 0 l); [|lia|exact R].
  repeat constructor; cbn; intuition lia.
Qed.
Theorem C34_label_refuted :
  exists (I : Impl) (N : Num) (G : Rng) (U : Ugly) (clk : Z -> Z) (g : world) (ws : list Z) (k c c' : Z),
    reach clk g ws /\ listed g c k /\ cluster_of g k c' /\ c' <> c /\ ~ is_cluster g c'.
Proof.
  exists impl0, fz, rh, uz, cz, (final2 calls4), (inside2 calls4), 4, 0, 2.
  split; [apply reach2; vm_compute; reflexivity|]. split; [listing|]. split; [labelled|]. split; [lia|].
  intros [l E]. assert (X : ulookup 2 (match @sys_getClusters impl0 fz rh (final2 calls4) with Ret m _ => m | _ => [] end) = None)
    by (vm_compute; reflexivity). congruence.
Qed.
Print Assumptions C34_label_refuted.

(** ** C47 *)
(** The id chosen for a map from sites to cluster ids is the smallest assigned
    one ([smallest], ContainerSpec.v), whatever the order. *)
Theorem C47_smallest :
  forall (sac : umap Z), smallest (map snd sac) (favored sac).
Proof. intros sac. exact (favored_smallest sac). Qed.
Print Assumptions C47_smallest.

Theorem C47_any_order :
  forall (sac sac' : umap Z), Permutation sac sac' -> favored sac = favored sac'.
Proof. intros sac sac'. exact (favored_perm sac sac'). Qed.
Print Assumptions C47_any_order.

(** In the system: after any call, the cluster [e] that now lists a site of
    cluster [c] has an id not above [c], was a cluster before, and still lists
    all its own sites. *)
Theorem C47_survivor :
  forall (I : Impl) (N : Num) (G : Rng) (U : Ugly) (clk : Z -> Z) (g g' : world) (ws ws' : list Z) (a : call) (c e k : Z),
    reach clk g ws -> step clk g ws a g' ws' -> listed g c k -> listed g' e k ->
    e <= c /\ is_cluster g e /\ forall j, listed g e j -> listed g' e j.
Proof. intros I N G U clk g g' ws ws' a c e k R. apply (survivor clk). exact (reach_inv clk _ _ R). Qed.
Print Assumptions C47_survivor.

(** clusters 0 and 2 become cluster 0; of 7, 3 and 5 the smallest is 3 *)
Example C47_nonvacuous :
  favored [(1, 7); (2, unassignedId); (3, 3); (4, 5)] = 3
  /\ exists (g g' : world) (ws ws' : list Z), reachf g ws /\ @step impl0 fz rh uz cz g ws (KHop 10) g' ws'
       /\ listedf g 2 3 /\ listedf g 0 1 /\ listedf g' 0 3.
Proof.
  split; [reflexivity|].
  assert (R : run1 (calls2 ++ [AHop 20 0 10]) start1 = true) by (vm_compute; reflexivity).
  destruct (final_hop _ _ _ _ _ _ R) as [H1 I1].
  exists (final1 calls2), (final1 calls3), (inside1 calls2), (inside1 calls2).
  split; [apply reach1; vm_compute; reflexivity|]. split; [exact (st_hop cz _ _ _ _ _ _ I1 H1)|].
  split; [listing|]. split; listing.
Qed.
