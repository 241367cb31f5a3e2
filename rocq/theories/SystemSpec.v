(** * What a client of CoarseGrainSystem can do and observe *)
From Coq Require Import ZArith List Bool Relations.
From Verif Require Import Base Num WalkerModel SiteModel ClusterModel ContainerModel BasinModel SystemModel.
Import ListNotations.
Open Scope Z_scope.

Section Spec.
Context {I : Impl} {N : Num} {G : Rng} {U : Ugly}.

(** ** Observations *)
(** walker [p] says it occupies site [k] *)
Definition walker_on (g : world) (p k : Z) : Prop :=
  exists w, ulookup p (g_walkers g) = Some w /\ w_cur w = k.
(** walker [p] wants to go to site [k] *)
Definition walker_to (g : world) (p k : Z) : Prop :=
  exists w, ulookup p (g_walkers g) = Some w /\ w_pot w = k.
(** site [k] is listed under cluster [c] in getClusters *)
Definition listed (g : world) (c k : Z) : Prop :=
  exists l, ulookup c (match sys_getClusters g with Ret m _ => m | _ => [] end) = Some l /\ In k l.
(** [c] is a key of getClusters *)
Definition is_cluster (g : world) (c : Z) : Prop :=
  exists l, ulookup c (match sys_getClusters g with Ret m _ => m | _ => [] end) = Some l.
(** getClusterIdOfSite *)
Definition cluster_of (g : world) (k c : Z) : Prop :=
  exists g', sys_getClusterId k g = Ret c g'.

(** getVisitFrequencyOfSite *)
Definition visits (g : world) (k v : Z) : Prop :=
  exists g', sys_getVisits k g = Ret v g'.
(** site [k] counts as occupied when a hop to it is considered *)
Definition taken (g : world) (k : Z) (b : bool) : Prop :=
  exists g', f_isOccupied k k g = Ret b g'.

(** ** Client actions *)
(** the calls a program makes; walkers are named by their address *)
Inductive call :=
| KPerf (p : num) | KRes (t : num) | KThr (t : Z) | KSeed (s : Z) | KInit (rates : umap (umap Z))
| KRates     (* the program changes rates *)
| KWalkers   (* the program creates, changes or deletes walkers that are not in the system *)
| KElsewhere (* other clusters are created elsewhere in the program; time passes *)
| KEnter (l : list (Z * Z)) | KHop (p : Z) | KLeave (p : Z) | KVisits (k : Z).

(** [step clk g ws c g' ws'] : call [c] returned, made by a program with the
    walkers [ws] in the system, which are in [ws'] afterwards. *)
Inductive step (clk : Z -> Z) (g : world) (ws : list Z) : call -> world -> list Z -> Prop :=
| st_perf p g' : sys_setPerformanceRatio p g = Ret tt g' -> step clk g ws (KPerf p) g' ws
| st_res t g' : sys_setTimeResolution t g = Ret tt g' -> step clk g ws (KRes t) g' ws
| st_thr t g' : sys_setThreshold t g = Ret tt g' -> step clk g ws (KThr t) g' ws
| st_seed s g' : sys_setRandomSeed s g = Ret tt g' -> step clk g ws (KSeed s) g' ws
| st_init rates g' : NoDup (ukeys rates) -> (forall k r, In (k, r) rates -> NoDup (ukeys r)) ->
    sys_initializeSystem clk rates g = Ret tt g' -> step clk g ws (KInit rates) g' ws
| st_rates h : step clk g ws KRates (g_with_heap h g) ws
| st_walkers m : NoDup (ukeys m) -> (forall p, In p ws -> ulookup p m = ulookup p (g_walkers g)) ->
    step clk g ws KWalkers (g_with_walkers m g) ws
| st_elsewhere n t : g_count g <= n -> step clk g ws KElsewhere (g_with_tick t (g_with_count n g)) ws
(** walkers that are not in the system yet enter it, on distinct, free and
    unclustered sites *)
| st_enter l g' :
    NoDup (map snd l) -> (forall p, In p (map snd l) -> ~ In p ws) ->
    (forall p q k, In p (map snd l) -> In q (map snd l) -> walker_on g p k -> walker_on g q k -> p = q) ->
    (forall p q k, In p (map snd l) -> In q ws -> walker_on g p k -> ~ walker_on g q k) ->
    (forall p k, In p (map snd l) -> walker_on g p k -> cluster_of g k unassignedId) ->
    sys_initializeWalkers l g = Ret tt g' -> step clk g ws (KEnter l) g' (map snd l ++ ws)
| st_hop fuel id p g' : In p ws -> sys_hop clk fuel id p g = Ret tt g' -> step clk g ws (KHop p) g' ws
| st_leave id p g' : In p ws -> sys_removeWalker clk id p g = Ret tt g' ->
    step clk g ws (KLeave p) g' (remove Z.eq_dec p ws)
| st_visits k v g' : sys_getVisits k g = Ret v g' -> step clk g ws (KVisits k) g' ws.

(** any number of calls, and which *)
Inductive steps (clk : Z -> Z) (g : world) (ws : list Z) : list call -> world -> list Z -> Prop :=
| sts_refl : steps clk g ws [] g ws
| sts_step tr g1 ws1 c g2 ws2 : steps clk g ws tr g1 ws1 -> step clk g1 ws1 c g2 ws2 -> steps clk g ws (tr ++ [c]) g2 ws2.

(** every state of a program that uses one system, after the calls [tr] *)
Definition reach_by (clk : Z -> Z) (tr : list call) (g : world) (ws : list Z) : Prop :=
  exists walkers h count tick, NoDup (ukeys walkers) /\ 0 <= count /\
    steps clk (world_new walkers h count tick) [] tr g ws.
Definition reach (clk : Z -> Z) (g : world) (ws : list Z) : Prop := exists tr, reach_by clk tr g ws.

(** ** Which calls *)
Definition is_hop (c : call) : bool := match c with KHop _ => true | _ => false end.
Definition is_thr (c : call) : bool := match c with KThr _ => true | _ => false end.
Definition is_res (c : call) : bool := match c with KRes _ => true | _ => false end.
Definition is_init (c : call) : bool := match c with KInit _ => true | _ => false end.
Definition no_thr (tr : list call) : Prop := forallb (fun c => negb (is_thr c)) tr = true.
(** number of hops *)
Definition hops (tr : list call) : Z := Z.of_nat (length (filter is_hop tr)).
(** the last minimum threshold, 1000 if none was set *)
Definition min_thr (tr : list call) : Z := fold_left (fun m c => match c with KThr t => t | _ => m end) tr 1000.

(** ** Sites *)
(** [k] is a site of the system *)
Definition knows (g : world) (k : Z) : Prop := exists c, cluster_of g k c.
(** [k] is a key or a target of the rate map *)
Definition mentioned (rates : umap (umap Z)) (k : Z) : Prop :=
  In k (ukeys rates) \/ exists k' r, In (k', r) rates /\ In k (ukeys r).
End Spec.
