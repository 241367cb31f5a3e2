(** * C36, C37, C44, C45: thresholds and initialisation *)
From Coq Require Import ZArith List Bool Reals Lra Floats Permutation Lia.
From Verif Require Import Base BaseProofs Num F64 RSum WalkerModel SiteModel SiteSpec SiteProofs ClusterModel ContainerModel
  BasinModel SystemModel SystemSpec SystemShape SystemProofs SystemFacts SystemControl SystemInit SystemRuns SystemLong PropSystem.
Import ListNotations.
Open Scope Z_scope.

Lemma by_inv {I : Impl} {N : Num} {G : Rng} {U : Ugly} clk tr g ws : reach_by clk tr g ws -> inv g ws.
Proof. intros R. apply (reach_inv clk). exists tr. exact R. Qed.

(** ** C36 *)
(** Full statement: after setMinCoarseGrainIterationThreshold(inf_iterations)
    the clusters never change, and hop keeps working.  Proved: the clusters
    never change, however many calls follow, as long as the threshold is not
    set again.  Missing: hop keeps working; it does not (next theorem). *)
Theorem C36_no_cluster_partial :
  forall (I : Impl) (N : Num) (G : Rng) (U : Ugly) (clk : Z -> Z) (g g1 g2 : world) (ws ws2 : list Z) (tr : list call),
    reach clk g ws -> sys_setThreshold inf_iterations g = Ret tt g1 -> steps clk g1 ws tr g2 ws2 -> no_thr tr ->
    forall c k, listed g2 c k <-> listed g c k.
Proof.
  intros I N G U clk g g1 g2 ws ws2 tr R E S Ht.
  assert (V1 : inv g1 ws) by (eapply (step_inv clk g ws (KThr inf_iterations)); [exact (reach_inv clk _ _ R)|apply st_thr, E]).
  intros c k. inversion E; subst. exact (off_listed clk _ _ _ _ _ V1 eq_refl S Ht c k).
Qed.
Print Assumptions C36_no_cluster_partial.
Definition calls_off : list (@act fz) := calls2 ++ [AThr inf_iterations].
(** a system that has created two clusters, switched off and used further *)
Example C36_no_cluster_nonvacuous :
  let g := final1 calls2 in
  exists (g1 g2 : world) (ws2 : list Z), reachf g [10; 20]
    /\ @sys_setThreshold fz rh inf_iterations g = Ret tt g1
    /\ @steps impl0 fz rh uz cz g1 [10; 20] [KHop 10; KHop 20; KHop 10] g2 ws2 /\ no_thr (N := fz) [KHop 10; KHop 20; KHop 10]
    /\ listedf g2 0 1 /\ listedf g2 2 3.
Proof.
  exists (final1 calls_off), (final1 (calls_off ++ [AHop 20 0 10; AHop 20 1 20; AHop 20 0 10])), [10; 20].
  split; [apply (reach1 calls2); vm_compute; reflexivity|]. split; [apply final_thr; vm_compute; reflexivity|].
  split; [|split; [reflexivity|split; listing]].
  assert (X : run1 (calls_off ++ [AHop 20 0 10; AHop 20 1 20; AHop 20 0 10]) start1 = true) by (vm_compute; reflexivity).
  apply (runs_steps cz calls_off) in X. assert (E1 : inside1 calls_off = [10; 20]) by (vm_compute; reflexivity).
  assert (E2 : inside1 (calls_off ++ [AHop 20 0 10; AHop 20 1 20; AHop 20 0 10]) = [10; 20]) by (vm_compute; reflexivity).
  rewrite E1, E2 in X. exact X.
Qed.

Lemma start_two thr : (thr = [] \/ thr = [AThr inf_iterations]) ->
  let t := match thr with [] => 1000 | _ => inf_iterations end in
  exists g, @reach_by impl0 fz rT uz cz (map call_of (setupT thr)) g [10] /\ two g 0 t t.
Proof.
  intros Ht. cbv zeta. exists (@final impl0 fz rT uz cz (setupT thr) startT). split.
  - assert (R : @runs impl0 fz rT uz cz (setupT thr) startT = true) by (destruct Ht as [->| ->]; vm_compute; reflexivity).
    assert (E : @inside impl0 fz rT uz cz (setupT thr) startT = [10]) by (destruct Ht as [->| ->]; vm_compute; reflexivity).
    rewrite <- E. apply (@runs_reach_by impl0 fz rT uz cz [(10, wz 1)] heapT 0 0); [repeat constructor; cbn; tauto|lia|exact R].
  - exists true, 1, 0, 2. destruct Ht as [->| ->].
    + vm_cast_no_check (eq_refl (W true 0 1000 1000 1 0 2)).
    + vm_cast_no_check (eq_refl (W true 0 inf_iterations inf_iterations 1 0 2)).
Qed.
Lemma reach_more tr g ws tr' g' ws' : @reach_by impl0 fz rT uz cz tr g ws -> stepsT g ws tr' g' ws' ->
  @reach_by impl0 fz rT uz cz (tr ++ tr') g' ws'.
Proof.
  intros (m & h & c & t & A & B & S) S'. exists m, h, c, t. split; [exact A|]. split; [exact B|]. eapply steps_app; eauto.
Qed.
(** Coarse graining is switched off before the sites are made; one walker hops
    between two sites.  After 2^31 - 1 hops the next one overflows the int
    that counts hops. *)
Theorem C36_long_run_refuted :
  exists (tr : list (@call fz)) (g : world) (ws : list Z),
    @reach_by impl0 fz rT uz cz (map call_of (setupT [AThr inf_iterations]) ++ tr) g ws
    /\ (forall c, In c tr -> c = KHop 10) /\ hops tr = 2 ^ 31 - 1 /\ In 10 ws
    /\ hopT 20 0 10 g = Halt Undefined.
Proof.
  destruct (start_two [AThr inf_iterations] (or_intror eq_refl)) as (g0 & R0 & T0). cbv zeta in T0.
  destruct (wait_two INT_MAX ltac:(unfold INT_MAX; lia) g0 0 inf_iterations inf_iterations T0) as (tr & g & S & T & O & Hh);
    [lia|unfold inf_iterations; lia|lia|].
  exists tr, g, [10]. split; [eapply reach_more; eauto|]. split; [apply Forall_forall, O|]. split; [exact Hh|].
  split; [left; reflexivity|]. exact (hop_overflow _ _ _ T).
Qed.
Print Assumptions C36_long_run_refuted.

(** ** C37 *)
(** The three counters of the system: hops since the last attempt, hops to wait,
    minimum.  A hop before the wait is over only counts.  Afterwards it makes an
    attempt (unless switched off) and starts counting again: a successful attempt
    puts a site into a cluster and resets the wait to the minimum, a failed one
    changes no cluster and doubles the wait. *)
Theorem C37_back_off :
  forall (I : Impl) (N : Num) (G : Rng) (U : Ugly) (clk : Z -> Z) (g g' : world) (ws : list Z) (fuel : nat) (id p : Z),
    reach clk g ws -> In p ws -> sys_hop clk fuel id p g = Ret tt g' ->
    g_thrmin g' = g_thrmin g
    /\ ((g_iter g < g_thr g /\ g_iter g' = g_iter g + 1 /\ g_thr g' = g_thr g /\ (forall c k, listed g' c k <-> listed g c k))
        \/ (g_thr g <= g_iter g /\ g_thrmin g = inf_iterations /\ g_iter g' = 0 /\ g_thr g' = g_thr g /\ (forall c k, listed g' c k <-> listed g c k))
        \/ (g_thr g <= g_iter g /\ g_thrmin g <> inf_iterations /\ g_iter g' = 0
            /\ ((g_thr g' = g_thrmin g /\ exists c k, listed g' c k /\ ~ listed g c k)
                \/ (g_thr g' = 2 * g_thr g /\ forall c k, listed g' c k <-> listed g c k)))).
Proof. intros I N G U clk g g' ws fuel id p R. apply hop_listed. exact (reach_inv clk _ _ R). Qed.
Print Assumptions C37_back_off.
(** no other call moves the counters, except setMinCoarseGrainIterationThreshold;
    [n] further hops before the wait is over leave all clusters alone *)
Theorem C37_waiting :
  forall (I : Impl) (N : Num) (G : Rng) (U : Ugly) (clk : Z -> Z) (g g' : world) (ws ws' : list Z) (tr : list call),
    reach clk g ws -> steps clk g ws tr g' ws' -> no_thr tr -> g_iter g + hops tr <= g_thr g ->
    g_iter g' = g_iter g + hops tr /\ g_thr g' = g_thr g /\ g_thrmin g' = g_thrmin g
    /\ (forall c k, listed g' c k <-> listed g c k).
Proof.
  intros I N G U clk g g' ws ws' tr R S Ht Hn. pose proof (reach_inv clk _ _ R) as V.
  destruct (wait_steps clk _ _ _ _ _ V S Ht Hn) as [C _]. injection C as C1 C2 C3.
  split; [exact C1|]. split; [exact C2|]. split; [exact C3|]. exact (wait_listed clk _ _ _ _ _ V S Ht Hn).
Qed.
Print Assumptions C37_waiting.
(** the minimum is the one last set, 1000 by default *)
Theorem C37_minimum :
  forall (I : Impl) (N : Num) (G : Rng) (U : Ugly) (clk : Z -> Z) (tr : list call) (g : world) (ws : list Z),
    reach_by clk tr g ws ->
    g_thrmin g = min_thr tr /\ (hops tr = 0 -> g_iter g = 0 /\ g_thr g = min_thr tr).
Proof.
  intros I N G U clk tr g ws R. split; [exact (min_kept clk _ _ _ R)|]. intros Hh.
  destruct (fresh_counts clk _ _ _ R Hh) as [C _]. injection C as C1 C2 _. auto.
Qed.
Print Assumptions C37_minimum.
(** in terms of clusters only: after a hop that changed the clusters, at least
    the minimum number of hops leave them alone *)
Theorem C37_after_success :
  forall (I : Impl) (N : Num) (G : Rng) (U : Ugly) (clk : Z -> Z) (tr tr' : list call) (g g1 g2 : world) (ws ws2 : list Z) (fuel : nat) (id p : Z),
    reach_by clk tr g ws -> In p ws -> sys_hop clk fuel id p g = Ret tt g1 ->
    (exists c k, listed g1 c k /\ ~ listed g c k) ->
    steps clk g1 ws tr' g2 ws2 -> no_thr tr' -> hops tr' <= min_thr tr ->
    forall c k, listed g2 c k <-> listed g1 c k.
Proof.
  intros I N G U clk tr tr' g g1 g2 ws ws2 fuel id p R Hp E Hs S Ht Hn.
  rewrite <- (min_kept clk _ _ _ R) in Hn.
  exact (after_success clk _ _ _ _ _ _ _ _ _ (by_inv clk _ _ _ R) Hp E Hs S Ht Hn).
Qed.
Print Assumptions C37_after_success.
(** Refuted part: the bookkeeping overflows.  With the default threshold and one
    walker hopping between two sites, every attempt fails; the twenty-second
    failure doubles 2097152000 beyond the int range. *)
Theorem C37_overflow_refuted :
  exists (tr : list (@call fz)) (g : world) (ws : list Z),
    @reach_by impl0 fz rT uz cz (map call_of (setupT []) ++ tr) g ws
    /\ (forall c, In c tr -> c = KHop 10) /\ In 10 ws
    /\ hopT 20 0 10 g = Halt Undefined.
Proof.
  destruct (start_two [] (or_introl eq_refl)) as (g0 & R0 & T0). cbv zeta in T0.
  destruct (periods_two 21 g0 1000 1000 T0) as (tr & g & S & T & O); [lia|vm_compute; discriminate|discriminate|].
  change (1000 * 2 ^ Z.of_nat 21) with 2097152000 in T.
  destruct (wait_two 2097152000 ltac:(lia) g 0 2097152000 1000 T) as (tr' & g' & S' & T' & O' & _); [lia|lia|unfold INT_MAX; lia|].
  cbn [Z.add] in T'. destruct (hop_fails _ _ _ _ T') as (g2 & _ & E); [lia|reflexivity|discriminate|].
  exists (tr ++ tr'), g', [10]. split; [eapply reach_more; [exact R0|eapply steps_app; eauto]|].
  split; [apply Forall_forall, Forall_app; auto|]. split; [left; reflexivity|exact E].
Qed.
Print Assumptions C37_overflow_refuted.
(** a hop that succeeds, one that fails, and one that only counts *)
Definition calls_wait : list (@act fz) :=
  [ARes (5%float : @num fz); AThr 1; AInit chain; AEnter [(0, 10); (1, 20)]; AHop 20 0 10].
Example C37_nonvacuous :
  run1 (calls_wait ++ [AHop 20 1 20; AHop 20 0 10; AHop 20 0 10]) start1 = true
  /\ counters (final1 calls_wait) = (1, 1, 1)
  /\ counters (final1 (calls_wait ++ [AHop 20 1 20])) = (0, 1, 1)
  /\ listedf (final1 (calls_wait ++ [AHop 20 1 20])) 0 3
  /\ counters (final1 (calls_wait ++ [AHop 20 1 20; AHop 20 0 10])) = (1, 1, 1)
  /\ existsb (fun _ => true) (@ukeys (@cluster fz rh) (g_clusters (final1 calls_wait))) = false
  /\ exists g, two g 5 5 1000 /\ exists g', hopT 20 0 10 g = Ret tt g' /\ counters g' = (0, 10, 1000).
Proof.
  split; [vm_compute; reflexivity|]. split; [vm_compute; reflexivity|]. split; [vm_compute; reflexivity|].
  split; [listing|]. split; [vm_compute; reflexivity|]. split; [vm_compute; reflexivity|].
  exists (W true 5 5 1000 0 0 0). assert (T : two (W true 5 5 1000 0 0 0) 5 5 1000) by (do 4 eexists; reflexivity).
  split; [exact T|]. destruct (hop_fails _ _ _ _ T) as (g1 & T1 & E); [lia|reflexivity|discriminate|].
  exists g1. split; [exact E|]. destruct (two_iter _ _ _ _ T1) as (A & B & C). unfold counters. rewrite A, B, C. reflexivity.
Qed.

(** ** C44 *)
(** Full statement: the errors below, and a call that throws changes nothing.
    Proved: the errors.  Missing: a call that throws changes nothing, which is
    true of the calls below but not of all (last theorem). *)
Theorem C44_resolution_first_partial :
  forall (I : Impl) (N : Num) (G : Rng) (U : Ugly) (clk : Z -> Z) (tr : list call) (g : world) (ws : list Z) (rates : umap (umap Z)),
    reach_by clk tr g ws -> existsb is_res tr = false ->
    sys_initializeSystem clk rates g = Thr RuntimeError g /\ sys_getTimeResolution g = Thr RuntimeError g.
Proof.
  intros I N G U clk tr g ws rates R Hr. apply (res_set clk _ _ _ R) in Hr. split; [exact (init_refused clk rates g Hr)|].
  unfold sys_getTimeResolution, bind, gets. rewrite Hr. reflexivity.
Qed.
Print Assumptions C44_resolution_first_partial.
Theorem C44_resolution_positive_partial :
  forall (G : @Rng XR) (g : @world XR G) (t : R),
    ((t <= 0)%R -> sys_setTimeResolution (Fin t : @num XR) g = Thr InvalidArgument g)
    /\ ((0 < t)%R -> exists g', sys_setTimeResolution (Fin t : @num XR) g = Ret tt g'
                      /\ sys_getTimeResolution g' = Ret (Fin t : @num XR) g').
Proof.
  intros G g t. unfold sys_setTimeResolution. split; intros Ht.
  - assert (X : nleb (Fin t : @num XR) n0 = true).
    { cbn. unfold xleb, xltb, xeqb, Rltb, Reqb. destruct (Rlt_dec t 0); [reflexivity|]. destruct (Req_EM_T t 0); [reflexivity|lra]. }
    rewrite X. reflexivity.
  - assert (X : nleb (Fin t : @num XR) n0 = false).
    { cbn. unfold xleb, xltb, xeqb, Rltb, Reqb. destruct (Rlt_dec t 0); [lra|]. destruct (Req_EM_T t 0); [lra|reflexivity]. }
    rewrite X. eexists. split; reflexivity.
Qed.
Print Assumptions C44_resolution_positive_partial.
Theorem C44_walkers_after_sites_partial :
  forall (I : Impl) (N : Num) (G : Rng) (U : Ugly) (clk : Z -> Z) (tr : list call) (g : world) (ws : list Z) (l : list (Z * Z)),
    reach_by clk tr g ws -> existsb is_init tr = false -> sys_initializeWalkers l g = Thr RuntimeError g.
Proof.
  intros I N G U clk tr g ws l R Hi. exact (walkers_refused l g ws (by_inv clk _ _ _ R) (no_sites clk _ _ _ R Hi)).
Qed.
Print Assumptions C44_walkers_after_sites_partial.
(** an unplaced walker, or one on a site that is not part of the system *)
Theorem C44_bad_walker_partial :
  forall (I : Impl) (N : Num) (G : Rng) (U : Ugly) (clk : Z -> Z) (g : world) (ws : list Z) (id p : Z) (w : walker),
    reach clk g ws -> ulookup p (g_walkers g) = Some w -> w_cur w = unassignedId \/ ~ knows g (w_cur w) ->
    (forall l, sys_initializeWalkers ((id, p) :: l) g = Thr RuntimeError g)
    /\ (forall l g', In (id, p) l -> sys_initializeWalkers l g <> Ret tt g').
Proof.
  intros I N G U clk g ws id p w R Ew Hw. pose proof (reach_inv clk _ _ R) as V. split.
  - intros l. exact (enter_refused id p g ws w l V Ew Hw).
  - intros l g' Hin E. destruct (entered_known l g ws g' V E id p Hin) as (k & (w' & Ew' & <-) & Nk & Kk).
    assert (w' = w) by congruence. subst w'. destruct Hw; contradiction.
Qed.
Print Assumptions C44_bad_walker_partial.
Theorem C44_seed_first_partial :
  forall (I : Impl) (N : Num) (G : Rng) (U : Ugly) (clk : Z -> Z) (g : world) (ws : list Z) (s k : Z),
    reach clk g ws -> knows g k -> sys_setRandomSeed s g = Thr RuntimeError g.
Proof. intros I N G U clk g ws s k R. exact (seed_refused s g ws k (reach_inv clk _ _ R)). Qed.
Print Assumptions C44_seed_first_partial.

Definition world3 : @world fz rh := world_new [(10, wz 1); (11, wz unassignedId); (12, wz 77)] heap1 0 0.
Definition calls_init : list (@act fz) := [ARes (5%float : @num fz); AInit chain].
Definition final3 (l : list (@act fz)) : @world fz rh := @final impl0 fz rh uz cz l (world3, []).
Lemma reach3 l : run1 l (world3, []) = true -> @inside impl0 fz rh uz cz l (world3, []) = [] ->
  @reach_by impl0 fz rh uz cz (map call_of l) (final3 l) [].
Proof.
  intros R E. rewrite <- E. apply (@runs_reach_by impl0 fz rh uz cz [(10, wz 1); (11, wz unassignedId); (12, wz 77)] heap1 0 0 l); [|lia|exact R].
  repeat constructor; cbn; intuition lia.
Qed.
Example C44_nonvacuous :
  @reach_by impl0 fz rh uz cz [] (final3 []) [] /\ existsb (is_res (N := fz)) [] = false /\ existsb (is_init (N := fz)) [] = false
  /\ @reach_by impl0 fz rh uz cz [KRes (5%float : @num fz); KInit chain] (final3 calls_init) []
  /\ walker_on (final3 calls_init) 11 unassignedId /\ walker_on (final3 calls_init) 12 77 /\ ~ knows (final3 calls_init) 77
  /\ knows (final3 calls_init) 1.
Proof.
  split; [apply (reach3 []); reflexivity|]. split; [reflexivity|]. split; [reflexivity|].
  split; [apply (reach3 calls_init); vm_compute; reflexivity|].
  split; [exists (wz unassignedId); split; [vm_cast_no_check (eq_refl (Some (wz unassignedId)))|reflexivity]|].
  split; [on|]. split.
  - intros [c Hc]. apply cluster_of_iff in Hc. destruct Hc as (s & Es & _). revert Es.
    assert (X : umem 77 (g_sites (final3 calls_init)) = false) by (vm_compute; reflexivity).
    apply umem_false_lookup in X. rewrite X. discriminate.
  - exists unassignedId. apply cluster_by. vm_compute. reflexivity.
Qed.
Definition left_by {S A} (d : S) (o : outcome S A) : S := match o with Thr _ s => s | _ => d end.
Definition thrown {S A} (o : outcome S A) (e : exn) : bool :=
  match o, e with Thr RuntimeError _, RuntimeError | Thr InvalidArgument _, InvalidArgument => true | _, _ => false end.
Lemma thrown_by {S A} (o : outcome S A) e d : thrown o e = true -> o = Thr e (left_by d o).
Proof. destruct o as [? ?|[] ?|?], e; try discriminate; reflexivity. Qed.
(** initializeWalkers throws for the second walker, and the first walker's site
    stays occupied; initializeSystem throws for a site it knows already, and
    leaves the new sites of the map behind *)
Theorem C44_atomic_refuted :
  exists (g g' g'' : @world fz rh) (tr : list (@call fz)), @reach_by impl0 fz rh uz cz tr g []
    /\ @sys_initializeWalkers impl0 fz rh [(0, 10); (1, 11)] g = Thr RuntimeError g'
    /\ taken (N := fz) (G := rh) g 1 false /\ taken (N := fz) (G := rh) g' 1 true
    /\ @sys_initializeSystem impl0 fz rh cz [(8, [(1, 0)]); (1, [(8, 0)])] g = Thr InvalidArgument g''
    /\ sys_getVisits (I := impl0) (N := fz) (G := rh) 8 g = Thr InvalidArgument g /\ visits (I := impl0) (N := fz) (G := rh) g'' 8 0.
Proof.
  exists (final3 calls_init), (left_by world3 (@sys_initializeWalkers impl0 fz rh [(0, 10); (1, 11)] (final3 calls_init))),
    (left_by world3 (@sys_initializeSystem impl0 fz rh cz [(8, [(1, 0)]); (1, [(8, 0)])] (final3 calls_init))), (map call_of calls_init).
  split; [apply (reach3 calls_init); vm_compute; reflexivity|].
  split; [apply thrown_by; vm_compute; reflexivity|].
  split; [apply taken_by; vm_compute; reflexivity|]. split; [apply taken_by; vm_compute; reflexivity|].
  split; [apply thrown_by; vm_compute; reflexivity|].
  split; [apply unknown_visits, umem_false_lookup; vm_compute; reflexivity|]. apply visits_by. vm_compute. reflexivity.
Qed.
Print Assumptions C44_atomic_refuted.

(** ** C45 *)
(** The known sites afterwards are the ones known before and the keys and
    targets of the map; the latter are new, free, unclustered and unvisited. *)
Theorem C45_registered :
  forall (I : Impl) (N : Num) (G : Rng) (U : Ugly) (clk : Z -> Z) (g g' : world) (ws : list Z) (rates : umap (umap Z)),
    reach clk g ws -> NoDup (ukeys rates) -> sys_initializeSystem clk rates g = Ret tt g' ->
    (forall k, knows g' k <-> knows g k \/ mentioned rates k)
    /\ (forall k, mentioned rates k -> ~ knows g k /\ taken g' k false /\ cluster_of g' k unassignedId /\ visits g' k 0)
    /\ (forall k, ~ knows g' k -> sys_getVisits k g' = Thr InvalidArgument g').
Proof. intros I N G U clk g g' ws rates R. exact (registers clk rates g ws g' (reach_inv clk _ _ R)). Qed.
Print Assumptions C45_registered.
(** before the first initializeSystem no site is known *)
Theorem C45_none_before :
  forall (I : Impl) (N : Num) (G : Rng) (U : Ugly) (clk : Z -> Z) (tr : list call) (g : world) (ws : list Z),
    reach_by clk tr g ws -> existsb is_init tr = false -> forall k, ~ knows g k.
Proof.
  intros I N G U clk tr g ws R Hi k [c Hc]. apply cluster_of_iff in Hc. destruct Hc as (s & Es & _).
  rewrite (no_sites clk _ _ _ R Hi) in Es. discriminate.
Qed.
Print Assumptions C45_none_before.
(** a key's hop probabilities are its rates divided by their sum ([reads],
    SiteSpec.v) *)
Theorem C45_probabilities :
  forall (I : Impl) (G : @Rng XR) (U : @Ugly XR) (clk : Z -> Z) (g g' : @world XR G) (ws : list Z) (rates : umap (umap Z)),
    reach clk g ws -> NoDup (ukeys rates) -> sys_initializeSystem clk rates g = Ret tt g' ->
    forall k r, In (k, r) rates -> good_rates (g_heap g) r ->
      exists s, ulookup k (g_sites g') = Some s /\ reads (g_heap g') r s.
Proof. intros I G U clk g g' ws rates R. exact (init_reads clk rates g ws g' (reach_inv clk _ _ R)). Qed.
Print Assumptions C45_probabilities.
(** with finite positive rates, a time resolution and new sites, it returns *)
Theorem C45_returns :
  forall (I : Impl) (G : @Rng XR) (U : @Ugly XR) (clk : Z -> Z) (tr : list call) (g : @world XR G) (ws : list Z) (rates : umap (umap Z)),
    reach_by clk tr g ws -> existsb is_res tr = true -> NoDup (ukeys rates) ->
    (forall k r, In (k, r) rates -> good_rates (g_heap g) r) -> (forall k, mentioned rates k -> ~ knows g k) ->
    exists g', sys_initializeSystem clk rates g = Ret tt g'.
Proof.
  intros I G U clk tr g ws rates R Hr. apply (init_ok clk rates g ws (by_inv clk _ _ _ R)).
  intros X. apply (res_set clk _ _ _ R) in X. congruence.
Qed.
Print Assumptions C45_returns.

Local Definition hx : @heap XR := fun a => if a =? 0 then Fin 100 else Fin 1.
Local Definition rx : umap (umap Z) := [(1, [(2, 0)]); (2, [(1, 0); (3, 1)])].
Local Definition cx : @Rng XR := {| eng := unit; eseed := fun _ => tt; edraw := fun _ => (Fin (1 / 2) : @num XR, tt) |}.
Local Definition ux : @Ugly XR := {|
  u_order := fun _ _ l => l; u_order_perm := fun _ _ l => Permutation_refl l;
  u_next := fun _ _ e _ => e; u_next_in := fun _ _ e l => or_introl eq_refl;
  u_verts := fun _ l => l; u_verts_perm := fun _ l => Permutation_refl l;
  u_far := fun _ _ _ => None |}.
(** site 3 is a drain *)
Example C45_nonvacuous :
  exists (g : @world XR cx), @reach_by impl0 XR cx ux (fun t => t) [KRes (Fin 5 : @num XR)] g []
    /\ existsb (is_res (N := XR)) [KRes (Fin 5 : @num XR)] = true /\ existsb (is_init (N := XR)) [KRes (Fin 5 : @num XR)] = false
    /\ NoDup (ukeys rx) /\ (forall k r, In (k, r) rx -> good_rates (g_heap g) r)
    /\ mentioned rx 3 /\ ~ In 3 (ukeys rx).
Proof.
  exists (g_with_res (Some (Fin 5 : @num XR)) (world_new [] hx 0 0)). split; [|split; [reflexivity|split; [reflexivity|split; [|split; [|split]]]]].
  - exists [], hx, 0, 0. split; [constructor|]. split; [lia|].
    apply (sts_step (fun t => t) (world_new [] hx 0 0) [] [] (world_new [] hx 0 0) [] (KRes (Fin 5 : @num XR)) _ []); [constructor|].
    apply st_res. unfold sys_setTimeResolution.
    assert (X : nleb (Fin 5 : @num XR) n0 = false).
    { cbn. unfold xleb, xltb, xeqb, Rltb, Reqb. destruct (Rlt_dec 5 0); [lra|]. destruct (Req_EM_T 5 0); [lra|reflexivity]. }
    rewrite X. reflexivity.
  - repeat constructor; cbn; intuition lia.
  - intros k r [E|[E|[]]]; inversion E; subst; (split; [discriminate|split; [repeat constructor; cbn; intuition lia|]]).
    + intros n a [E'|[]]; inversion E'; subst. exists 100%R. split; [reflexivity|lra].
    + intros n a [E'|[E'|[]]]; inversion E'; subst; [exists 100%R|exists 1%R]; (split; [reflexivity|lra]).
  - right. exists 2, [(1, 0); (3, 1)]. cbn. auto.
  - cbn. intuition lia.
Qed.
