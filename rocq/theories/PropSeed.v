(** * C41: seeded runs are reproducible

    A program is a list of calls ([act], SystemRuns.v); [exec clk] runs it with a
    clock that returns [clk n] at its n-th reading, and returns the system, with
    everything in it, and the walkers inside it, or nothing if a call does not
    return. *)
From Coq Require Import ZArith List Bool Floats Permutation Lia.
From Verif Require Import Base BaseProofs Num F64 WalkerModel SiteModel ClusterModel ContainerModel BasinModel
  SystemModel SystemSpec SystemShape SystemProofs SystemRuns SeedSpec SystemSeed PropSystem.
Import ListNotations.
Open Scope Z_scope.

(** ** C41 *)
(** Full statement: after setRandomSeed two runs of a program agree whatever
    the clock returns.  Proved: the two runs end in the same state (walkers,
    dwell times, sites, clusters, counters, engines) or both fail to return, for
    programs that set the seed before initializeSystem and whose rate maps give
    every site outgoing rates.  With other sites it is false, see below. *)
Theorem C41_seeded_runs_agree_partial :
  forall (I : Impl) (N : Num) (G : Rng) (U : Ugly) (clk1 clk2 : Z -> Z) (walkers : umap walker) (h : heap) (count tick : Z) (l : list act),
    NoDup (ukeys walkers) -> 0 <= count -> seeds_first l -> no_drains l ->
    exec clk1 l (world_new walkers h count tick, []) = exec clk2 l (world_new walkers h count tick, []).
Proof.
  intros I N G U clk1 clk2 walkers h count tick l ND Hc Hs Hd. apply exec_agree; [|right; reflexivity| |exact Hd].
  - apply (reach_inv clk1). exists [], walkers, h, count, tick. split; [exact ND|]. split; [exact Hc|constructor].
  - intros l1 r l2 E. right. apply (Hs l1 r l2 E).
Qed.
Print Assumptions C41_seeded_runs_agree_partial.

(** ** A program and an engine that meet the hypotheses *)
(** draws depend on the seed *)
Definition r_seed : @Rng fz := @Build_Rng fz Z (fun s => s)
  (fun e => (((if Z.even e then 0.5 else 0.25)%float : @num fz), e + 2)).
Definition start_s : @world fz r_seed * list Z := (world_new [(10, wz 1); (20, wz 3)] heap1 0 0, []).
Definition seed_s : list (@act fz) := [ASeed 7].
Definition calls_s : list (@act fz) :=
  [ARes (5%float : @num fz); AThr 0; AInit chain; AEnter [(0, 10); (1, 20)]; AHop 20 0 10; AHop 20 1 20].
Definition dwells (g : @world fz r_seed) : list (@num fz) := map (fun e => w_dwell (snd e)) (g_walkers g).
Definition even_clock : Z -> Z := fun n => 2 * n.
Definition odd_clock : Z -> Z := fun n => 2 * n + 1.
Definition same_dwells (a b : list (@num fz)) : bool :=
  (fix go (a b : list (@num fz)) := match a, b with [], [] => true | x :: a', y :: b' => PrimFloat.eqb x y && go a' b' | _, _ => false end) a b.

Example C41_nonvacuous :
  seeds_first (seed_s ++ calls_s) /\ no_drains (seed_s ++ calls_s)
  /\ @runs impl0 fz r_seed uz even_clock (seed_s ++ calls_s) start_s = true
  /\ length (g_clusters (@final impl0 fz r_seed uz even_clock (seed_s ++ calls_s) start_s)) = 2%nat.
Proof.
  split; [|split; [|split; vm_compute; reflexivity]].
  - intros l1 r l2 E. exists 7. destruct l1; [discriminate|]. inversion E; subst. left; reflexivity.
  - intros r Hr k Hk. assert (r = chain) by (cbn in Hr; repeat (destruct Hr as [Hr|Hr]; [discriminate|]) || idtac;
      repeat match goal with H : _ \/ _ |- _ => destruct H | H : False |- _ => destruct H end; congruence). subst r.
    destruct Hk as [Hk|(k' & r & Hk' & Hk)]; [exact Hk|].
    cbn in Hk'. repeat (destruct Hk' as [Hk'|Hk']; [inversion Hk'; subst; cbn in Hk |- *; tauto|]). destruct Hk'.
Qed.

(** The seed matters: without it the clock decides the dwell times. *)
Example C41_unseeded_differs :
  @runs impl0 fz r_seed uz even_clock calls_s start_s = true /\ @runs impl0 fz r_seed uz odd_clock calls_s start_s = true
  /\ same_dwells (dwells (@final impl0 fz r_seed uz even_clock calls_s start_s))
                 (dwells (@final impl0 fz r_seed uz odd_clock calls_s start_s)) = false.
Proof. vm_compute. repeat split. Qed.

(** ** Where it is false *)
(** ln of a C library at 0 *)
Definition ln0 (x : float) : float := if PrimFloat.eqb x 0%float then neg_infinity else PrimFloat.sub x 1%float.
Definition fl : Num := F64 ln0.
(** an engine whose first draw is 0 after the seed 0, as the uniform
    distribution on [0,1) allows, and 1/2 otherwise *)
Definition r_zero : @Rng fl := @Build_Rng fl Z (fun s => s) (fun e => ((if Z.eqb e 0 then 0%float else 0.5%float) : @num fl, 1)).
Definition u_fl : @Ugly fl := {|
  u_order := fun _ _ l => l; u_order_perm := fun _ _ l => Permutation_refl l;
  u_next := fun _ _ e _ => e; u_next_in := fun _ _ e l => or_introl eq_refl;
  u_verts := fun _ l => l; u_verts_perm := fun _ l => Permutation_refl l;
  u_far := fun _ _ _ => None |}.
Definition h_fl : @heap fl := fun _ => 1%float.
Definition start_d : @world fl r_zero * list Z := (world_new [(10, @mkWalker fl 1 unassignedId 0%float)] h_fl 0 0, []).
Definition calls_d : list (@act fl) :=
  [ASeed 7; ARes (5%float : @num fl); AInit [(1, [(2, 0)])]; AEnter [(0, 10)]; AHop 20 0 10].
Lemma nan_by (g1 g2 : @world fl r_zero) p :
  match ulookup p (g_walkers g1), ulookup p (g_walkers g2) with
  | Some w1, Some w2 => @isNaN fl (w_dwell w1) && negb (@isNaN fl (w_dwell w2)) | _, _ => false end = true ->
  exists w1 w2, ulookup p (g_walkers g1) = Some w1 /\ ulookup p (g_walkers g2) = Some w2
    /\ @isNaN fl (w_dwell w1) = true /\ @isNaN fl (w_dwell w2) = false.
Proof.
  destruct (ulookup p (g_walkers g1)) as [w1|], (ulookup p (g_walkers g2)) as [w2|]; try discriminate.
  intros E. apply andb_true_iff in E. destruct E as [E1 E2]. apply negb_true_iff in E2. exists w1, w2. auto.
Qed.
(** A site that only appears as a target gets no seed: its engine is seeded
    from the clock, and the dwell time of a walker that hops onto it is not a
    number when the first draw is 0. *)
Theorem C41_drain_refuted :
  exists (I : Impl) (N : Num) (G : Rng) (U : Ugly) (clk1 clk2 : Z -> Z) (walkers : umap walker) (h : heap) (l : list act),
    seeds_first l /\ NoDup (ukeys walkers) /\
    exists g1 g2 ws, exec clk1 l (world_new walkers h 0 0, []) = Some (g1, ws) /\ exec clk2 l (world_new walkers h 0 0, []) = Some (g2, ws) /\
    exists p w1 w2, ulookup p (g_walkers g1) = Some w1 /\ ulookup p (g_walkers g2) = Some w2 /\ isNaN (w_dwell w1) = true /\ isNaN (w_dwell w2) = false.
Proof.
  exists impl0, fl, r_zero, u_fl, (fun _ => 0), (fun _ => 1), [(10, @mkWalker fl 1 unassignedId 0%float)], h_fl, calls_d.
  split; [intros l1 r l2 E; exists 7; destruct l1; [discriminate|]; inversion E; subst; left; reflexivity|].
  split; [repeat constructor; cbn; tauto|].
  exists (@final impl0 fl r_zero u_fl (fun _ => 0) calls_d start_d), (@final impl0 fl r_zero u_fl (fun _ => 1) calls_d start_d), [10].
  assert (R : forall clk, @runs impl0 fl r_zero u_fl clk calls_d start_d = true ->
     @inside impl0 fl r_zero u_fl clk calls_d start_d = [10] ->
     @exec impl0 fl r_zero u_fl clk calls_d start_d = Some (@final impl0 fl r_zero u_fl clk calls_d start_d, [10])).
  { intros clk R E. rewrite <- E. apply runs_exec, R. }
  split; [apply R; vm_compute; reflexivity|]. split; [apply R; vm_compute; reflexivity|].
  exists 10. apply nan_by. vm_compute. reflexivity.
Qed.
Print Assumptions C41_drain_refuted.

(** The ids of the clusters come from a counter of the process: a second
    simulation in the same process gives its clusters other ids. *)
Notation run_s count := (@final impl0 fz r_seed uz even_clock (seed_s ++ calls_s) (world_new [(10, wz 1); (20, wz 3)] heap1 count 0, [])).
Definition has_cluster (g : @world fz r_seed) (c : Z) : bool :=
  umem c (match @sys_getClusters impl0 fz r_seed g with Ret m _ => m | _ => [] end).
Lemma has_cluster_ok g c : has_cluster g c = true <-> @is_cluster impl0 fz r_seed g c.
Proof.
  unfold has_cluster, is_cluster, umem. destruct (ulookup c _); split; intros H; try discriminate; eauto. destruct H; discriminate.
Qed.
Theorem C41_second_run_refuted :
  exists (I : Impl) (N : Num) (G : Rng) (U : Ugly) (clk : Z -> Z) (walkers : umap walker) (h : heap) (l : list act),
    seeds_first l /\ no_drains l /\ NoDup (ukeys walkers) /\
    exists g1 ws1 c, exec clk l (world_new walkers h 0 0, []) = Some (g1, ws1) /\ is_cluster g1 c /\
    0 <= g_count g1 /\ exists g2 ws2, exec clk l (world_new walkers h (g_count g1) 0, []) = Some (g2, ws2) /\ ~ is_cluster g2 c.
Proof.
  exists impl0, fz, r_seed, uz, even_clock, [(10, wz 1); (20, wz 3)], heap1, (seed_s ++ calls_s).
  destruct C41_nonvacuous as (A & B & C & _). split; [exact A|]. split; [exact B|].
  split; [repeat constructor; cbn; intuition lia|].
  exists (run_s 0), (@inside impl0 fz r_seed uz even_clock (seed_s ++ calls_s) start_s), 0.
  assert (Eg : g_count (run_s 0) = 4) by (vm_compute; reflexivity). rewrite Eg.
  split; [apply runs_exec, C|]. split; [apply has_cluster_ok; vm_compute; reflexivity|]. split; [lia|].
  exists (run_s 4), (@inside impl0 fz r_seed uz even_clock (seed_s ++ calls_s) (world_new [(10, wz 1); (20, wz 3)] heap1 4 0, [])).
  split; [apply runs_exec; vm_compute; reflexivity|]. rewrite <- has_cluster_ok.
  assert (X : has_cluster (run_s 4) 0 = false) by (vm_compute; reflexivity). rewrite X. discriminate.
Qed.
Print Assumptions C41_second_run_refuted.
