(** * C56, C57: visit queries

    A program is a list of calls ([act], SystemRuns.v); [exec clk] runs it and
    returns the system and the walkers inside it, or nothing if a call does not
    return.  [without_queries] drops the calls of getVisitFrequencyOfSite
    (QuerySpec.v). *)
From Coq Require Import ZArith List Bool Floats Permutation Lia.
From Verif Require Import Base BaseProofs Num F64 WalkerModel SiteModel ClusterModel ContainerModel BasinModel
  SystemModel SystemSpec SystemShape SystemProofs SystemRuns QuerySpec SystemQuery PropSystem.
Import ListNotations.
Open Scope Z_scope.

(** ** C56 *)
(** Two programs that make the same calls apart from visit queries, any number of
    them anywhere, and that both run to the end: the same walkers are in the
    system, on the same sites, with the same targets and dwell times, in the same
    clusters.  For every arithmetic and every unordered_map that places keys
    independently of the values. *)
Theorem C56_queries_leave_simulation :
  forall (I : Impl) (N : Num) (G : Rng) (U : Ugly) (clk : Z -> Z) (walkers : umap walker) (h : heap) (count tick : Z)
         (l l' : list act) (g g' : world) (ws ws' : list Z),
    keys_only -> without_queries l = without_queries l' ->
    exec clk l (world_new walkers h count tick, []) = Some (g, ws) ->
    exec clk l' (world_new walkers h count tick, []) = Some (g', ws') ->
    ws = ws' /\ same_but_visits g g'.
Proof.
  intros I N G U clk walkers h count tick l l' g g' ws ws' K Hq E E'.
  destruct (exec_twin K clk l l' _ _ _ _ _ Hq (twin_refl _) E E') as [Hw Ht]. split; [exact Hw|exact (twin_same _ _ Ht)].
Qed.
Print Assumptions C56_queries_leave_simulation.

Lemma keys_impl0 : @keys_only impl0.
Proof. intros V W f m k v. cbn. unfold vmap. rewrite map_app. reflexivity. Qed.
(** three hops in a cluster, without queries and with one after each *)
Definition quiet1 : list (@act fz) := setup1 ++ [AHop 20 0 10; AThr inf_iterations; AHop 20 0 10; AHop 20 0 10; AHop 20 0 10].
Definition curious1 : list (@act fz) :=
  setup1 ++ [AHop 20 0 10; AThr inf_iterations; AHop 20 0 10; AVisits 1; AHop 20 0 10; AVisits 1; AHop 20 0 10; AVisits 2].
Example C56_nonvacuous :
  @keys_only impl0 /\ without_queries quiet1 = without_queries curious1 /\
  exists (g g' : world) (ws ws' : list Z), @exec impl0 fz rh uz cz quiet1 start1 = Some (g, ws) /\
    @exec impl0 fz rh uz cz curious1 start1 = Some (g', ws') /\ listedf g 0 1 /\ listedf g 0 2 /\ ws = [10; 20].
Proof.
  split; [exact keys_impl0|]. split; [reflexivity|].
  exists (final1 quiet1), (final1 curious1), (inside1 quiet1), (inside1 curious1).
  split; [apply runs_exec; vm_compute; reflexivity|]. split; [apply runs_exec; vm_compute; reflexivity|].
  split; [listing|]. split; [listing|]. vm_compute; reflexivity.
Qed.

(** ** C57 *)
(** Full statement: what getVisitFrequencyOfSite reports does not depend on which
    visit queries were made before.  Proved: as long as nothing else happens in
    between, whichever sites are asked for, each answer is the one given before
    the other queries.  Missing: queries made earlier, see the refutation. *)
Theorem C57_query_again_partial :
  forall (I : Impl) (N : Num) (G : Rng) (U : Ugly) (g g1 : world) (j k u v : Z),
    sys_getVisits j g = Ret u g1 -> visits g k v -> visits g1 k v.
Proof. intros I N G U g g1 j k u v. exact (visits_again j k g u v g1). Qed.
Print Assumptions C57_query_again_partial.
(** counts of a cluster with hops that are not spread over its sites yet *)
Example C57_nonvacuous :
  exists (g g1 : @world fz rh), reachf g [10; 20] /\ @sys_getVisits impl0 fz rh 1 g = Ret 2 g1 /\ @visits impl0 fz rh g 2 2 /\ listedf g 0 1 /\ listedf g 0 2.
Proof.
  exists (final1 quiet1). assert (V : @visits impl0 fz rh (final1 quiet1) 1 2) by (apply visits_by; vm_compute; reflexivity).
  destruct V as [g1 E]. exists g1. split.
  - assert (Ei : inside1 quiet1 = [10; 20]) by (vm_compute; reflexivity). rewrite <- Ei. apply reach1. vm_compute. reflexivity.
  - split; [exact E|]. split; [apply visits_by; vm_compute; reflexivity|]. split; listing.
Qed.
(** A program that asks after every hop sees other counts in the end: the count of
    site 2 stays at 1 instead of growing to 2, because the share of each single hop
    is rounded down to nothing. *)
Theorem C57_earlier_queries_refuted :
  exists (l l' : list (@act fz)) (g g' : @world fz rh) (ws : list Z),
    without_queries l = without_queries l' /\
    @exec impl0 fz rh uz cz l start1 = Some (g, ws) /\ @exec impl0 fz rh uz cz l' start1 = Some (g', ws) /\
    @visits impl0 fz rh g 2 2 /\ @visits impl0 fz rh g' 2 1.
Proof.
  exists quiet1, curious1, (final1 quiet1), (final1 curious1), [10; 20].
  assert (E1 : inside1 quiet1 = [10; 20]) by (vm_compute; reflexivity). assert (E2 : inside1 curious1 = [10; 20]) by (vm_compute; reflexivity).
  split; [reflexivity|]. split; [rewrite <- E1; apply runs_exec; vm_compute; reflexivity|].
  split; [rewrite <- E2; apply runs_exec; vm_compute; reflexivity|]. split; apply visits_by; vm_compute; reflexivity.
Qed.
Print Assumptions C57_earlier_queries_refuted.
