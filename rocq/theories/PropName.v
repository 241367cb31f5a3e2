(** * C77: the ids of walkers are only names

    A program is a list of calls ([act], SystemRuns.v); [exec clk] runs it and
    returns the system and the walkers inside it, or nothing if a call does not
    return.  [rename f] replaces the walker ids in a call, [same_answers] says
    that no query tells two systems apart (NameSpec.v). *)
From Coq Require Import ZArith List Bool Floats Permutation Lia.
From Verif Require Import Base BaseProofs Num F64 WalkerModel SiteModel ClusterModel ContainerModel BasinModel
  SystemModel SystemSpec SystemShape SystemProofs SystemRuns QuerySpec SystemQuery NameSpec SystemName PropSystem PropQuery.
Import ListNotations.
Open Scope Z_scope.

(** A program and the same program with other ids for its walkers, different
    ones for walkers with different ids: either both run to the end, with the
    same walkers in the system and the same answers to every query, or neither
    does.  For every arithmetic, engine, clock and explorer and every
    unordered_map that places keys independently of the values. *)
Theorem C77_ids_are_names :
  forall (I : Impl) (N : Num) (G : Rng) (U : Ugly) (clk : Z -> Z) (walkers : umap walker) (h : heap) (count tick : Z)
         (f : Z -> Z) (l : list act),
    keys_only -> distinct_names f l ->
    match exec clk l (world_new walkers h count tick, []), exec clk (map (rename f) l) (world_new walkers h count tick, []) with
    | Some (g, ws), Some (g', ws') => ws' = ws /\ same_answers g g'
    | None, None => True
    | _, _ => False
    end.
Proof.
  intros I N G U clk walkers h count tick f l K Hf.
  pose proof (exec_both K f (fun i => In i (flat_map ids_of l)) Hf clk l _ _ [] (fun i H => H) (pair_new _ _ walkers h count tick)) as H.
  destruct (exec clk l _) as [[g ws]|], (exec clk (map (rename f) l) _) as [[g' ws']|]; try exact H.
  destruct H as [E H]. split; [exact E|]. apply (pair_answers _ _ _ _ H).
Qed.
Print Assumptions C77_ids_are_names.

(** A call made after the two programs ends in the same way in both: it
    returns, throws the same exception or fails in the same way. *)
Theorem C77_same_failures :
  forall (I : Impl) (N : Num) (G : Rng) (U : Ugly) (clk : Z -> Z) (walkers : umap walker) (h : heap) (count tick : Z)
         (f : Z -> Z) (l : list act) (a : act) (g g' : world) (ws ws' : list Z),
    keys_only -> distinct_names f (l ++ [a]) ->
    exec clk l (world_new walkers h count tick, []) = Some (g, ws) ->
    exec clk (map (rename f) l) (world_new walkers h count tick, []) = Some (g', ws') ->
    outcome_of clk (rename f a) g' = outcome_of clk a g.
Proof.
  intros I N G U clk walkers h count tick f l a g g' ws ws' K Hf E E'.
  set (D := fun i => In i (flat_map ids_of (l ++ [a]))).
  assert (Hl : forall i, In i (flat_map ids_of l) -> D i) by (intros i Hi; unfold D; rewrite flat_map_app; apply in_or_app; left; exact Hi).
  pose proof (exec_both K f D Hf clk l _ _ [] Hl (pair_new _ _ walkers h count tick)) as H. rewrite E, E' in H.
  destruct H as [_ H]. apply (outcome_both K f D Hf clk a); [|exact H].
  intros i Hi. unfold D. rewrite flat_map_app. apply in_or_app. right. cbn. rewrite app_nil_r. exact Hi.
Qed.
Print Assumptions C77_same_failures.

(** two walkers that end up in one cluster of four sites; draws are all 1/4 *)
Notation rq := (rz 0.25%float).
Definition start77 : @world fz rq * list Z := (world_new [(10, wz 1); (20, wz 3); (30, wz 1); (31, wz 5)] heap1 0 0, []).
Definition calls77 : list (@act fz) := setup1 ++ [AHop 20 0 10; AHop 20 1 20; AHop 20 0 10; AHop 20 1 20].
Notation final77 l := (@final impl0 fz rq uz cz l start77).
Example C77_nonvacuous :
  @keys_only impl0 /\ distinct_names (fun i => 7 - 3 * i) calls77 /\
  map (rename (fun i => 7 - 3 * i)) calls77 <> calls77 /\
  exists (g g' : @world fz rq), @exec impl0 fz rq uz cz calls77 start77 = Some (g, [10; 20]) /\
    @exec impl0 fz rq uz cz (map (rename (fun i => 7 - 3 * i)) calls77) start77 = Some (g', [10; 20]) /\
    @listed impl0 fz rq g 0 1 /\ @listed impl0 fz rq g 0 3 /\ walker_to g' 20 1.
Proof.
  split; [exact keys_impl0|]. split; [intros i j _ _ E; lia|]. split; [discriminate|].
  exists (final77 calls77), (final77 (map (rename (fun i => 7 - 3 * i)) calls77)).
  assert (E1 : @inside impl0 fz rq uz cz calls77 start77 = [10; 20]) by (vm_compute; reflexivity).
  assert (E2 : @inside impl0 fz rq uz cz (map (rename (fun i => 7 - 3 * i)) calls77) start77 = [10; 20]) by (vm_compute; reflexivity).
  split; [rewrite <- E1; apply runs_exec; vm_compute; reflexivity|].
  split; [rewrite <- E2; apply runs_exec; vm_compute; reflexivity|].
  split; [listing|]. split; [listing|]. goes.
Qed.
(** a call that is undefined behaviour in both: the hop of a null pointer *)
Example C77_failures_nonvacuous :
  distinct_names (fun i => 7 - 3 * i) (calls77 ++ [AHop 20 0 40]) /\
  @outcome_of impl0 fz rq uz cz (AHop 20 0 40) (final77 calls77) = Stops Undefined.
Proof. split; [intros i j _ _ E; lia|]. vm_compute. reflexivity. Qed.

(** Ids are not ignored: if two walkers are given the same id, the one that
    comes to a cluster second goes on with the stay of the first, and is sent
    to another site. *)
Theorem C77_shared_ids_refuted :
  exists (f : Z -> Z) (l : list (@act fz)) (g g' : @world fz rq) (ws : list Z),
    @exec impl0 fz rq uz cz l start77 = Some (g, ws) /\ @exec impl0 fz rq uz cz (map (rename f) l) start77 = Some (g', ws) /\
    walker_to g 20 1 /\ walker_to g' 20 3.
Proof.
  exists (fun _ => 0), calls77, (final77 calls77), (final77 (map (rename (fun _ => 0)) calls77)), [10; 20].
  assert (E1 : @inside impl0 fz rq uz cz calls77 start77 = [10; 20]) by (vm_compute; reflexivity).
  assert (E2 : @inside impl0 fz rq uz cz (map (rename (fun _ => 0)) calls77) start77 = [10; 20]) by (vm_compute; reflexivity).
  split; [rewrite <- E1; apply runs_exec; vm_compute; reflexivity|].
  split; [rewrite <- E2; apply runs_exec; vm_compute; reflexivity|]. split; goes.
Qed.
Print Assumptions C77_shared_ids_refuted.
