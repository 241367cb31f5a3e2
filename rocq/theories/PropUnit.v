(** * C65, C66: the unit of time

    A program is a list of calls ([act], SystemRuns.v); [exec clk] runs it and
    returns the system and the walkers inside it, or nothing if a call does not
    return.  [new_act (exact_change c)] relates the calls in one unit of time to those in a unit
    [c] times as long, where rates are [c] times as large and times [c] times as
    small (UnitSpec.v).  Valid programs are those of C48 (ValidSpec.v). *)
From Coq Require Import ZArith List Bool Reals Lra Lia Floats Permutation.
From Verif Require Import Base BaseProofs Num F64 WalkerModel SiteModel ClusterModel ContainerModel BasinModel SystemModel SystemSpec SystemShape SystemProofs SystemRuns
  ValidSpec SystemChain PropSystem PropValid QuerySpec PropQuery B53 UnitSpec UnitNum UnitRuns UnitAny B53Unit.
Import ListNotations.
Open Scope R_scope.

(** ** C65 *)
(** Full statement: a program that gives its rates and its time resolution in
    another unit of time does the same simulation.  Proved in exact arithmetic
    for valid programs whose rates and hops are in bounds, and with the rounding
    of doubles for units that are powers of two.  The two graph
    libraries make the same choices, and the hash order depends on keys only. *)
(** The program also runs to the end in the new unit. *)
Theorem C65_other_unit_partial :
  forall (I : Impl) (G : @Rng XR) (U U' : @Ugly XR) (clk : Z -> Z) (c lo hi : R)
         (walkers : umap walker) (h : heap) (count tick : Z) (l : list act) (g : world) (ws : list Z),
    keys_only -> 0 < c -> same_choices (exact_change c) U U' -> open_draws G -> rate_bounds lo hi -> rate_bounds (c * lo) (c * hi) ->
    NoDup (ukeys walkers) -> (0 <= count)%Z ->
    Forall (valid_call h) (map call_of l) -> Forall (paced_call h lo hi) (map call_of l) ->
    few_hops lo hi (hops (map call_of l)) -> few_hops (c * lo) (c * hi) (hops (map call_of l)) ->
    @exec I XR G U clk l (world_new walkers h count tick, []) = Some (g, ws) ->
    exists (l' : list act) (g' : world), Forall2 (new_act (exact_change c)) l l' /\
      @exec I XR G U' clk l' (world_new (vmap (new_walker (exact_change c)) walkers) (new_heap (exact_change c) h) count tick, []) = Some (g', ws) /\ same_in_unit (exact_change c) g g'.
Proof. intros I G U U' clk c lo hi m h count tick l g ws K Hc HU HD HB HB'. exact (unit_runs U U' K c Hc HU clk lo hi HD HB HB' m h count tick l g ws). Qed.
Print Assumptions C65_other_unit_partial.
(** Whatever run of it returns, it gives the same result. *)
Theorem C65_any_run_partial :
  forall (I : Impl) (G : @Rng XR) (U U' : @Ugly XR) (clk : Z -> Z) (c lo hi : R)
         (walkers : umap walker) (h : heap) (count tick : Z) (l l' : list act) (g g' : world) (ws ws' : list Z),
    keys_only -> 0 < c -> same_choices (exact_change c) U U' -> open_draws G -> rate_bounds lo hi ->
    NoDup (ukeys walkers) -> (0 <= count)%Z ->
    Forall (valid_call h) (map call_of l) -> Forall (paced_call h lo hi) (map call_of l) -> few_hops lo hi (hops (map call_of l)) ->
    Forall2 (new_act (exact_change c)) l l' ->
    @exec I XR G U clk l (world_new walkers h count tick, []) = Some (g, ws) ->
    @exec I XR G U' clk l' (world_new (vmap (new_walker (exact_change c)) walkers) (new_heap (exact_change c) h) count tick, []) = Some (g', ws') ->
    ws' = ws /\ same_in_unit (exact_change c) g g'.
Proof. intros I G U U' clk c lo hi m h count tick l l' g g' ws ws' K Hc HU HD HB. exact (unit_same U U' K c Hc HU clk lo hi HD HB m h count tick l l' g ws g' ws'). Qed.
Print Assumptions C65_any_run_partial.

Lemma choices_c c : same_choices (exact_change c) ugly_c ugly_c.
Proof. repeat split. Qed.
Lemma bounds_c2 : rate_bounds (2 * 1) (2 * 101).
Proof.
  split; [lra|]. unfold dbl_min. change (powerRZ 2 (-1022)) with (/ 2 ^ Pos.to_nat 1022). rewrite Rinv_inv.
  apply Rlt_le_trans with (2 ^ 8); [cbn; lra|]. apply Rle_pow; [lra|lia].
Qed.
Lemma few_c2 n : (n <= 10)%Z -> few_hops (2 * 1) (2 * 101) n.
Proof. intros Hn. split; [|lia]. apply IZR_le in Hn. replace (2 * 101 / (2 * (2 * 1 * (2 * 1))) + 1) with (105 / 4) by field. lra. Qed.
(** the calls of a valid run as a program *)
Lemma run_of tr g ws : reach_c tr g ws -> forallb own_call tr = true -> exists (walkers : umap walker) (h : heap) (count tick : Z) (l : list act),
  NoDup (ukeys walkers) /\ (0 <= count)%Z /\ map call_of l = tr /\ Forall (valid_call h) tr /\ Forall (paced_call h 1 101) tr /\
  @exec impl0 XR rng_c ugly_c clk_c l (world_new walkers h count tick, []) = Some (g, ws).
Proof.
  intros (R & Fv & Fp) Ho. destruct R as (walkers & h & count & tick & ND & H0 & S).
  assert (V : @inv XR rng_c (world_new walkers h count tick) []).
  { apply (@reach_inv impl0 XR rng_c ugly_c clk_c). exists [], walkers, h, count, tick. split; [exact ND|]. split; [exact H0|constructor]. }
  pose proof (@steps_heap impl0 rng_c ugly_c clk_c _ _ _ _ _ V Ho S) as Eh. cbn [g_heap world_new] in Eh. rewrite Eh in Fv, Fp.
  destruct (@steps_exec impl0 rng_c ugly_c clk_c _ _ _ _ _ V Ho S) as (l & El & E).
  exists walkers, h, count, tick, l. auto 7.
Qed.
(** the chain of SystemChain.v after a hop that made a cluster *)
Example C65_nonvacuous :
  exists (walkers : umap walker) (h : heap) (count tick : Z) (l : list act) (g : @world XR rng_c) (c : Z),
    @keys_only impl0 /\ same_choices (exact_change 2) ugly_c ugly_c /\ open_draws rng_c /\ rate_bounds 1 101 /\ rate_bounds (2 * 1) (2 * 101) /\
    NoDup (ukeys walkers) /\ (0 <= count)%Z /\ map call_of l = calls_c ++ [KHop 10%Z] /\
    Forall (valid_call h) (map call_of l) /\ Forall (paced_call h 1 101) (map call_of l) /\
    few_hops 1 101 (hops (map call_of l)) /\ few_hops (2 * 1) (2 * 101) (hops (map call_of l)) /\
    @exec impl0 XR rng_c ugly_c clk_c l (world_new walkers h count tick, []) = Some (g, [10%Z]) /\ listed_c g c 1 /\ listed_c g c 2.
Proof.
  destruct chain_c as (g0 & g & n & c & _ & _ & _ & V & L1 & L2). destruct (run_of _ _ _ V eq_refl) as (walkers & h & count & tick & l & ND & H0 & El & Fv & Fp & E).
  exists walkers, h, count, tick, l, g, c. split; [exact keys_impl0|]. split; [apply choices_c|]. split; [exact fair_c|]. split; [exact bounds_c|].
  split; [exact bounds_c2|]. split; [exact ND|]. split; [exact H0|]. split; [exact El|]. rewrite El. split; [exact Fv|]. split; [exact Fp|].
  split; [apply few_c; cbn; lia|]. split; [apply few_c2; cbn; lia|]. auto.
Qed.

(** With rounding, and for every program, valid or not: numbers with 53 bits,
    rounded as doubles are (B53.v; doubles that neither overflow nor underflow
    compute the same, B53Proofs.v), and a unit 2^k times as long.  Both runs
    return, and no cluster of the first has the time constant that marks an
    unknown one. *)
Theorem C65_binary_unit_partial :
  forall (sqrtf lnf : bf -> bf) (I : Impl) (G : @Rng (B53 sqrtf lnf)) (U U' : @Ugly (B53 sqrtf lnf)) (clk : Z -> Z) (k : Z)
         (walkers : umap walker) (h : heap) (count tick : Z) (l l' : list act) (g g' : world) (ws ws' : list Z),
    keys_only -> same_choices (binary_change k) U U' -> Forall2 (new_act (binary_change k)) l l' ->
    (forall l1 l2 g1 ws1, l = l1 ++ l2 -> @exec I _ G U clk l1 (world_new walkers h count tick, []) = Some (g1, ws1) -> clusters_timed g1) ->
    @exec I _ G U clk l (world_new walkers h count tick, []) = Some (g, ws) ->
    @exec I _ G U' clk l' (world_new (vmap (new_walker (binary_change k)) walkers) (new_heap (binary_change k) h) count tick, []) = Some (g', ws') ->
    ws' = ws /\ same_in_unit (binary_change k) g g'.
Proof.
  intros sqrtf lnf I G U U' clk k m h count tick l l' g g' ws ws' K HU Hl T E E'.
  exact (any_same U U' K (binary_lawful k) HU clk m h count tick l l' g g' ws ws' Hl T E E').
Qed.
Print Assumptions C65_binary_unit_partial.

(** the chain of PropSystem.v in this arithmetic, with a rate that is not a
    binary fraction and a unit 1024 times as long: hops that make a cluster, move
    inside of it and leave it *)
Definition bz : Num := B53 (fun x => x) (fun x => bsub x (b_ofZ 1)).
Definition rb : @Rng bz := @Build_Rng bz unit (fun _ => tt) (fun _ => ((bdiv (b_ofZ 1) (b_ofZ 2) : @num bz), tt)).
Lemma ub_in (e : @edge bz) l : In e (e :: l). Proof. left; reflexivity. Qed.
Definition ub : @Ugly bz := {|
  u_order := fun _ _ l => l; u_order_perm := fun _ _ l => Permutation_refl l;
  u_next := fun _ _ e _ => e; u_next_in := fun _ _ e l => ub_in e l;
  u_verts := fun _ l => l; u_verts_perm := fun _ l => Permutation_refl l;
  u_far := fun _ _ _ => None |}.
Definition wb (k : Z) : @walker bz := @mkWalker bz k unassignedId BZ.
Definition heapb : @heap bz := fun a => if (a =? 0)%Z then bdiv (b_ofZ 700) (b_ofZ 3) else if (a =? 1)%Z then b_ofZ 1 else bdiv (b_ofZ 1) (b_ofZ 10000).
Definition walkersb : umap (@walker bz) := [(10, wb 1); (20, wb 3)]%Z.
Definition hopsb : list (@act bz) := [AThr 0; AInit chain; AEnter [(0, 10); (1, 20)]; AHop 20 0 10; AHop 20 0 10; AHop 20 0 10; AHop 20 1 20; AHop 20 0 10]%Z.
Definition progb : list (@act bz) := ARes (b_ofZ 5 : @num bz) :: hopsb.
Definition progb' : list (@act bz) := ARes (bshift (- 10) (b_ofZ 5) : @num bz) :: hopsb.
Notation startb := (world_new walkersb heapb 0 0 : @world bz rb, @nil Z).
Notation startb' := (world_new (vmap (new_walker (binary_change 10)) walkersb) (new_heap (binary_change 10) heapb) 0 0 : @world bz rb, @nil Z).
Definition markb (x : @num bz) : bool := match x with BF false m e => Pos.eqb m (2 ^ 52) && Z.eqb e (-1074) | _ => false end.
Definition timedb (g : @world bz rb) : bool := forallb (fun e => negb (markb (c_tau (snd e)))) (g_clusters g).
Lemma timedb_ok g : timedb g = true -> clusters_timed g.
Proof.
  intros H k d Hin E. unfold timedb in H. rewrite forallb_forall in H. specialize (H _ Hin). cbn [snd] in H.
  unfold c_getTimeConstant in E. rewrite E in H. discriminate H.
Qed.
Fixpoint timed_all (l : list (@act bz)) (x : @world bz rb * list Z) : bool :=
  timedb (fst x) && match l with [] => true | a :: r => match @exec1 impl0 bz rb ub cz a x with Some y => timed_all r y | None => true end end.
Lemma timed_all_ok l1 : forall l2 x y, timed_all (l1 ++ l2) x = true -> @exec impl0 bz rb ub cz l1 x = Some y -> clusters_timed (fst y).
Proof.
  induction l1 as [|a l1 IH]; intros l2 x y T E.
  - cbn [exec] in E. inversion E; subst. apply timedb_ok. destruct l2; cbn [app timed_all] in T; apply andb_true_iff in T; apply T.
  - cbn [exec] in E. cbn [app timed_all] in T. apply andb_true_iff in T. destruct T as [_ T].
    destruct (@exec1 impl0 bz rb ub cz a x) as [z|]; [|discriminate]. apply (IH l2 z y T E).
Qed.
Example C65_binary_nonvacuous :
  exists (g g' : @world bz rb) (ws : list Z),
    @keys_only impl0 /\ same_choices (binary_change 10) ub ub /\ Forall2 (new_act (binary_change 10)) progb progb' /\
    (forall l1 l2 g1 ws1, progb = l1 ++ l2 -> @exec impl0 bz rb ub cz l1 startb = Some (g1, ws1) -> clusters_timed g1) /\
    @exec impl0 bz rb ub cz progb startb = Some (g, ws) /\ @exec impl0 bz rb ub cz progb' startb' = Some (g', ws) /\
    exists m x, @sys_getClusters impl0 bz rb g = Ret m x /\ m <> [].
Proof.
  exists (@final impl0 bz rb ub cz progb startb), (@final impl0 bz rb ub cz progb' startb'), [10; 20]%Z.
  split; [exact keys_impl0|]. split; [repeat split|].
  split; [repeat constructor|].
  split.
  { intros l1 l2 g1 ws1 El E. apply (timed_all_ok l1 l2 startb (g1, ws1)); [|exact E]. rewrite <- El. vm_compute. reflexivity. }
  assert (E1 : @inside impl0 bz rb ub cz progb startb = [10; 20]%Z) by (vm_compute; reflexivity).
  assert (E2 : @inside impl0 bz rb ub cz progb' startb' = [10; 20]%Z) by (vm_compute; reflexivity).
  split; [rewrite <- E1; apply runs_exec; vm_compute; reflexivity|]. split; [rewrite <- E2; apply runs_exec; vm_compute; reflexivity|].
  eexists _, _. split; [reflexivity|]. vm_compute. discriminate.
Qed.

(** ** C66 *)
(** Full statement: the visit counts that a program reads do not depend on the
    unit of time.  Proved for sites outside clusters. *)
Theorem C66_unclustered_visits_partial :
  forall (I : Impl) (G : @Rng XR) (U U' : @Ugly XR) (clk : Z -> Z) (c lo hi : R)
         (walkers : umap walker) (h : heap) (count tick : Z) (l l' : list act) (g g' : world) (ws ws' : list Z) (k v : Z),
    keys_only -> 0 < c -> same_choices (exact_change c) U U' -> open_draws G -> rate_bounds lo hi ->
    NoDup (ukeys walkers) -> (0 <= count)%Z ->
    Forall (valid_call h) (map call_of l) -> Forall (paced_call h lo hi) (map call_of l) -> few_hops lo hi (hops (map call_of l)) ->
    Forall2 (new_act (exact_change c)) l l' ->
    @exec I XR G U clk l (world_new walkers h count tick, []) = Some (g, ws) ->
    @exec I XR G U' clk l' (world_new (vmap (new_walker (exact_change c)) walkers) (new_heap (exact_change c) h) count tick, []) = Some (g', ws') ->
    cluster_of g k unassignedId -> visits g k v -> visits g' k v.
Proof.
  intros I G U U' clk c lo hi m h count tick l l' g g' ws ws' k v K Hc HU HD HB.
  exact (unit_free U U' K c Hc HU clk lo hi HD HB m h count tick l l' g ws g' ws' k v).
Qed.
Print Assumptions C66_unclustered_visits_partial.
(** the chain with a walker on it, in both units *)
Example C66_nonvacuous :
  exists (walkers : umap walker) (h : heap) (count tick : Z) (l l' : list act) (g g' : @world XR rng_c) (v : Z),
    NoDup (ukeys walkers) /\ (0 <= count)%Z /\ map call_of l = calls_c /\
    Forall (valid_call h) (map call_of l) /\ Forall (paced_call h 1 101) (map call_of l) /\ few_hops 1 101 (hops (map call_of l)) /\
    Forall2 (new_act (exact_change 2)) l l' /\
    @exec impl0 XR rng_c ugly_c clk_c l (world_new walkers h count tick, []) = Some (g, [10%Z]) /\
    @exec impl0 XR rng_c ugly_c clk_c l' (world_new (vmap (new_walker (exact_change 2)) walkers) (new_heap (exact_change 2) h) count tick, []) = Some (g', [10%Z]) /\
    cluster_of g 3 unassignedId /\ @visits impl0 XR rng_c g 3 v.
Proof.
  destruct cluster_c as (g & _ & _ & _ & R & Eh & _ & _ & _ & _ & Un & _).
  assert (V : reach_c calls_c g [10%Z]) by (split; [exact R|apply chain_valid, Eh]).
  destruct (run_of _ _ _ V eq_refl) as (walkers & h & count & tick & l & ND & H0 & El & Fv & Fp & E).
  destruct (C65_other_unit_partial impl0 rng_c ugly_c ugly_c clk_c 2 1 101 walkers h count tick l g [10%Z]) as (l' & g' & Hl & E' & _);
    try assumption; try (rewrite El; assumption); [exact keys_impl0|lra|apply choices_c|exact fair_c|exact bounds_c|exact bounds_c2|rewrite El; apply few_c; cbn; lia|rewrite El; apply few_c2; cbn; lia|].
  assert (C3 : cluster_of g 3 unassignedId) by (apply (proj2 (Un 3%Z)); lia).
  destruct (valid_visits (U := ugly_c) clk_c 1 101 fair_c bounds_c _ _ _ 3%Z V) as [v Hv]; [apply few_c; cbn; lia|exists unassignedId; exact C3|].
  exists walkers, h, count, tick, l, l', g, g', v. rewrite El. repeat (split; [assumption|]). split; [reflexivity|].
  repeat (split; [assumption|]). split; [apply few_c; cbn; lia|]. auto.
Qed.
(** A program in a unit of time 64 times as short: rates are 64 times as small,
    the time resolution 64 times as large.  No rounding is involved. *)
Definition short_act (a : @act fz) : @act fz := match a with ARes t => ARes (t * 64 : @num fz)%float | _ => a end.
Definition short1 : @world fz rh * list Z :=
  (world_new [(10, wz 1); (20, wz 3); (30, wz 1); (31, wz 5)]%Z (fun a => heap1 a / 64 : @num fz)%float 0 0, []).
Theorem C66_clustered_visits_refuted :
  exists (l : list (@act fz)) (g g' : @world fz rh) (ws : list Z),
    @exec impl0 fz rh uz cz l start1 = Some (g, ws) /\ @exec impl0 fz rh uz cz (map short_act l) short1 = Some (g', ws) /\
    listedf g 0 1 /\ listedf g' 0 1 /\ @visits impl0 fz rh g 1 2 /\ @visits impl0 fz rh g' 1 49.
Proof.
  exists quiet1, (final1 quiet1), (@final impl0 fz rh uz cz (map short_act quiet1) short1), [10; 20]%Z.
  assert (E1 : inside1 quiet1 = [10; 20]%Z) by (vm_compute; reflexivity).
  assert (E2 : @inside impl0 fz rh uz cz (map short_act quiet1) short1 = [10; 20]%Z) by (vm_compute; reflexivity).
  split; [rewrite <- E1; apply runs_exec; vm_compute; reflexivity|]. split; [rewrite <- E2; apply runs_exec; vm_compute; reflexivity|].
  split; [listing|]. split; [listing|]. split; apply visits_by; vm_compute; reflexivity.
Qed.
Print Assumptions C66_clustered_visits_refuted.
