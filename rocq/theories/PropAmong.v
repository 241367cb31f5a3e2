(** * C87, C70: a seeded simulation gives the same results among others as alone *)
From Coq Require Import ZArith List Bool Floats Lia.
From Verif Require Import Base BaseProofs Num F64 WalkerModel SiteModel ClusterModel ContainerModel BasinModel
  SystemModel SystemSpec SystemShape SystemProofs SystemRuns QuerySpec NameSpec SeedSpec ShiftSpec ManySpec AmongSpec AmongProofs
  PropSystem PropQuery PropSeed PropDrainSeed.
Import ListNotations.
Open Scope Z_scope.

(** ** C87 *)
(** A program calls any number of systems in any order ([exec_many]).  If its
    calls return, then the calls made to system [i] also return when they are
    made alone, in another process with another clock: the same walkers are
    inside, with the same sites, targets and dwell times, and occupation, visits
    and clusters are the same but for the ids of the clusters, which keep their
    order.
    Missing: hash tables in which the order depends on the gaps between the ids
    (libstdc++ places an id by its remainder; for ids that differ by a constant
    see C86), programs that change rates between calls, and walkers that go from
    one system to another. *)
Theorem C87_among_others_partial :
  forall (I : Impl) (N : Num) (G : Rng) (U : Ugly) (clk clk' : Z -> Z) (walkers : umap walker) (h : heap)
         (count tick count' tick' : Z) (l : list (Z * act)) (i : Z) (p : program),
    keys_only -> (forall nm, increasing nm -> names_alike nm) -> drains_keep_still -> steady ->
    NoDup (ukeys walkers) -> 0 <= count -> count <= count' -> own_walkers l -> rates_stay l -> seeds_first (calls_to i l) ->
    exec_many clk' l (program_new walkers h count' tick') = Some p ->
    exists g, exec clk (calls_to i l) (world_new walkers h count tick, []) = Some (g, p_inside p i) /\
      exists nm, increasing nm /\ renamed (walker_of l i) nm g (view p i).
Proof.
  intros I N G U clk clk' walkers h count tick count' tick' l i p K Kn S Hu ND Hc Hcc Ow Rs Sd E.
  eapply own_calls_only; eauto.
  intros e e'. destruct (edraw e) as [u x] eqn:E1, (edraw e') as [u' x'] eqn:E2. exact (S _ _ _ _ _ _ E1 E2).
Qed.
Print Assumptions C87_among_others_partial.

(** ** C70 *)
(** Two programs that make the same calls to system [i] and whatever other
    calls, to other systems: system [i] reports the same in both, up to the
    names of its clusters in the run of system [i] alone. *)
Theorem C70_own_calls_partial :
  forall (I : Impl) (N : Num) (G : Rng) (U : Ugly) (clk1 clk2 : Z -> Z) (walkers : umap walker) (h : heap)
         (count1 tick1 count2 tick2 : Z) (l1 l2 : list (Z * act)) (i : Z) (p1 p2 : program),
    keys_only -> (forall nm, increasing nm -> names_alike nm) -> drains_keep_still -> steady ->
    NoDup (ukeys walkers) -> 0 <= count1 -> 0 <= count2 -> own_walkers l1 -> own_walkers l2 -> rates_stay l1 -> rates_stay l2 ->
    calls_to i l1 = calls_to i l2 -> seeds_first (calls_to i l1) ->
    exec_many clk1 l1 (program_new walkers h count1 tick1) = Some p1 ->
    exec_many clk2 l2 (program_new walkers h count2 tick2) = Some p2 ->
    p_inside p1 i = p_inside p2 i /\
    exists g nm1 nm2, increasing nm1 /\ increasing nm2 /\
      renamed (walker_of l1 i) nm1 g (view p1 i) /\ renamed (walker_of l2 i) nm2 g (view p2 i).
Proof.
  intros I N G U clk1 clk2 walkers h count1 tick1 count2 tick2 l1 l2 i p1 p2 K Kn S Hu ND H1 H2 O1 O2 R1 R2 Ec Sd E1 E2.
  destruct (C87_among_others_partial I N G U clk1 clk1 walkers h 0 0 count1 tick1 l1 i p1 K Kn S Hu ND (Z.le_refl 0) H1 O1 R1 Sd E1) as (g & X1 & nm1 & Y1 & Z1).
  rewrite Ec in X1, Sd.
  destruct (C87_among_others_partial I N G U clk1 clk2 walkers h 0 0 count2 tick2 l2 i p2 K Kn S Hu ND (Z.le_refl 0) H2 O2 R2 Sd E2) as (g' & X2 & nm2 & Y2 & Z2).
  rewrite X1 in X2. assert (Eg : g = g' /\ p_inside p1 i = p_inside p2 i) by (injection X2; auto). destruct Eg as [<- Ei].
  split; [exact Ei|]. exists g, nm1, nm2. auto.
Qed.
Print Assumptions C70_own_calls_partial.

(** ** A program that meets the hypotheses *)
Lemma impl0_names nm : @names_alike impl0 nm.
Proof. intros V m k v _ _. unfold kmap. cbn. rewrite map_app. reflexivity. Qed.
Lemma uz_steady : @steady fz uz.
Proof. repeat split. Qed.
Definition to (i : Z) (l : list (@act fz)) : list (Z * @act fz) := map (fun a => (i, a)) l.
(** the same chain in systems 1 and 2; system 2 makes its first cluster between
    the two clusters of system 1 *)
Definition calls_o : list (@act fz) := [ASeed 9; ARes (5%float : @num fz); AThr 0; AInit chain; AEnter [(0, 30)]].
Definition both_m : list (Z * @act fz) :=
  to 2 calls_o ++ to 1 (seed_s ++ firstn 5 calls_s) ++ to 2 [AHop 20 0 30] ++ to 1 (skipn 5 calls_s).
Definition walkers_m : umap (@walker fz) := [(10, wz 1); (20, wz 3); (30, wz 1)].
Notation run_m := (@exec_many impl0 fz r_seed uz odd_clock both_m (program_new walkers_m heap1 0 0)).
Definition end_m : @program fz r_seed := match run_m with Some p => p | None => program_new walkers_m heap1 0 0 end.
Lemma found {A} (o : option A) d : match o with Some _ => true | None => false end = true -> o = Some (match o with Some p => p | None => d end).
Proof. destruct o; [reflexivity|discriminate]. Qed.
Example C87_nonvacuous :
  @keys_only impl0 /\ (forall nm, increasing nm -> @names_alike impl0 nm) /\ @drains_keep_still fz r_seed /\ @steady fz uz
  /\ NoDup (ukeys walkers_m) /\ own_walkers both_m /\ rates_stay both_m /\ seeds_first (calls_to 1 both_m)
  /\ run_m = Some end_m
  /\ calls_to 1 both_m = seed_s ++ calls_s /\ map fst (g_clusters (run_s 0)) = [0; 2]
  /\ map fst (g_clusters (view end_m 1)) = [0; 4] /\ map fst (g_clusters (view end_m 2)) = [2]
  /\ p_inside end_m 1 = [10; 20] /\ p_inside end_m 2 = [30].
Proof.
  split; [exact keys_impl0|]. split; [intros nm _; apply impl0_names|]. split.
  { intros e1 e2 e1' e2' u1 u2 E1 E2. cbn in E1, E2. injection E1. injection E2. intros _ <- _ <-.
    destruct (Z.even e1), (Z.even e2); reflexivity. }
  split; [exact uz_steady|]. split; [repeat constructor; cbn; intuition lia|]. split.
  { assert (W : forall i q, walker_of both_m i q -> (i = 1 /\ (q = 10 \/ q = 20)) \/ (i = 2 /\ q = 30)).
    { intros i q (w & Hw & Hq). cbn in Hw.
      repeat (destruct Hw as [Hw|Hw]; [try discriminate Hw; injection Hw; intros <- <-; cbn in Hq; intuition lia|]). contradiction. }
    intros i j q Hi Hj. apply W in Hi, Hj. lia. }
  split; [intros i h H; cbn in H; repeat (destruct H as [H|H]; [discriminate H|]); contradiction|]. split.
  { intros l1 r l2 E. exists 7. destruct l1; [discriminate|]. inversion E; subst. left; reflexivity. }
  split.
  { apply found. vm_compute. reflexivity. }
  split; [reflexivity|]. do 4 (split; [vm_compute; reflexivity|]). vm_compute. reflexivity.
Qed.
