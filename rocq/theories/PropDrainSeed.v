(** * C41: seeded runs with sites that only appear as targets *)
From Coq Require Import ZArith List Bool Reals Floats Lia Lra.
From Verif Require Import Base BaseProofs Num F64 WalkerModel SiteModel ClusterModel ContainerModel BasinModel
  SystemModel SystemSpec SystemShape SystemProofs SystemRuns QuerySpec NameSpec ValidSpec OrdLaws SeedSpec SystemDrainSeed PropSystem PropQuery PropSeed.
Import ListNotations.
Open Scope Z_scope.

(** ** C41 *)
(** Full statement: after setRandomSeed two runs of a program agree whatever
    the clock returns.  Proved here: they agree in everything a program can ask
    (same_answers in NameSpec.v: walkers with their targets and dwell times,
    clusters, resolutions, increments, labels, occupation, visits), or both fail
    to return, for every program that sets the seed first, drains or not, in
    every arithmetic in which the dwell time on a drain does not depend on the
    number drawn.  Hash tables place a key without looking at the value
    ([keys_only]). *)
Theorem C41_drains_agree_partial :
  forall (I : Impl) (N : Num) (G : Rng) (U : Ugly) (clk1 clk2 : Z -> Z) (walkers : umap walker) (h : heap) (count tick : Z) (l : list act),
    keys_only -> drains_keep_still -> NoDup (ukeys walkers) -> 0 <= count -> seeds_first l ->
    match exec clk1 l (world_new walkers h count tick, []), exec clk2 l (world_new walkers h count tick, []) with
    | Some (g, ws), Some (g', ws') => ws' = ws /\ same_answers g g'
    | None, None => True
    | _, _ => False
    end.
Proof.
  intros I N G U clk1 clk2 walkers h count tick l K S ND Hc Hs. apply exec_drains; try assumption.
  intros e e'. destruct (edraw e) as [u x] eqn:E, (edraw e') as [u' x'] eqn:E'. exact (S _ _ _ _ _ _ E E').
Qed.
Print Assumptions C41_drains_agree_partial.

(** In exact arithmetic nothing is asked of the drains: every engine whose
    numbers lie between 0 and 1 will do. *)
Lemma still_exact (G : @Rng XR) : open_draws G -> @drains_keep_still XR G.
Proof.
  intros H. assert (X : forall e u e', edraw e = (u, e') -> @nmul XR (@nmul XR (@nofZ XR (-1)) (@nlog XR u)) (@n0 XR) = (Fin 0 : @num XR)).
  { intros e u e' E. destruct (H e) as (r & e1 & E1 & Hr). rewrite E in E1. injection E1. intros _ ->. cbn.
    replace (Rltb r 0) with false by (symmetry; apply Rltb_false; lra). replace (Reqb r 0) with false by (symmetry; apply Reqb_false; lra). cbn. f_equal. ring. }
  intros e1 e2 e1' e2' u1 u2 E1 E2. rewrite (X _ _ _ E1), (X _ _ _ E2). reflexivity.
Qed.
Theorem C41_drains_exact :
  forall (I : Impl) (G : @Rng XR) (U : @Ugly XR) (clk1 clk2 : Z -> Z) (walkers : umap (@walker XR)) (h : @heap XR) (count tick : Z) (l : list (@act XR)),
    keys_only -> open_draws G -> NoDup (ukeys walkers) -> 0 <= count -> seeds_first l ->
    match @exec I XR G U clk1 l (world_new walkers h count tick, []), @exec I XR G U clk2 l (world_new walkers h count tick, []) with
    | Some (g, ws), Some (g', ws') => ws' = ws /\ same_answers g g'
    | None, None => True
    | _, _ => False
    end.
Proof. intros. apply C41_drains_agree_partial; auto using still_exact. Qed.
Print Assumptions C41_drains_exact.

(** In doubles it is enough that -log(u) is a positive double below infinity
    for every number drawn: u = 0 is what C41_drain_refuted uses. *)
Lemma pos_times_0 (y : float) : PrimFloat.ltb 0 y = true -> PrimFloat.ltb y infinity = true -> PrimFloat.mul y 0 = 0%float.
Proof.
  intros H1 H2. rewrite ltb_spec in H1, H2. apply Prim2SF_inj. rewrite mul_spec.
  destruct (Prim2SF y) as [[]|[]| |[] m e]; vm_compute in H1, H2; try discriminate; reflexivity.
Qed.
Theorem C41_drains_in_doubles :
  forall (I : Impl) (lnf : float -> float) (G : @Rng (F64 lnf)) (U : @Ugly (F64 lnf)) (clk1 clk2 : Z -> Z)
         (walkers : umap (@walker (F64 lnf))) (h : @heap (F64 lnf)) (count tick : Z) (l : list (@act (F64 lnf))),
    keys_only ->
    (forall (e e' : @eng (F64 lnf) G) u, edraw e = (u, e') ->
       PrimFloat.ltb 0 (PrimFloat.mul (-1) (lnf u)) = true /\ PrimFloat.ltb (PrimFloat.mul (-1) (lnf u)) infinity = true) ->
    NoDup (ukeys walkers) -> 0 <= count -> seeds_first l ->
    match @exec I (F64 lnf) G U clk1 l (world_new walkers h count tick, []), @exec I (F64 lnf) G U clk2 l (world_new walkers h count tick, []) with
    | Some (g, ws), Some (g', ws') => ws' = ws /\ same_answers g g'
    | None, None => True
    | _, _ => False
    end.
Proof.
  intros I lnf G U clk1 clk2 walkers h count tick l K H ND Hc Hs. apply C41_drains_agree_partial; auto.
  assert (X : forall (e : @eng (F64 lnf) G) (u : float) e', edraw e = (u, e') -> PrimFloat.mul (PrimFloat.mul (-1) (lnf u)) 0 = 0%float).
  { intros e u e' E. destruct (H _ _ _ E). apply pos_times_0; assumption. }
  intros e1 e2 e1' e2' u1 u2 E1 E2.
  change (PrimFloat.mul (PrimFloat.mul (-1) (lnf u1)) 0 = PrimFloat.mul (PrimFloat.mul (-1) (lnf u2)) 0). rewrite (X _ _ _ E1), (X _ _ _ E2). reflexivity.
Qed.
Print Assumptions C41_drains_in_doubles.

(** ** A program with a drain that meets the hypotheses *)
(** 1 and 2 exchange walkers, 3 only receives them *)
Definition rates_e : umap (umap Z) := [(1, [(2, 0)]); (2, [(3, 1)])].
Definition calls_e : list (@act fz) :=
  [ASeed 7; ARes (5%float : @num fz); AInit rates_e; AEnter [(0, 10)]; AHop 20 0 10; AHop 20 0 10].
Notation start_e := (world_new [(10, wz 1)] heap1 0 0 : @world fz r_seed, @nil Z).
Lemma on_by (g : @world fz r_seed) p k : match ulookup p (g_walkers g) with Some w => Z.eqb (w_cur w) k | None => false end = true -> walker_on g p k.
Proof. unfold walker_on. destruct (ulookup p (g_walkers g)) as [w|]; [|discriminate]. intros E. apply Z.eqb_eq in E. eauto. Qed.
Lemma engines_by (g g' : @world fz r_seed) k :
  match ulookup k (g_sites g), ulookup k (g_sites g') with Some s, Some s' => negb (Z.eqb (s_rng s) (s_rng s')) | _, _ => false end = true ->
  exists s s', ulookup k (g_sites g) = Some s /\ ulookup k (g_sites g') = Some s' /\ s_rng s <> s_rng s'.
Proof.
  destruct (ulookup k (g_sites g)) as [s|], (ulookup k (g_sites g')) as [s'|]; try discriminate.
  intros E. exists s, s'. split; [reflexivity|]. split; [reflexivity|]. intros E'. rewrite E', Z.eqb_refl in E. discriminate.
Qed.
(** the run ends on the drain, whose engine the clock has decided *)
Example C41_drains_nonvacuous :
  @keys_only impl0 /\ @drains_keep_still fz r_seed /\ seeds_first calls_e /\ ~ no_drains calls_e
  /\ @runs impl0 fz r_seed uz even_clock calls_e start_e = true /\ @runs impl0 fz r_seed uz odd_clock calls_e start_e = true
  /\ walker_on (@final impl0 fz r_seed uz even_clock calls_e start_e) 10 3
  /\ (exists s s', ulookup 3 (g_sites (@final impl0 fz r_seed uz even_clock calls_e start_e)) = Some s
        /\ ulookup 3 (g_sites (@final impl0 fz r_seed uz odd_clock calls_e start_e)) = Some s' /\ s_rng s <> s_rng s').
Proof.
  split; [exact keys_impl0|]. split.
  { intros e1 e2 e1' e2' u1 u2 E1 E2. cbn in E1, E2. injection E1. injection E2. intros _ <- _ <-.
    destruct (Z.even e1), (Z.even e2); reflexivity. }
  split; [intros l1 r l2 E; exists 7; destruct l1; [discriminate|]; inversion E; subst; left; reflexivity|].
  split; [intros H; assert (X : In 3 (ukeys rates_e)) by (apply (H rates_e); [cbn; tauto|right; exists 2, [(3, 1)]; cbn; tauto]); cbn in X; intuition discriminate|].
  split; [vm_compute; reflexivity|]. split; [vm_compute; reflexivity|].
  split; [apply on_by; vm_compute; reflexivity|]. apply engines_by. vm_compute. reflexivity.
Qed.
