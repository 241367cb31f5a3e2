(** * Programs in another unit of time, in every arithmetic that does not notice it *)
From Coq Require Import ZArith List Bool Lia.
From Verif Require Import Base BaseProofs Num WalkerModel SiteModel ClusterModel ContainerModel BasinModel SystemModel SystemSpec
  SystemRuns QuerySpec UnitSpec UnitNum UnitCluster UnitUpdate UnitMerge UnitBasin UnitSystem.
Import ListNotations.
Open Scope Z_scope.

Section Any.
Context {I : Impl} {N : Num} {G : @Rng N}.
Variables U U' : @Ugly N.
Hypothesis K : keys_only.
Variable c : lawful N.
Hypothesis HU : same_choices c U U'.
Variable clk : Z -> Z.

Lemma timed_ok (g : @world N G) : clusters_timed g -> ~ wbad g.
Proof. intros H ([k d] & Hin & E). exact (H k d Hin E). Qed.
Lemma any_runs l : forall l' g g' ws r r', Forall2 (new_act c) l l' -> wrel c g g' ->
  (forall l1 l2 x, l = l1 ++ l2 -> exec (U := U) clk l1 (g, ws) = Some x -> clusters_timed (fst x)) ->
  exec (U := U) clk l (g, ws) = Some r -> exec (U := U') clk l' (g', ws) = Some r' ->
  snd r' = snd r /\ wrel c (fst r) (fst r').
Proof.
  induction l as [|a l IH]; intros l' g g' ws r r' Hl Hw T E E'; inversion Hl; subst.
  - inversion E; inversion E'; subst. auto.
  - pose proof (T [a]) as T1. cbn [exec] in E, E', T1. destruct (exec1 (U := U) clk a (g, ws)) as [[g1 ws1]|] eqn:E1; [|discriminate].
    destruct (exec1 (U := U') clk y (g', ws)) as [[g2 ws2]|] eqn:E2; [|discriminate].
    destruct (exec1_y U U' K c HU clk _ _ _ _ _ _ _ H1 Hw E1 E2) as [Ew Hr]. cbn [fst snd] in Ew, Hr. subst ws2.
    destruct Hr as [Hr|Hr]; [|exfalso; exact (timed_ok _ (T1 l _ eq_refl eq_refl) Hr)].
    apply (IH _ _ _ _ _ _ H3 Hr) with (2 := E) (3 := E'). intros l1 l2 x -> Ex. apply (T (a :: l1) l2 x eq_refl). cbn [exec]. rewrite E1. exact Ex.
Qed.
Lemma any_new walkers h count tick : wrel c (world_new walkers h count tick : @world N G) (world_new (vmap (new_walker c) walkers) (new_heap c h) count tick).
Proof. exists []. split; [reflexivity|constructor]. Qed.
Lemma any_same walkers h count tick l l' (g g' : @world N G) ws ws' : Forall2 (new_act c) l l' ->
  (forall l1 l2 g1 ws1, l = l1 ++ l2 -> exec (U := U) clk l1 (world_new walkers h count tick, []) = Some (g1, ws1) -> clusters_timed g1) ->
  exec (U := U) clk l (world_new walkers h count tick, []) = Some (g, ws) ->
  exec (U := U') clk l' (world_new (vmap (new_walker c) walkers) (new_heap c h) count tick, []) = Some (g', ws') -> ws' = ws /\ same_in_unit c g g'.
Proof.
  intros Hl T E E'.
  assert (T' : forall l1 l2 x, l = l1 ++ l2 -> exec (U := U) clk l1 (world_new walkers h count tick, []) = Some x -> clusters_timed (fst x)).
  { intros l1 l2 [g1 ws1] El Ex. exact (T l1 l2 g1 ws1 El Ex). }
  destruct (any_runs l l' _ _ _ _ _ Hl (any_new walkers h count tick) T' E E') as [A B]. cbn [fst snd] in *.
  split; [exact A|]. apply (y_same K); [|exact B]. apply timed_ok. apply (T l [] g ws); [rewrite app_nil_r; reflexivity|exact E].
Qed.
End Any.
