(** * C82: walkers outside of clusters in the double arithmetic the code runs in *)
From Flocq Require Core BinarySingleNaN.
From Coq Require Import ZArith List Bool Reals Lra Lia Permutation Floats.
From Verif Require Import Base BaseProofs Num F64 RSum WalkerModel SiteModel ClusterModel ContainerModel BasinModel SystemModel SystemSpec SystemShape SystemProofs SystemFacts SystemRuns
  FloatSpec FloatProofs FloatSite FloatRunSpec FloatSystem PropSystem.
Import ListNotations.
Open Scope R_scope.

(** A site that initializeSystem is given [n] rates between 2^-400 and 2^400
    for: its neighbours get disjoint intervals of length rate / total, once and
    for all.  Whatever calls follow, in whatever order, changes of rates
    included: when a hop ends on the site while it is outside of all clusters,
    with [x] and [v] the next two doubles of its generator, the dwell time is
    finite, positive and -ln x / total up to a relative error of
    (2n+6) 2^-52; if [v] is below 1 - (3n+1) 2^-52 the walker aims at a
    neighbour; it aims at the neighbour whose interval [v] lies in by more than
    that margin, and at none whose interval [v] lies outside of by more. *)
Theorem C82_free_sites :
  forall (lnf : float -> float) (I : Impl) (G : @Rng (F64 lnf)) (U : @Ugly (F64 lnf)) (clk : Z -> Z)
         (g0 g1 : @world (F64 lnf) G) (ws0 : list Z) (rates : umap (umap Z)) (k : Z) (r : umap Z),
    reach clk g0 ws0 -> NoDup (ukeys rates) -> sys_initializeSystem clk rates g0 = Ret tt g1 ->
    In (k, r) rates -> good_doubles (g_heap g0) r ->
    let h := g_heap g0 in let err := INR (3 * length r + 1) * (2 * uround) in
    exists lo : Z -> R,
      (forall j a, In (j, a) r -> 0 <= lo j /\ lo j + exact_prob h r a <= 1) /\
      (forall j a j' a', In (j, a) r -> In (j', a') r -> j <> j' ->
         lo j + exact_prob h r a <= lo j' \/ lo j' + exact_prob h r a' <= lo j) /\
      forall tr g2 ws2 fuel id p g3 (x v : @num (F64 lnf)),
        steps clk g1 ws0 tr g2 ws2 -> In p ws2 -> sys_hop clk fuel id p g2 = Ret tt g3 ->
        walker_on g3 p k -> cluster_of g2 k unassignedId -> numbers g2 k x v ->
        (fin x -> 0 < fval x < 1 -> log_correct lnf x ->
           exists t, waits g3 p t /\ fin t /\ 0 < fval t /\
             near (2 * length r + 6) (- ln (fval x) / exact_total h r) (fval t)) /\
        (fin v -> 0 <= fval v ->
           (fval v < 1 - err -> exists j, In j (ukeys r) /\ walker_to g3 p j) /\
           forall j a, In (j, a) r ->
             (lo j + err <= fval v < lo j + exact_prob h r a - err -> walker_to g3 p j) /\
             (walker_to g3 p j -> j <> (-1)%Z -> lo j - err <= fval v < lo j + exact_prob h r a + err)).
Proof. intros lnf I G U clk g0 g1 ws0 rates k r. exact (free_near lnf clk g0 g1 ws0 rates k r). Qed.
Print Assumptions C82_free_sites.

(** ** The chain of PropSystem.v, without coarse graining *)
(** numbers alternate between the largest double below 1 and 1/2; x - 1, the
    log of [fz], is correct at the former *)
Local Definition ra : @Rng fz := @Build_Rng fz bool (fun _ => true) (fun b => ((if b then 0x1.fffffffffffffp-1%float else 0.5%float : @num fz), negb b)).
Local Definition g_a : @world fz ra := @final impl0 fz ra uz cz [ARes (5%float : @num fz); AThr inf_iterations] (world_new [(10, wz 1); (20, wz 3)]%Z heap1 0 0, []).
Local Definition g_b : @world fz ra := state_of g_a (@sys_initializeSystem impl0 fz ra cz chain g_a).
Local Definition l_b : list (@act fz) := [AEnter [(0, 10); (1, 20)]]%Z.

Lemma top_val : fval 0x1.fffffffffffffp-1%float = 1 - / IZR (2 ^ 53).
Proof.
  unfold fval. change (Prim2SF 0x1.fffffffffffffp-1%float) with (S754_finite false 9007199254740991 (-53)).
  unfold BinarySingleNaN.SF2R, Defs.F2R. cbn [SpecFloat.cond_Zopp Defs.Fnum Defs.Fexp].
  change (Core.Raux.bpow Zaux.radix2 (-53)) with (/ IZR (2 ^ 53)).
  assert (E : IZR 9007199254740991 = IZR (2 ^ 53) - 1) by (rewrite <- minus_IZR; apply f_equal; reflexivity).
  rewrite E. assert (0 < IZR (2 ^ 53)) by (apply IZR_lt; reflexivity). field. lra.
Qed.
Lemma top_log : log_correct (fun x => PrimFloat.sub x 1%float) 0x1.fffffffffffffp-1%float.
Proof.
  split; [reflexivity|]. unfold near. rewrite top_val.
  assert (El : fval (PrimFloat.sub 0x1.fffffffffffffp-1 1) = - / IZR (2 ^ 53)).
  { unfold fval. change (Prim2SF (PrimFloat.sub 0x1.fffffffffffffp-1 1)) with (S754_finite true 4503599627370496 (-105)).
    unfold BinarySingleNaN.SF2R, Defs.F2R. cbn [SpecFloat.cond_Zopp Defs.Fnum Defs.Fexp].
    change (Core.Raux.bpow Zaux.radix2 (-105)) with (/ IZR (2 ^ 105)).
    match goal with |- IZR ?z * _ = _ => change (IZR z) with (- IZR (2 ^ 52)) end.
    replace (IZR (2 ^ 105)) with (IZR (2 ^ 52) * IZR (2 ^ 53)) by (rewrite <- mult_IZR; apply f_equal; reflexivity).
    assert (P2 : 0 < IZR (2 ^ 52)) by (apply IZR_lt; reflexivity). assert (P3 : 0 < IZR (2 ^ 53)) by (apply IZR_lt; reflexivity).
    revert P2 P3. generalize (IZR (2 ^ 52)) (IZR (2 ^ 53)). intros a b P2 P3. field. split; lra. }
  rewrite El. unfold uround. set (y := / IZR (2 ^ 53)).
  assert (Y : 0 < y <= / 4).
  { split; [apply Rinv_0_lt_compat, IZR_lt; reflexivity|]. apply Rinv_le_contravar; [lra|]. apply IZR_le. vm_compute. discriminate. }
  assert (Up : ln (1 - y) <= - y) by (pose proof (ln_upper (1 - y) ltac:(lra)); lra).
  assert (Dn : - y - 2 * (y * y) <= ln (1 - y)).
  { assert (P : 0 < / (1 - y)) by (apply Rinv_0_lt_compat; lra). pose proof (ln_upper (/ (1 - y)) P) as X. rewrite ln_Rinv in X by lra.
    assert (Q : / (1 - y) <= 1 + y + 2 * (y * y)).
    { apply (Rmult_le_reg_r (1 - y)); [lra|]. rewrite Rinv_l by lra. nra. }
    lra. }
  rewrite (Rabs_left (ln (1 - y))) by lra. change (INR 1) with 1. apply Rabs_le. split; nra.
Qed.

Lemma numbers_by {N : Num} {G : Rng} (g : world) k e0 e1 e2 u v : option_map s_rng (ulookup k (g_sites g)) = Some e0 ->
  edraw e0 = (u, e1) -> edraw e1 = (v, e2) -> numbers g k u v.
Proof.
  intros E E1 E2. unfold numbers. destruct (ulookup k (g_sites g)) as [s|]; [|discriminate]. injection E as <-. eauto 6.
Qed.
(** walker 10 hops from site 1 to site 2, which has the rates 100 to site 1 and 1 to site 3 *)
Example C82_nonvacuous :
  exists g3 : @world fz ra,
    @reach impl0 fz ra uz cz g_a [] /\ NoDup (ukeys chain) /\ @sys_initializeSystem impl0 fz ra cz chain g_a = Ret tt g_b /\
    In (2%Z, [(1, 0); (3, 1)]%Z) chain /\ good_doubles (g_heap g_a) [(1, 0); (3, 1)]%Z /\
    @steps impl0 fz ra uz cz g_b [] [KEnter [(0, 10); (1, 20)]]%Z (@final impl0 fz ra uz cz l_b (g_b, [])) [10; 20]%Z /\
    @sys_hop impl0 fz ra uz cz 20 0 10 (@final impl0 fz ra uz cz l_b (g_b, [])) = Ret tt g3 /\ walker_on g3 10 2 /\
    cluster_of (@final impl0 fz ra uz cz l_b (g_b, [])) 2 unassignedId /\
    numbers (@final impl0 fz ra uz cz l_b (g_b, [])) 2 (0x1.fffffffffffffp-1%float : @num fz) (0.5%float : @num fz) /\
    fin 0x1.fffffffffffffp-1 /\ 0 < fval 0x1.fffffffffffffp-1 < 1 /\ log_correct (fun x => PrimFloat.sub x 1%float) 0x1.fffffffffffffp-1%float /\
    fin 0.5%float /\ 0 <= fval 0.5%float < 1 - INR (3 * 2 + 1) * (2 * uround).
Proof.
  set (g2 := @final impl0 fz ra uz cz l_b (g_b, [])).
  exists (state_of g2 (@sys_hop impl0 fz ra uz cz 20 0 10 g2)).
  assert (Bh : 2 <= IZR (2 ^ 53)) by (apply IZR_le; vm_compute; discriminate).
  assert (Bi : 0 < / IZR (2 ^ 53) <= / 2) by (split; [apply Rinv_0_lt_compat; lra|apply Rinv_le_contravar; lra]).
  split. { apply (@runs_reach impl0 fz ra uz cz [(10, wz 1); (20, wz 3)]%Z heap1 0 0); [repeat constructor; cbn; intuition lia|lia|vm_compute; reflexivity]. }
  split. { repeat constructor; cbn; intuition lia. }
  split. { apply ret_by. vm_compute. reflexivity. }
  split. { right. left. reflexivity. }
  split.
  { assert (B : 100 <= IZR (2 ^ 400)) by (apply IZR_le; vm_compute; discriminate).
    assert (B' : / IZR (2 ^ 400) <= / 100) by (apply Rinv_le_contravar; lra).
    change (g_heap g_a) with heap1.
    split; [discriminate|]. split; [repeat constructor; simpl; intuition discriminate|]. split; [vm_compute; discriminate|].
    intros n a [E|[E|[]]]; inversion E; subst; (split; [reflexivity|]).
    - change (heap1 0%Z) with 100%float. assert (V : fval 100%float = 100).
      { unfold fval. change (Prim2SF 100%float) with (S754_finite false 7036874417766400 (-46)). unfold BinarySingleNaN.SF2R, Defs.F2R. simpl. lra. }
      rewrite V. lra.
    - change (heap1 1%Z) with 1%float. rewrite fval_1. lra. }
  split. { assert (R : @runs impl0 fz ra uz cz ([] ++ l_b) (g_b, []) = true) by (vm_compute; reflexivity).
    assert (E10 : [10; 20]%Z = @inside impl0 fz ra uz cz l_b (g_b, [])) by (vm_compute; reflexivity).
    rewrite E10. apply (@exec_steps impl0 fz ra uz cz l_b), runs_exec, R. }
  split. { apply ret_by. vm_compute. reflexivity. }
  split. { on. }
  split. { labelled. }
  split. { apply (@numbers_by fz ra g2 2 true false true); vm_compute; reflexivity. }
  split; [reflexivity|]. split; [rewrite top_val; lra|]. split; [exact top_log|]. split; [reflexivity|].
  assert (Vh : fval 0.5%float = / 2).
  { unfold fval. change (Prim2SF 0.5%float) with (S754_finite false 4503599627370496 (-53)). unfold BinarySingleNaN.SF2R, Defs.F2R. simpl. lra. }
  rewrite Vh. unfold uround. assert (B6 : 64 <= IZR (2 ^ 53)) by (apply IZR_le; vm_compute; discriminate).
  assert (/ IZR (2 ^ 53) <= / 64) by (apply Rinv_le_contravar; lra). change (INR (3 * 2 + 1)) with (INR 7). simpl INR. lra.
Qed.
