(** * Concrete runs of the system, used as witnesses

    A program is a list of calls; [exec] runs it on the model and records that
    every call returned.  The runs use binary64 arithmetic, the stand-in
    [ln x = x - 1], the simplest hash order, sorting and graph library, and an
    engine whose draws are all the same number. *)
From Coq Require Import ZArith List Bool Floats Permutation Lia.
From Verif Require Import Base BaseProofs Num F64 WalkerModel SiteModel ClusterModel ContainerModel BasinModel
  SystemModel SystemSpec SystemShape SystemProofs.
Import ListNotations.
Open Scope Z_scope.

Section Exec.
Context {I : Impl} {N : Num} {G : Rng} {U : Ugly}.
Variable clk : Z -> Z.

Inductive act :=
| APerf (p : num) | ARes (t : num) | AThr (t : Z) | ASeed (s : Z) | AInit (rates : umap (umap Z)) | ARates (h : heap)
| AEnter (l : list (Z * Z)) | AHop (fuel : nat) (id p : Z) | ALeave (id p : Z) | AVisits (k : Z).

Definition call_of (a : act) : call :=
  match a with
  | APerf p => KPerf p | ARes t => KRes t | AThr t => KThr t | ASeed s => KSeed s | AInit r => KInit r | ARates _ => KRates
  | AEnter l => KEnter l | AHop _ _ p => KHop p | ALeave _ p => KLeave p | AVisits k => KVisits k
  end.
Definition nodupb (l : list Z) : bool :=
  (fix go l := match l with [] => true | x :: r => negb (existsb (Z.eqb x) r) && go r end) l.
Definition cur_of (g : world) (p : Z) : Z :=
  match ulookup p (g_walkers g) with Some w => w_cur w | None => unassignedId end.
Definition enter_ok (g : world) (ws : list Z) (l : list (Z * Z)) : bool :=
  nodupb (map snd l) && forallb (fun p => negb (existsb (Z.eqb p) ws)) (map snd l)
  && nodupb (map (cur_of g) (map snd l))
  && forallb (fun p => negb (existsb (fun q => cur_of g q =? cur_of g p) ws)) (map snd l)
  && forallb (fun p => match sys_getClusterId (cur_of g p) g with Ret c _ => c =? unassignedId | _ => false end) (map snd l).
Definition rates_ok (rates : umap (umap Z)) : bool :=
  nodupb (ukeys rates) && forallb (fun e => nodupb (ukeys (snd e))) rates.

Definition after {A} (o : outcome world A) (ws : list Z) : option (world * list Z) :=
  match o with Ret _ g => Some (g, ws) | _ => None end.
Definition exec1 (a : act) (gw : world * list Z) : option (world * list Z) :=
  let '(g, ws) := gw in
  match a with
  | APerf p => after (sys_setPerformanceRatio p g) ws
  | ARes t => after (sys_setTimeResolution t g) ws
  | AThr t => after (sys_setThreshold t g) ws
  | ASeed s => after (sys_setRandomSeed s g) ws
  | AInit r => if rates_ok r then after (sys_initializeSystem clk r g) ws else None
  | ARates h => Some (g_with_heap h g, ws)
  | AEnter l => if enter_ok g ws l then after (sys_initializeWalkers l g) (map snd l ++ ws) else None
  | AHop fuel id p => if existsb (Z.eqb p) ws then after (sys_hop clk fuel id p g) ws else None
  | ALeave id p => if existsb (Z.eqb p) ws then after (sys_removeWalker clk id p g) (remove Z.eq_dec p ws) else None
  | AVisits k => after (sys_getVisits k g) ws
  end.
Fixpoint exec (l : list act) (gw : world * list Z) : option (world * list Z) :=
  match l with [] => Some gw | a :: r => match exec1 a gw with Some gw' => exec r gw' | None => None end end.

Lemma nodupb_ok l : nodupb l = true -> NoDup l.
Proof.
  induction l as [|x l IH]; cbn; intros E; [constructor|]. apply andb_true_iff in E. destruct E as [E1 E2].
  apply negb_true_iff in E1. constructor; [|auto]. intros Hx.
  assert (X : existsb (Z.eqb x) l = true) by (apply existsb_exists; exists x; split; [exact Hx|apply Z.eqb_refl]). congruence.
Qed.
Lemma nodup_inj {A B} (f : A -> B) l x y : NoDup (map f l) -> In x l -> In y l -> f x = f y -> x = y.
Proof.
  induction l as [|z l IH]; cbn; intros ND Hx Hy E; [destruct Hx|]. inversion ND; subst.
  destruct Hx as [->|Hx], Hy as [->|Hy]; auto.
  - exfalso. apply H1. rewrite E. apply in_map, Hy.
  - exfalso. apply H1. rewrite <- E. apply in_map, Hx.
Qed.
Lemma on_cur g p k : walker_on g p k -> cur_of g p = k.
Proof. intros (w & E & <-). unfold cur_of. rewrite E. reflexivity. Qed.
Lemma in_ok p l : existsb (Z.eqb p) l = true -> In p l.
Proof. intros E. apply existsb_exists in E. destruct E as (x & Hx & E). apply Z.eqb_eq in E. subst; exact Hx. Qed.

Lemma exec1_ok a g ws g' ws' : exec1 a (g, ws) = Some (g', ws') -> step clk g ws (call_of a) g' ws'.
Proof.
  assert (Af : forall (o : outcome world unit) ws1, after o ws1 = Some (g', ws') -> o = Ret tt g' /\ ws' = ws1).
  { intros o ws1 E. destruct o as [[] x|x y|x]; inversion E; auto. }
  destruct a; cbn [exec1 call_of]; intros E.
  - apply Af in E. destruct E as [E ->]. eapply st_perf; eauto.
  - apply Af in E. destruct E as [E ->]. eapply st_res; eauto.
  - apply Af in E. destruct E as [E ->]. eapply st_thr; eauto.
  - apply Af in E. destruct E as [E ->]. eapply st_seed; eauto.
  - destruct (rates_ok rates) eqn:Er; [|discriminate]. apply Af in E. destruct E as [E ->].
    unfold rates_ok in Er. apply andb_true_iff in Er. destruct Er as [R1 R2]. rewrite forallb_forall in R2.
    eapply st_init; [apply nodupb_ok, R1| |exact E]. intros k r Hk. apply nodupb_ok. apply (R2 (k, r) Hk).
  - inversion E; subst. apply st_rates.
  - destruct (enter_ok g ws l) eqn:Er; [|discriminate]. apply Af in E. destruct E as [E ->].
    unfold enter_ok in Er. rewrite !andb_true_iff in Er. destruct Er as ((((R1 & R2) & R3) & R4) & R5).
    apply nodupb_ok in R1, R3. rewrite forallb_forall in R2, R4, R5.
    assert (Nw : forall p, In p (map snd l) -> ~ In p ws).
    { intros p Hp Hw. specialize (R2 p Hp). apply negb_true_iff in R2.
      assert (X : existsb (Z.eqb p) ws = true) by (apply existsb_exists; exists p; split; [exact Hw|apply Z.eqb_refl]). congruence. }
    eapply st_enter; [exact R1|exact Nw| | | |exact E].
    + intros p q k Hp Hq H1 H2. apply on_cur in H1, H2. eapply nodup_inj; [exact R3| | |]; auto. congruence.
    + intros p q k Hp Hq H1 H2. apply on_cur in H1, H2. specialize (R4 p Hp). apply negb_true_iff in R4.
      assert (X : existsb (fun q => cur_of g q =? cur_of g p) ws = true).
      { apply existsb_exists. exists q. split; [exact Hq|]. apply Z.eqb_eq. congruence. } congruence.
    + intros p k Hp H1. apply on_cur in H1. subst k. specialize (R5 p Hp). unfold cluster_of.
      destruct (sys_getClusterId (cur_of g p) g) as [c gx|? ?|?] eqn:Ec; [|discriminate|discriminate].
      apply Z.eqb_eq in R5. subst c. eauto.
  - destruct (existsb (Z.eqb p) ws) eqn:Ep; [|discriminate]. apply Af in E. destruct E as [E ->].
    eapply st_hop; [apply in_ok, Ep|exact E].
  - destruct (existsb (Z.eqb p) ws) eqn:Ep; [|discriminate]. apply Af in E. destruct E as [E ->].
    eapply st_leave; [apply in_ok, Ep|exact E].
  - destruct (sys_getVisits k g) as [v x|? ?|?] eqn:Ev; inversion E; subst. eapply st_visits; eauto.
Qed.
Lemma steps_front g ws c g1 ws1 tr g2 ws2 : step clk g ws c g1 ws1 -> steps clk g1 ws1 tr g2 ws2 -> steps clk g ws (c :: tr) g2 ws2.
Proof.
  intros S1 S2. induction S2; [apply (sts_step clk g ws [] g ws c _ _ (sts_refl clk g ws) S1)|].
  rewrite app_comm_cons. eapply sts_step; eauto.
Qed.
Lemma exec_steps l : forall g ws g' ws', exec l (g, ws) = Some (g', ws') -> steps clk g ws (map call_of l) g' ws'.
Proof.
  induction l as [|a l IH]; intros g ws g' ws' E; cbn [exec map] in *; [inversion E; subst; apply sts_refl|].
  destruct (exec1 a (g, ws)) as [[g1 ws1]|] eqn:E1; [|discriminate].
  eapply steps_front; [eapply exec1_ok; exact E1|apply IH, E].
Qed.
(** a state that a program reaches, if all its calls return *)
Lemma exec_reach walkers h count tick l g ws : NoDup (ukeys walkers) -> 0 <= count ->
  exec l (world_new walkers h count tick, []) = Some (g, ws) -> reach_by clk (map call_of l) g ws.
Proof. intros ND Hc E. exists walkers, h, count, tick. split; [exact ND|]. split; [exact Hc|]. apply (exec_steps _ _ _ _ _ E). Qed.

Definition runs (l : list act) (gw : world * list Z) : bool := match exec l gw with Some _ => true | None => false end.
Definition final (l : list act) (gw : world * list Z) : world := match exec l gw with Some x => fst x | None => fst gw end.
Definition inside (l : list act) (gw : world * list Z) : list Z := match exec l gw with Some x => snd x | None => [] end.
Lemma runs_exec l gw : runs l gw = true -> exec l gw = Some (final l gw, inside l gw).
Proof. unfold runs, final, inside. destruct (exec l gw) as [[g ws]|]; [reflexivity|discriminate]. Qed.
Lemma runs_reach_by walkers h count tick l : NoDup (ukeys walkers) -> 0 <= count ->
  runs l (world_new walkers h count tick, []) = true ->
  reach_by clk (map call_of l) (final l (world_new walkers h count tick, [])) (inside l (world_new walkers h count tick, [])).
Proof. intros ND Hc R. eapply exec_reach; [exact ND|exact Hc|]. apply runs_exec, R. Qed.
Lemma runs_reach walkers h count tick l : NoDup (ukeys walkers) -> 0 <= count ->
  runs l (world_new walkers h count tick, []) = true ->
  reach clk (final l (world_new walkers h count tick, [])) (inside l (world_new walkers h count tick, [])).
Proof. intros ND Hc R. eexists. apply runs_reach_by; assumption. Qed.
Lemma exec_app l1 : forall l2 gw, exec (l1 ++ l2) gw = match exec l1 gw with Some gw' => exec l2 gw' | None => None end.
Proof. induction l1 as [|a l1 IH]; intros l2 gw; [reflexivity|]. cbn [app exec]. destruct (exec1 a gw); [apply IH|reflexivity]. Qed.
Lemma final_hop l fuel id p gw : runs (l ++ [AHop fuel id p]) gw = true ->
  sys_hop clk fuel id p (final l gw) = Ret tt (final (l ++ [AHop fuel id p]) gw) /\ In p (inside l gw).
Proof.
  intros R. apply runs_exec in R. rewrite exec_app in R. unfold final at 1, inside.
  destruct (exec l gw) as [[g ws]|] eqn:E; [|discriminate]. cbn [exec fst snd] in *. revert R.
  generalize (final (l ++ [AHop fuel id p]) gw) (inside (l ++ [AHop fuel id p]) gw). intros g1 ws1 R.
  destruct (exec1 (AHop fuel id p) (g, ws)) as [gw2|] eqn:E1; [|discriminate]. inversion R; subst gw2; clear R.
  cbn [exec1] in E1. destruct (existsb (Z.eqb p) ws) eqn:Ep; [|discriminate]. apply in_ok in Ep. split; [|exact Ep].
  destruct (sys_hop clk fuel id p g) as [[] ?|? ?|?]; inversion E1; reflexivity.
Qed.
Lemma final_thr l t gw : runs (l ++ [AThr t]) gw = true -> sys_setThreshold t (final l gw) = Ret tt (final (l ++ [AThr t]) gw).
Proof.
  intros R. apply runs_exec in R. rewrite exec_app in R. unfold final at 1.
  destruct (exec l gw) as [[g ws]|] eqn:E; [|discriminate]. cbn [exec fst snd] in *. revert R.
  generalize (final (l ++ [AThr t]) gw) (inside (l ++ [AThr t]) gw). intros g1 ws1 R.
  destruct (exec1 (AThr t) (g, ws)) as [gw2|] eqn:E1; [|discriminate]. inversion R; subst gw2; clear R.
  cbn [exec1] in E1. destruct (sys_setThreshold t g) as [[] ?|? ?|?]; inversion E1; reflexivity.
Qed.
Lemma runs_steps l l' gw : runs (l ++ l') gw = true ->
  steps clk (final l gw) (inside l gw) (map call_of l') (final (l ++ l') gw) (inside (l ++ l') gw).
Proof.
  intros R. apply runs_exec in R. rewrite exec_app in R. unfold final at 1, inside at 1.
  destruct (exec l gw) as [[g ws]|]; [|discriminate]. apply exec_steps in R. exact R.
Qed.
End Exec.
Arguments act {N}.

(** ** The concrete instances *)
Definition fz : Num := F64 (fun x => PrimFloat.sub x 1%float).
Definition rz (x : float) : @Rng fz := @Build_Rng fz unit (fun _ => tt) (fun _ => ((x : @num fz), tt)).
Lemma uz_in (e : @edge fz) l : In e (e :: l). Proof. left; reflexivity. Qed.
Definition uz : @Ugly fz := {|
  u_order := fun _ _ l => l; u_order_perm := fun _ _ l => Permutation_refl l;
  u_next := fun _ _ e _ => e; u_next_in := fun _ _ e l => uz_in e l;
  u_verts := fun _ l => l; u_verts_perm := fun _ l => Permutation_refl l;
  u_far := fun _ _ _ => None |}.
Definition cz : Z -> Z := fun t => t.
Definition wz (k : Z) : @walker fz := @mkWalker fz k unassignedId 0%float.
