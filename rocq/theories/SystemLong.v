(** * A walker that hops between two sites for a very long time

    Two sites that are each other's only neighbours, one walker.  No attempt
    to coarse grain ever succeeds, because the pair has no rate leading out. *)
From Coq Require Import ZArith List Bool Floats Permutation Lia.
From Verif Require Import Base BaseProofs Num F64 WalkerModel SiteModel ClusterModel ContainerModel BasinModel SystemModel
  SystemSpec SystemShape SystemProofs SystemFacts SystemControl SystemRuns.
Import ListNotations.
Open Scope Z_scope.

Definition heapT : @heap fz := fun _ => 1%float.
Definition pairT : umap (umap Z) := [(1, [(2, 0)]); (2, [(1, 0)])].
Notation rT := (rz 0.5%float).
Notation worldT := (@world fz rT).
Notation hopT := (@sys_hop impl0 fz rT uz cz).
Notation stepsT := (@steps impl0 fz rT uz cz).
Definition startT : worldT * list Z := (world_new [(10, wz 1)] heapT 0 0, []).
Definition setupT (thr : list (@act fz)) : list (@act fz) :=
  [ARes (5%float : @num fz)] ++ thr ++ [AInit pairT; AEnter [(0, 10)]].

Definition siteT (k n occ v : Z) : @site fz rT :=
  @mkSite fz rT (Some k) unassignedId occ v 1%float [(n, 0)] [(n, 1%float)] tt.
(** equality by computation, without writing out the result *)
Ltac vmref := match goal with |- _ = ?r => vm_cast_no_check (eq_refl r) end.
(** the walker is on site 1 ([b]) or on site 2 *)
Definition W (b : bool) (i thr thrmin v1 v2 t : Z) : worldT :=
  @mkWorld fz rT 1%float None (Some (5%float : @num fz)) i thr thrmin [(1, PSite 1); (2, PSite 2)]
    [(1, siteT 1 2 (if b then 1 else 0) v1); (2, siteT 2 1 (if b then 0 else 1) v2)] []
    [(10, @mkWalker fz (if b then 1 else 2) (if b then 2 else 1) 0.5%float)] heapT 0 t.
Definition two (g : worldT) (i thr thrmin : Z) : Prop := exists b v1 v2 t, g = W b i thr thrmin v1 v2 t.

Lemma move_two (b : bool) i thr thrmin v1 v2 t :
  @hop_move impl0 fz rT cz 0 10 (if b : bool then 1 else 2) (if b then 2 else 1) (W b i thr thrmin v1 v2 t)
  = Ret tt (W (negb b) i thr thrmin (if b then v1 else v1 + 1) (if b then v2 + 1 else v2) (t + 1)).
Proof. destruct b; vmref. Qed.
Lemma coarse_two b i thr thrmin v1 v2 t k : k = 1 \/ k = 2 ->
  @coarse_grain impl0 fz rT uz cz 20 k (W b i thr thrmin v1 v2 t) = Ret false (W b i thr thrmin v1 v2 (t + 1)).
Proof. intros [->| ->]; destruct b; vmref. Qed.
Lemma hop_two g i thr thrmin : two g i thr thrmin -> exists g1 k, (k = 1 \/ k = 2) /\ two g1 i thr thrmin /\
  hopT 20 0 10 g = @hop_attempt impl0 fz rT uz cz 20 k g1.
Proof.
  intros (b & v1 & v2 & t & ->).
  exists (W (negb b) i thr thrmin (if b then v1 else v1 + 1) (if b then v2 + 1 else v2) (t + 1)), (if b then 2 else 1).
  split; [destruct b; auto|]. split; [do 4 eexists; reflexivity|].
  unfold sys_hop.
  assert (E1 : in_walker 10 w_getSite (W b i thr thrmin v1 v2 t) = Ret (if b then 1 else 2) (W b i thr thrmin v1 v2 t))
    by (destruct b; vmref).
  assert (E2 : in_walker 10 w_getPotentialSite (W b i thr thrmin v1 v2 t) = Ret (if b then 2 else 1) (W b i thr thrmin v1 v2 t))
    by (destruct b; vmref).
  unfold bind at 1. rewrite E1. unfold bind at 1. rewrite E2. unfold bind at 1. rewrite move_two. reflexivity.
Qed.
Lemma two_iter g i thr thrmin : two g i thr thrmin -> g_iter g = i /\ g_thr g = thr /\ g_thrmin g = thrmin.
Proof. intros (b & v1 & v2 & t & ->). auto. Qed.
Lemma two_set g i thr thrmin i' thr' : two g i thr thrmin -> two (g_with_iter i' (g_with_thr thr' g)) i' thr' thrmin.
Proof. intros (b & v1 & v2 & t & ->). exists b, v1, v2, t. reflexivity. Qed.
Lemma two_set_iter g i thr thrmin i' : two g i thr thrmin -> two (g_with_iter i' g) i' thr thrmin.
Proof. intros (b & v1 & v2 & t & ->). exists b, v1, v2, t. reflexivity. Qed.
Lemma two_coarse g i thr thrmin k : k = 1 \/ k = 2 -> two g i thr thrmin ->
  exists g', @coarse_grain impl0 fz rT uz cz 20 k g = Ret false g' /\ two g' i thr thrmin.
Proof. intros Hk (b & v1 & v2 & t & ->). eexists. split; [apply coarse_two, Hk|]. do 4 eexists. reflexivity. Qed.

(** a hop below the threshold *)
Lemma hop_waits g i thr thrmin : two g i thr thrmin -> i < thr -> in_int (i + 1) = true ->
  exists g', hopT 20 0 10 g = Ret tt g' /\ two g' (i + 1) thr thrmin.
Proof.
  intros T L B. destruct (hop_two _ _ _ _ T) as (g1 & k & _ & T1 & ->). destruct (two_iter _ _ _ _ T1) as (Ei & Et & _).
  exists (g_with_iter (i + 1) g1). split; [|eapply two_set_iter; eauto].
  unfold hop_attempt, bind, gets, modify, lift, chk. rewrite Ei, B. cbn [g_thr g_with_iter]. rewrite Et.
  destruct (Z.ltb_spec thr (i + 1)); [lia|reflexivity].
Qed.
(** the counter overflows *)
Lemma hop_overflow g thr thrmin : two g INT_MAX thr thrmin -> hopT 20 0 10 g = Halt Undefined.
Proof.
  intros T. destruct (hop_two _ _ _ _ T) as (g1 & k & _ & T1 & ->). destruct (two_iter _ _ _ _ T1) as (Ei & _ & _).
  unfold hop_attempt, bind, gets, lift, chk. rewrite Ei. reflexivity.
Qed.
(** a hop that attempts, in vain *)
Lemma hop_fails g i thr thrmin : two g i thr thrmin -> thr <= i -> in_int (i + 1) = true -> thrmin <> inf_iterations ->
  exists g1, two g1 0 (thr * 2) thrmin /\
    hopT 20 0 10 g = if in_int (thr * 2) then Ret tt g1 else Halt Undefined.
Proof.
  intros T L B F. destruct (hop_two _ _ _ _ T) as (g1 & k & Hk & T1 & ->). destruct (two_iter _ _ _ _ T1) as (Ei & Et & Em).
  destruct (two_coarse _ _ _ _ k Hk (two_set_iter _ _ _ _ (i + 1) T1)) as (g2 & E2 & T2). destruct (two_iter _ _ _ _ T2) as (_ & Et2 & _).
  exists (g_with_iter 0 (g_with_thr (thr * 2) g2)). split; [eapply two_set; eauto|].
  unfold hop_attempt, bind, gets, modify, lift, chk. rewrite Ei, B. cbn [g_thr g_with_iter]. rewrite Et.
  destruct (Z.ltb_spec thr (i + 1)); [|lia]. cbn [g_thrmin g_with_iter]. rewrite Em. apply Z.eqb_neq in F. rewrite F. cbn [negb]. rewrite E2. cbv iota beta. rewrite Et2.
  destruct (in_int (thr * 2)); reflexivity.
Qed.

Lemma steps_app g ws tr g1 ws1 tr' g2 ws2 : stepsT g ws tr g1 ws1 -> stepsT g1 ws1 tr' g2 ws2 -> stepsT g ws (tr ++ tr') g2 ws2.
Proof.
  intros S1 S2. induction S2; [rewrite app_nil_r; exact S1|]. rewrite app_assoc. eapply sts_step; eauto.
Qed.
Lemma one_hop g g' : hopT 20 0 10 g = Ret tt g' -> stepsT g [10] [KHop 10] g' [10].
Proof. intros E. apply (sts_step cz g [10] [] g [10] (KHop 10) g' [10] (sts_refl cz g [10])). eapply st_hop; [left; reflexivity|exact E]. Qed.
(** only hops by the walker *)
Definition only_hops (tr : list (@call fz)) : Prop := Forall (fun c => c = KHop 10) tr.
Lemma wait_two n : 0 <= n -> forall g i thr thrmin, two g i thr thrmin -> 0 <= i -> i + n <= thr -> i + n <= INT_MAX ->
  exists tr g', stepsT g [10] tr g' [10] /\ two g' (i + n) thr thrmin /\ only_hops tr /\ hops tr = n.
Proof.
  revert n. apply (natlike_ind (fun n => forall g i thr thrmin, two g i thr thrmin -> 0 <= i -> i + n <= thr -> i + n <= INT_MAX ->
    exists tr g', stepsT g [10] tr g' [10] /\ two g' (i + n) thr thrmin /\ only_hops tr /\ hops tr = n)).
  - intros g i thr thrmin T _ _ _. exists [], g. rewrite Z.add_0_r. split; [constructor|]. split; [exact T|]. split; [constructor|reflexivity].
  - intros n Hn IH g i thr thrmin T Hi L M. destruct (IH g i thr thrmin T Hi ltac:(lia) ltac:(lia)) as (tr & g1 & S & T1 & O & Hh).
    destruct (hop_waits _ _ _ _ T1) as (g2 & E & T2); [lia|apply in_int_iff; unfold INT_MIN; lia|].
    exists (tr ++ [KHop 10]), g2. split; [eapply steps_app; [exact S|apply one_hop, E]|].
    replace (i + Z.succ n) with (i + n + 1) by lia. split; [exact T2|]. split; [|rewrite hops_app, Hh; reflexivity].
    apply Forall_app. split; [exact O|constructor; [reflexivity|constructor]].
Qed.
(** one period: wait, then fail *)
Lemma period_two g thr thrmin : two g 0 thr thrmin -> 0 <= thr -> in_int (thr * 2) = true -> thrmin <> inf_iterations ->
  exists tr g', stepsT g [10] tr g' [10] /\ two g' 0 (thr * 2) thrmin /\ only_hops tr /\ hops tr = thr + 1.
Proof.
  intros T H0 B F. apply in_int_iff in B.
  destruct (wait_two thr H0 g 0 thr thrmin T) as (tr & g1 & S & T1 & O & Hh); [lia|lia|lia|]. cbn [Z.add] in T1.
  destruct (hop_fails _ _ _ _ T1) as (g2 & T2 & E); [lia|apply in_int_iff; unfold INT_MIN, INT_MAX in *; lia|exact F|].
  assert (B' : in_int (thr * 2) = true) by (apply in_int_iff; exact B). rewrite B' in E.
  exists (tr ++ [KHop 10]), g2. split; [eapply steps_app; [exact S|apply one_hop, E]|]. split; [exact T2|].
  split; [|rewrite hops_app, Hh; reflexivity]. apply Forall_app. split; [exact O|constructor; [reflexivity|constructor]].
Qed.
Lemma periods_two k : forall g thr thrmin, two g 0 thr thrmin -> 0 < thr -> thr * 2 ^ Z.of_nat k <= INT_MAX -> thrmin <> inf_iterations ->
  exists tr g', stepsT g [10] tr g' [10] /\ two g' 0 (thr * 2 ^ Z.of_nat k) thrmin /\ only_hops tr.
Proof.
  induction k as [|k IH]; intros g thr thrmin T H0 B F.
  - exists [], g. cbn [Z.of_nat]. rewrite Z.pow_0_r, Z.mul_1_r. split; [constructor|]. split; [exact T|constructor].
  - rewrite Nat2Z.inj_succ, Z.pow_succ_r in * by lia. rewrite Z.mul_assoc in *.
    assert (P : 0 < 2 ^ Z.of_nat k) by (apply Z.pow_pos_nonneg; lia).
    destruct (period_two g thr thrmin T) as (tr & g1 & S & T1 & O & _); [lia|apply in_int_iff; unfold INT_MIN, INT_MAX in *; nia|exact F|].
    destruct (IH g1 (thr * 2) thrmin T1) as (tr' & g2 & S' & T2 & O'); [lia|nia|exact F|].
    exists (tr ++ tr'), g2. split; [eapply steps_app; eauto|]. split; [exact T2|]. apply Forall_app. auto.
Qed.
