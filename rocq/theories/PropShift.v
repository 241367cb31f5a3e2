(** * C86, C41: the ids of clusters are only names *)
From Coq Require Import ZArith List Bool Floats Lia.
From Verif Require Import Base BaseProofs Num F64 WalkerModel SiteModel ClusterModel ContainerModel BasinModel
  SystemModel SystemSpec SystemShape SystemProofs SystemRuns QuerySpec NameSpec SeedSpec ShiftSpec SystemRename PropSystem PropQuery PropSeed PropDrainSeed.
Import ListNotations.
Open Scope Z_scope.

(** ** C86 *)
(** A program run in a process that has already used up [d] more cluster ids:
    the walkers, their targets and dwell times, the occupation and the visits
    are the same, and so are the clusters up to [d] in their ids.  Both runs get
    the same answers from clock and engines; hash tables as in ShiftSpec.v. *)
Theorem C86_cluster_ids_are_names :
  forall (I : Impl) (N : Num) (G : Rng) (U : Ugly) (clk : Z -> Z) (walkers : umap walker) (h : heap) (count d tick : Z) (l : list act),
    keys_only -> shifts_alike d -> 0 <= count -> 0 <= d ->
    match exec clk l (world_new walkers h count tick, []), exec clk l (world_new walkers h (count + d) tick, []) with
    | Some (g, ws), Some (g', ws') => ws' = ws /\ renumbered d g g'
    | None, None => True
    | _, _ => False
    end.
Proof. intros. apply exec_shift; assumption. Qed.
Print Assumptions C86_cluster_ids_are_names.

(** ** C41 *)
(** What is left of C41 for a second run in the same process, which
    C41_second_run_refuted shows to have other cluster ids: nothing but the ids
    differs, whatever the clocks return. *)
Lemma renumbered_after {I : Impl} {N : Num} {G : Rng} {U : Ugly} d (g1 g2 g3 : world) : same_answers g1 g2 -> renumbered d g2 g3 -> renumbered d g1 g3.
Proof.
  intros (A1 & A2 & A3 & A4 & A5 & A6 & A7) (B1 & B2 & B3 & B4 & B5 & B6 & B7).
  split; [congruence|]. split; [intros m; rewrite A2; apply B2|]. split; [intros m; rewrite A3; apply B3|]. split; [intros m; rewrite A4; apply B4|].
  split; [|split; [intros k b; rewrite A6; apply B6|intros k v; rewrite A7; apply B7]].
  intros k c'. rewrite B5. split; intros (c & H1 & H2); exists c; (split; [apply A5, H1|exact H2]).
Qed.
Theorem C41_second_run_agrees_partial :
  forall (I : Impl) (N : Num) (G : Rng) (U : Ugly) (clk1 clk2 : Z -> Z) (walkers : umap walker) (h : heap) (count d tick : Z) (l : list act),
    keys_only -> shifts_alike d -> drains_keep_still -> NoDup (ukeys walkers) -> 0 <= count -> 0 <= d -> seeds_first l ->
    match exec clk1 l (world_new walkers h count tick, []), exec clk2 l (world_new walkers h (count + d) tick, []) with
    | Some (g, ws), Some (g', ws') => ws' = ws /\ renumbered d g g'
    | None, None => True
    | _, _ => False
    end.
Proof.
  intros I N G U clk1 clk2 walkers h count d tick l K Kd S ND Hc Hd Hs.
  pose proof (C41_drains_agree_partial I N G U clk1 clk2 walkers h count tick l K S ND Hc Hs) as A.
  pose proof (C86_cluster_ids_are_names I N G U clk2 walkers h count d tick l K Kd Hc Hd) as B.
  destruct (exec clk1 l (world_new walkers h count tick, [])) as [[g1 w1]|], (exec clk2 l (world_new walkers h count tick, [])) as [[g2 w2]|],
    (exec clk2 l (world_new walkers h (count + d) tick, [])) as [[g3 w3]|]; try contradiction; [|exact Logic.I].
  destruct A as [-> A], B as [-> B]. split; [reflexivity|]. apply (renumbered_after d g1 g2 g3); assumption.
Qed.
Print Assumptions C41_second_run_agrees_partial.

(** ** A program that meets the hypotheses *)
Lemma impl0_shifts d : @shifts_alike impl0 d.
Proof. intros V m k v _ _. unfold kshift. cbn. rewrite map_app. reflexivity. Qed.
(** two clusters, 0 and 2 in the first run, 4 and 6 in the second *)
Example C86_nonvacuous :
  @keys_only impl0 /\ @shifts_alike impl0 4 /\ @drains_keep_still fz r_seed
  /\ g_count (run_s 0) = 4
  /\ has_cluster (run_s 0) 0 = true /\ has_cluster (run_s 0) 2 = true /\ has_cluster (run_s 0) 4 = false
  /\ has_cluster (run_s 4) 4 = true /\ has_cluster (run_s 4) 6 = true /\ has_cluster (run_s 4) 0 = false
  /\ match @exec impl0 fz r_seed uz even_clock (seed_s ++ calls_s) start_s with Some _ => true | None => false end = true.
Proof.
  split; [exact keys_impl0|]. split; [apply impl0_shifts|]. split.
  { intros e1 e2 e1' e2' u1 u2 E1 E2. cbn in E1, E2. injection E1. injection E2. intros _ <- _ <-.
    destruct (Z.even e1), (Z.even e2); reflexivity. }
  repeat (split; [vm_compute; reflexivity|]). vm_compute. reflexivity.
Qed.

(** ** A table with buckets *)
(** Where libstdc++ puts a new key in a table of [n] buckets: in front of the
    keys of its bucket, or in front of everything if the bucket is empty. *)
Fixpoint in_bucket {V} (n : Z) (m : umap V) (k : Z) (v : V) : option (umap V) :=
  match m with
  | [] => None
  | e :: r => if (fst e - k) mod n =? 0 then Some ((k, v) :: m) else option_map (cons e) (in_bucket n r k v)
  end.
Definition bplace (n : Z) V (m : umap V) (k : Z) (v : V) : umap V :=
  match in_bucket n m k v with Some m' => m' | None => (k, v) :: m end.
Lemma bplace_perm n V (m : umap V) k v : Permutation.Permutation (bplace n V m k v) ((k, v) :: m).
Proof.
  unfold bplace. assert (X : forall m', in_bucket n m k v = Some m' -> Permutation.Permutation m' ((k, v) :: m)).
  { induction m as [|e m IH]; intros m' E; [discriminate|]. cbn [in_bucket] in E. destruct (_ =? 0); [inversion E; apply Permutation.Permutation_refl|].
    destruct (in_bucket n m k v) as [x|]; [|discriminate]. inversion E; subst. eapply Permutation.perm_trans; [apply Permutation.perm_skip, IH; reflexivity|apply Permutation.perm_swap]. }
  destruct (in_bucket n m k v); [apply X; reflexivity|apply Permutation.Permutation_refl].
Qed.
Definition buckets (n : Z) : Impl := {|
  hplace := bplace n; hplace_perm := bplace_perm n;
  psort := @psort impl0; psort_perm := @psort_perm impl0; psort_sorted := @psort_sorted impl0 |}.
Example C86_buckets_nonvacuous : forall n d, @keys_only (buckets n) /\ @shifts_alike (buckets n) d.
Proof.
  intros n d. split.
  - intros V W f m k v. cbn. unfold bplace.
    assert (X : in_bucket n (vmap f m) k (f v) = option_map (vmap f) (in_bucket n m k v)).
    { induction m as [|e m IH]; [reflexivity|]. cbn [vmap map in_bucket fst]. destruct (_ =? 0); [reflexivity|].
      change (map (fun e => (fst e, f (snd e))) m) with (vmap f m). rewrite IH. destruct (in_bucket n m k v); reflexivity. }
    rewrite X. destruct (in_bucket n m k v); reflexivity.
  - intros V m k v _ _. cbn. unfold bplace.
    assert (X : in_bucket n (kshift d m) (k + d) v = option_map (kshift d) (in_bucket n m k v)).
    { induction m as [|e m IH]; [reflexivity|]. cbn [kshift map in_bucket fst snd]. replace (fst e + d - (k + d)) with (fst e - k) by lia.
      destruct (_ =? 0); [reflexivity|]. change (map (fun e => (fst e + d, snd e)) m) with (kshift d m). rewrite IH. destruct (in_bucket n m k v); reflexivity. }
    rewrite X. destruct (in_bucket n m k v); reflexivity.
Qed.
