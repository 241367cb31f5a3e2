(** * C70: systems in one program do not disturb each other

    The theorems are about programs with any number of systems, any
    interleaving of their calls and of changes of rates and walkers between
    them ([happened], ManySpec.v).  A walker is in one system at a time. *)
From Coq Require Import ZArith List Bool Reals Floats Lia Lra.
From Verif Require Import Base BaseProofs Num F64 WalkerModel SiteModel SiteSpec ClusterModel ContainerModel BasinModel BasinSpec
  SystemModel SystemSpec SystemShape SystemProofs SystemFacts SystemRuns ReportSpec ValidSpec SystemChain PropSystem PropValid ManySpec ManyProofs.
Import ListNotations.
Open Scope Z_scope.

(** ** The example *)
(** two chains; system 2 puts walker 30 on site 1 and makes a cluster, system 1
    has walkers 10 and 20; the calls alternate *)
Notation start_m := (program_new [(10, wz 1); (20, wz 3); (30, wz 1); (31, wz 5)] heap1 0 0).
Definition setup_m (i : Z) (l : list (Z * Z)) : list (Z * @act fz) :=
  [(i, ARes (5%float : @num fz)); (i, AThr 0); (i, AInit chain); (i, AEnter l)].
Definition one_m : list (Z * @act fz) := setup_m 1 [(0, 10); (1, 20)] ++ [(1, AHop 20 0 10); (1, AHop 20 1 20)].
Definition two_m : list (Z * @act fz) :=
  [(2, ARes (5%float : @num fz)); (2, AThr 0); (2, AInit chain); (2, AEnter [(0, 30)]); (2, AHop 20 0 30)] ++ one_m.
Notation runs_m := (@mruns impl0 fz rh uz cz [1; 2]).
Notation final_m l := (@mfinal impl0 fz rh uz cz [1; 2] l start_m).
Lemma start_nd : NoDup (ukeys ([(10, wz 1); (20, wz 3); (30, wz 1); (31, wz 5)] : umap (@walker fz))).
Proof. repeat constructor; cbn; intuition lia. Qed.
Lemma happened_m l : runs_m l start_m = true -> @happened impl0 fz rh uz cz (map event_of l) (final_m l).
Proof.
  intros E. exists [(10, wz 1); (20, wz 3); (30, wz 1); (31, wz 5)], heap1, 0, 0. split; [exact start_nd|]. split; [lia|]. apply mruns_goes, E.
Qed.
Example labels_m : runs_m one_m start_m = true /\ runs_m two_m start_m = true /\
  map (label (view (final_m one_m) 1)) [1; 2; 3; 4; 5] = [0; 0; 2; 2; unassignedId] /\
  map (label (view (final_m two_m) 1)) [1; 2; 3; 4; 5] = [2; 2; 4; 4; unassignedId] /\
  map (label (view (final_m two_m) 2)) [1; 2; 3; 4; 5] = [0; 0; unassignedId; unassignedId; unassignedId].
Proof. vm_compute. auto. Qed.

(** ** C70 *)
(** Each system is in a state it could have reached as the only system: its own
    calls, in between some changes of walkers it does not hold, of rates, and
    of the counter of cluster ids.  Every theorem about [reach] and [reach_by]
    thus holds for each of several systems. *)
Theorem C70_as_if_alone :
  forall (I : Impl) (N : Num) (G : Rng) (U : Ugly) (clk : Z -> Z) (es : list event) (p : program) (i : Z),
    happened clk es p -> reach_by clk (flat_map (seen_by i) es) (view p i) (p_inside p i).
Proof. intros I N G U clk es p i Hd. exact (as_if_alone clk es p Hd i). Qed.
Print Assumptions C70_as_if_alone.
Example C70_as_if_alone_nonvacuous :
  exists p : @program fz rh, @happened impl0 fz rh uz cz (map event_of two_m) p /\ p_inside p 1 = [10; 20] /\ p_inside p 2 = [30].
Proof. exists (final_m two_m). split; [apply happened_m; vm_compute; reflexivity|]. split; vm_compute; reflexivity. Qed.

(** A call of one system changes nothing that another system or the walkers in
    it report. *)
Theorem C70_untouched :
  forall (I : Impl) (N : Num) (G : Rng) (U : Ugly) (clk : Z -> Z) (es : list event) (p : program) (i : Z) (c : call) (p' : program) (j : Z),
    happened clk es p -> happens clk p (On i c) p' -> j <> i ->
    p_inside p' j = p_inside p j /\
    (forall q, In q (p_inside p j) -> ulookup q (p_walkers p') = ulookup q (p_walkers p)) /\
    (forall k x, cluster_of (view p' j) k x <-> cluster_of (view p j) k x) /\
    (forall x k, listed (view p' j) x k <-> listed (view p j) x k) /\
    (forall k v, visits (view p' j) k v <-> visits (view p j) k v) /\
    (forall k b, taken (view p' j) k b <-> taken (view p j) k b) /\
    (forall x t, increment (view p' j) x t <-> increment (view p j) x t) /\
    (forall x t, cluster_resolution (view p' j) x t <-> cluster_resolution (view p j) x t).
Proof. intros I N G U clk es p i c p' j Hd Hs. exact (untouched clk es p i c p' Hd Hs j). Qed.
Print Assumptions C70_untouched.
(** the hop of walker 20 makes a cluster of system 1; system 2 has one too *)
Example C70_untouched_nonvacuous :
  exists p p' : @program fz rh, @happened impl0 fz rh uz cz (map event_of (removelast two_m)) p /\
    @happens impl0 fz rh uz cz p (On 1 (KHop 20)) p' /\ @cluster_of fz rh (view p 2) 1 0 /\ @listed impl0 fz rh (view p 2) 0 2.
Proof.
  exists (final_m (removelast two_m)), (final_m two_m). split; [apply happened_m; vm_compute; reflexivity|]. split.
  - apply (mruns_last (I := impl0) (U := uz) cz [1; 2] (removelast two_m) (1, AHop 20 1 20)). vm_compute. reflexivity.
  - split; [labelled|listing].
Qed.

(** The validity conditions of C48 are about one system's calls; if the rates
    stay, hops of that system return, whatever the program does with others. *)
Theorem C70_hop_returns :
  forall (I : Impl) (G : @Rng XR) (U : @Ugly XR) (clk : Z -> Z) (lo hi : R) (es : list event) (p : program) (i id q : Z),
    open_draws G -> rate_bounds lo hi -> happened clk es p -> ~ In Rates es ->
    Forall (valid_call (p_heap p)) (calls_on i es) -> Forall (paced_call (p_heap p) lo hi) (calls_on i es) ->
    few_hops lo hi (hops (calls_on i es) + 1) -> In q (p_inside p i) ->
    exists g' n, forall fuel, (n <= fuel)%nat -> sys_hop clk fuel id q (view p i) = Ret tt g'.
Proof.
  intros I G U clk lo hi es p i id q HD HB Hd Nr Fv Fp Few Hq.
  apply (C48_hop_returns_partial I G U clk lo hi (flat_map (seen_by i) es) (view p i) (p_inside p i) id q HD HB); [|rewrite seen_hops; exact Few|exact Hq].
  split; [apply as_if_alone, Hd|]. change (g_heap (view p i)) with (p_heap p).
  split; apply seen_all; auto; exact Logic.I.
Qed.
Print Assumptions C70_hop_returns.
(** the chain of SystemChain.v in system 1, while system 2 is set up *)
Example C70_hop_returns_nonvacuous :
  exists (es : list event) (p : @program XR rng_c),
    open_draws rng_c /\ rate_bounds 1 101 /\ @happened impl0 XR rng_c ugly_c clk_c es p /\ ~ In Rates es /\
    Forall (valid_call (p_heap p)) (calls_on 1 es) /\ Forall (paced_call (p_heap p) 1 101) (calls_on 1 es) /\
    few_hops 1 101 (hops (calls_on 1 es) + 1) /\ In 10 (p_inside p 1) /\ In (On 2 (KThr 7)) es.
Proof.
  destruct chain_c as (g & g' & n & c & V & _). destruct V as ((m & h & count & tick & ND & Hc & S) & Fv & Fp).
  destruct (embed (I := impl0) (U := ugly_c) clk_c 1 m h count tick _ _ _ S eq_refl) as (p & Go & Ev & Ei & Ej).
  assert (Ec : calls_on 1 (map (On 1) calls_c ++ [On 2 (KThr 7)]) = calls_c) by reflexivity.
  assert (Eh : p_heap p = g_heap g) by (rewrite <- Ev; reflexivity).
  eexists (map (On 1) calls_c ++ [On 2 (KThr 7)]), _. rewrite Ec.
  split; [exact fair_c|]. split; [exact bounds_c|]. split.
  { exists m, h, count, tick. split; [exact ND|]. split; [exact Hc|]. eapply go_step; [exact Go|]. apply ev_call; [reflexivity|apply st_thr; reflexivity|].
    intros q j Hq Nj. rewrite (Ej 2) in Hq by lia. destruct Hq. }
  split; [cbn; intuition discriminate|]. match goal with |- context [Forall (valid_call (p_heap ?x))] => change (p_heap x) with (p_heap p) end. rewrite Eh.
  split; [exact Fv|]. split; [exact Fp|]. split; [apply few_c; vm_compute; discriminate|]. split; [cbn; rewrite Ei; left; reflexivity|]. cbn. auto 10.
Qed.

(** But a system's answers do depend on the others: cluster ids come from one
    counter for all systems.  Same start, same calls of system 1, different ids. *)
Theorem C70_ids_refuted :
  exists (I : Impl) (N : Num) (G : Rng) (U : Ugly) (clk : Z -> Z) (m : umap walker) (h : heap) (es es' : list event) (p p' : program) (x x' : Z),
    goes clk (program_new m h 0 0) es p /\ goes clk (program_new m h 0 0) es' p' /\ NoDup (ukeys m) /\
    calls_on 1 es = calls_on 1 es' /\ ~ In Outside (es ++ es') /\ ~ In Rates (es ++ es') /\ ~ In Walkers (es ++ es') /\
    cluster_of (view p 1) 1 x /\ cluster_of (view p' 1) 1 x' /\ x <> x'.
Proof.
  exists impl0, fz, rh, uz, cz, [(10, wz 1); (20, wz 3); (30, wz 1); (31, wz 5)], heap1, (map event_of one_m), (map event_of two_m), (final_m one_m), (final_m two_m), 0, 2.
  split; [apply mruns_goes; vm_compute; reflexivity|]. split; [apply mruns_goes; vm_compute; reflexivity|]. split; [exact start_nd|].
  split; [reflexivity|]. split; [cbn; intuition discriminate|]. split; [cbn; intuition discriminate|]. split; [cbn; intuition discriminate|].
  split; [labelled|]. split; [labelled|]. lia.
Qed.
Print Assumptions C70_ids_refuted.
