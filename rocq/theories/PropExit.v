(** * C76: where a cluster sends its walkers

    Exact arithmetic; valid programs (ValidSpec.v); every number of walkers,
    schedule, stream of draws, clock, hash order and tie-breaking of the graph
    library. *)
From Coq Require Import ZArith List Bool Reals Lra Lia Permutation.
From Verif Require Import Base BaseProofs Num RSum WalkerModel SiteModel SiteSpec ClusterModel ClusterHist ClusterSpec ContainerModel BasinModel BasinSpec SystemModel SystemSpec
  SystemShape SystemProofs SystemFacts SystemInit SystemRuns ValidSpec SystemEffect SystemLive SystemTotal SystemStart SystemChain SystemControl PropValid SystemOps SystemTables StaySpec SystemStay
  ReportSpec SystemReport PropReport PropStay PropTables ExitSpec SystemExit ExitNet.
Import ListNotations.
Open Scope R_scope.

(** A hop creates cluster [c].  Ever after, as long as [c] exists, a walker that
    hops on a site of [c] and whose stay goes on is sent to a site that [c] had
    when it was created; the share of site [k] in the draws is P k / rate_off k,
    normalised, where P k is the probability that [c] gave for [k] when it was
    created and rate_off k the sum of the rates from [k] then. *)
Theorem C76_inside :
  forall (I : Impl) (G : @Rng XR) (U : @Ugly XR) (clk : Z -> Z) (lo hi : R) (tr : list call) (g : world) (ws : list Z) (fuel : nat) (id p : Z) (g1 : world) (c : Z),
    open_draws G -> rate_bounds lo hi -> valid_reach clk lo hi tr g ws -> few_hops lo hi (hops tr + 1) -> In p ws ->
    sys_hop clk fuel id p g = Ret tt g1 -> is_cluster g1 c -> ~ is_cluster g c ->
    exists (P share a : Z -> R) (sites : list Z),
      (forall k, In k sites <-> listed g1 c k) /\
      (forall k, In k sites -> 0 < P k /\ occupation g1 c k (P k)) /\
      (forall k, In k sites -> share k = P k / rate_off g1 k / Rsum (fun j => P j / rate_off g1 j) sites) /\
      divided share a sites /\
      forall tr' g2 ws2 f w q g3 k v, steps clk g1 ws tr' g2 ws2 -> In q ws2 -> sys_hop clk f w q g2 = Ret tt g3 -> walker_on g3 q k ->
        listed g2 c k -> is_cluster g3 c -> running g3 c w -> next_number g2 c w v ->
        exists n, In n sites /\ walker_to g3 q n /\ a n <= v < a n + share n.
Proof.
  intros I G U clk lo hi tr g ws fuel id p g1 c HD HB V F Hp E Hc Hn.
  destruct (first_tables clk lo hi HD HB _ _ _ _ _ _ _ _ V F Hp E Hc Hn) as (P & inner & a & outer & b & mem & out & A1 & A2 & A3 & A4 & B1 & B2 & B3 & cl & Ec & Hi & Ho).
  exists P, inner, a, mem. split; [exact A1|]. split; [exact A2|]. split; [exact A3|]. split; [exact A4|].
  assert (Rc : reach clk g1 ws) by (eexists; apply (hop_reach clk lo hi _ _ _ _ _ _ _ V Hp E)).
  intros tr' g2 ws2 f w q g3 k v S Hq E3 Ok L C3 Rn Nx. exact (proj1 (sent_on clk HD g1 ws c cl inner a outer b mem out Rc Ec Hi Ho _ _ _ _ _ _ _ _ _ S Hq E3 Ok L C3 Nx) Rn).
Qed.
Print Assumptions C76_inside.
(** If the stay is over, the walker is sent to a neighbour that the cluster had
    when it was created; the share of neighbour [n] is the sum of
    P k * (rate from k to n / sum of the rates from k) over the sites [k] of the
    cluster then, normalised. *)
Theorem C76_exits :
  forall (I : Impl) (G : @Rng XR) (U : @Ugly XR) (clk : Z -> Z) (lo hi : R) (tr : list call) (g : world) (ws : list Z) (fuel : nat) (id p : Z) (g1 : world) (c : Z),
    open_draws G -> rate_bounds lo hi -> valid_reach clk lo hi tr g ws -> few_hops lo hi (hops tr + 1) -> In p ws ->
    sys_hop clk fuel id p g = Ret tt g1 -> is_cluster g1 c -> ~ is_cluster g c ->
    exists (P share b : Z -> R) (sites out : list Z),
      NoDup sites /\ (forall k, In k sites <-> listed g1 c k) /\
      (forall k, In k sites -> 0 < P k /\ occupation g1 c k (P k)) /\
      (forall n, In n out <-> beside g1 c n) /\
      (forall n, In n out -> share n = Rsum (fun k => P k * (rate_to g1 k n / rate_off g1 k)) sites /
                                       Rsum (fun m => Rsum (fun k => P k * (rate_to g1 k m / rate_off g1 k)) sites) out) /\
      divided share b out /\
      forall tr' g2 ws2 f w q g3 k v, steps clk g1 ws tr' g2 ws2 -> In q ws2 -> sys_hop clk f w q g2 = Ret tt g3 -> walker_on g3 q k ->
        listed g2 c k -> is_cluster g3 c -> ~ running g3 c w -> next_number g2 c w v ->
        exists n, In n out /\ walker_to g3 q n /\ b n <= v < b n + share n.
Proof.
  intros I G U clk lo hi tr g ws fuel id p g1 c HD HB V F Hp E Hc Hn.
  destruct (first_tables clk lo hi HD HB _ _ _ _ _ _ _ _ V F Hp E Hc Hn) as (P & inner & a & outer & b & mem & out & A1 & A2 & A3 & A4 & B1 & B2 & B3 & cl & Ec & Hi & Ho).
  exists P, outer, b, mem, out. split; [apply A4|]. split; [exact A1|]. split; [exact A2|]. split; [exact B1|]. split; [exact B2|]. split; [exact B3|].
  assert (Rc : reach clk g1 ws) by (eexists; apply (hop_reach clk lo hi _ _ _ _ _ _ _ V Hp E)).
  intros tr' g2 ws2 f w q g3 k v S Hq E3 Ok L C3 Rn Nx. exact (proj2 (sent_on clk HD g1 ws c cl inner a outer b mem out Rc Ec Hi Ho _ _ _ _ _ _ _ _ _ S Hq E3 Ok L C3 Nx) Rn).
Qed.
Print Assumptions C76_exits.
(** Full statement: a walker whose stay is over is sent to a neighbour of the
    cluster.  Proved: for a cluster that has gained no sites since it was
    created.  Missing: clusters that have, for which it is false. *)
Theorem C76_leaves_partial :
  forall (I : Impl) (G : @Rng XR) (U : @Ugly XR) (clk : Z -> Z) (lo hi : R) (tr : list call) (g : world) (ws : list Z) (fuel : nat) (id p : Z) (g1 : world) (c : Z)
    (tr' : list call) (g2 : world) (ws2 : list Z) (f : nat) (w q : Z) (g3 : world) (k : Z),
    open_draws G -> rate_bounds lo hi -> valid_reach clk lo hi tr g ws -> few_hops lo hi (hops tr + 1) -> In p ws ->
    sys_hop clk fuel id p g = Ret tt g1 -> is_cluster g1 c -> ~ is_cluster g c ->
    steps clk g1 ws tr' g2 ws2 -> (forall j, listed g2 c j -> listed g1 c j) ->
    In q ws2 -> sys_hop clk f w q g2 = Ret tt g3 -> walker_on g3 q k -> listed g2 c k -> is_cluster g3 c -> ~ running g3 c w ->
    exists n, walker_to g3 q n /\ ~ listed g2 c n /\ beside g1 c n.
Proof.
  intros I G U clk lo hi tr g ws fuel id p g1 c tr' g2 ws2 f w q g3 k HD HB V F Hp E Hc Hn S Same Hq E3 Ok L C3 Rn.
  pose proof (valid_inv clk lo hi _ _ _ (hop_reach clk lo hi _ _ _ _ _ _ _ V Hp E)) as V1. pose proof (steps_inv clk _ _ _ _ _ V1 S) as V2.
  destruct (next_some HD g2 ws2 c k w V2 L) as [v Nv].
  destruct (C76_exits I G U clk lo hi tr g ws fuel id p g1 c HD HB V F Hp E Hc Hn) as (P & share & b & sites & out & _ & _ & _ & B1 & _ & _ & H).
  destruct (H tr' g2 ws2 f w q g3 k v S Hq E3 Ok L C3 Rn Nv) as (n & Hn' & To & _). apply B1 in Hn'. exists n. split; [exact To|].
  split; [|exact Hn']. intros X. apply (proj1 Hn'), Same, X.
Qed.
Print Assumptions C76_leaves_partial.
(** Once a cluster has gained all the neighbours it had when it was created, a
    walker on one of its first sites or of these neighbours that is to hop to
    one of them is never sent anywhere else, whatever is drawn and called, until
    it is removed or the cluster is absorbed by another one. *)
Theorem C76_trapped :
  forall (I : Impl) (G : @Rng XR) (U : @Ugly XR) (clk : Z -> Z) (lo hi : R) (tr : list call) (g : world) (ws : list Z) (fuel : nat) (id p : Z) (g1 : world) (c : Z)
    (tr2 : list call) (g2 : world) (ws2 : list Z) (q k n : Z) (tr3 : list call) (g3 : world) (ws3 : list Z),
    open_draws G -> rate_bounds lo hi -> valid_reach clk lo hi tr g ws -> few_hops lo hi (hops tr + 1) -> In p ws ->
    sys_hop clk fuel id p g = Ret tt g1 -> is_cluster g1 c -> ~ is_cluster g c ->
    steps clk g1 ws tr2 g2 ws2 -> (forall j, beside g1 c j -> listed g2 c j) -> In q ws2 ->
    walker_on g2 q k -> (listed g1 c k \/ beside g1 c k) -> walker_to g2 q n -> (listed g1 c n \/ beside g1 c n) ->
    steps clk g2 ws2 tr3 g3 ws3 -> is_cluster g3 c -> ~ In (KLeave q) tr3 ->
    In q ws3 /\ exists k' n', walker_on g3 q k' /\ (listed g1 c k' \/ beside g1 c k') /\ walker_to g3 q n' /\ (listed g1 c n' \/ beside g1 c n').
Proof.
  intros I G U clk lo hi tr g ws fuel id p g1 c tr2 g2 ws2 q k n tr3 g3 ws3 HD HB V F Hp E Hc Hn S2 All Hq Ok Ik On In_ S3 C3 Nl.
  destruct (first_tables clk lo hi HD HB _ _ _ _ _ _ _ _ V F Hp E Hc Hn) as (P & inner & a & outer & b & mem & out & A1 & A2 & A3 & A4 & B1 & B2 & B3 & cl & Ec & Hi & Ho).
  assert (Rc : reach clk g1 ws) by (eexists; apply (hop_reach clk lo hi _ _ _ _ _ _ _ V Hp E)).
  pose proof (reach_inv clk _ _ Rc) as V1. pose proof (steps_inv clk _ _ _ _ _ V1 S2) as V2.
  assert (C2 : is_cluster g2 c).
  { destruct (y_fresh _ _ (steps_carried clk _ _ _ _ _ V2 S3) c) as [X|X].
    - apply (is_cluster_known g3 c); [apply (v_shape _ _ (steps_inv clk _ _ _ _ _ V2 S3))|exact C3].
    - apply (is_cluster_known g2 c); [apply (v_shape _ _ V2)|exact X].
    - pose proof (cluster_small _ _ _ _ V1 Ec). pose proof (steps_count clk _ _ _ _ _ V1 S2). lia. }
  assert (Dec : forall j, In j (mem ++ out) <-> listed g1 c j \/ beside g1 c j) by (intros j; rewrite in_app_iff, A1, B1; tauto).
  destruct (trapped clk HD g1 ws c cl inner a outer b mem out Rc Ec Hi Ho tr2 g2 ws2 q (mem ++ out) S2) with (tr3 := tr3) (g3 := g3) (ws3 := ws3) as (Hq3 & k' & n' & K1 & K2 & K3 & K4);
    try assumption.
  - apply incl_appl, incl_refl.
  - apply incl_appr, incl_refl.
  - intros j Hj. apply Dec in Hj. destruct Hj as [Hj|Hj]; [|apply All, Hj]. apply (run_listed clk g1 ws tr2 g2 ws2 c j V1 S2 C2 Hj).
  - exists k, n. rewrite !Dec. auto.
  - split; [exact Hq3|]. exists k', n'. rewrite <- !Dec. auto.
Qed.
Print Assumptions C76_trapped.
(** The chain 1 - 2 - 3 - 4 of ExitNet.v, for every stream of draws, clock, hash
    order and tie-breaking: walker 10 hops, which puts sites 1 and 2 into
    cluster [c]; walker 20 hops, which makes site 3 join it.  Site 3 has a rate
    of 1/100 to site 4.  Walker 10 never gets to site 4. *)
Theorem C76_leaves_refuted :
  forall (I : Impl) (G : @Rng XR) (U : @Ugly XR) (clk : Z -> Z), open_draws G ->
  exists (g : world) (c : Z),
    valid_reach clk (1 / 100) 101 (calls_e ++ [KHop 10; KHop 20])%Z g [10; 20]%Z /\
    (forall k, In k [1; 2; 3]%Z -> listed g c k) /\ StaySpec.site_rate g 3 4 (1 / 100) /\
    (forall ps, (length ps <= 3000)%nat -> (forall p, In p ps -> In p [10; 20]%Z) -> exists g', steps clk g [10; 20]%Z (map KHop ps) g' [10; 20]%Z) /\
    forall tr' g' ws', steps clk g [10; 20]%Z tr' g' ws' -> ~ In (KLeave 10%Z) tr' ->
      In 10%Z ws' /\ exists k n, walker_on g' 10 k /\ In k [1; 2; 3]%Z /\ walker_to g' 10 n /\ In n [1; 2; 3]%Z.
Proof.
  intros I G U clk HD.
  destruct (grown_e I G U clk HD) as (g & g1 & g2 & n1 & n2 & c & _ & V & E1 & Nc & Ic & L1 & Only & Bc & E2 & V2 & L2 & (k & n & Ok & On & Ik & In_) & Rt).
  assert (In10 : In 10%Z [10; 20]%Z) by (left; reflexivity). assert (In20 : In 20%Z [10; 20]%Z) by (right; left; reflexivity).
  pose proof (valid_inv clk _ _ _ _ _ V2) as W2. pose proof (valid_inv clk _ _ _ _ _ V) as W.
  pose proof (hop_reach clk _ _ _ _ _ _ _ _ _ V In10 E1) as V1. pose proof (valid_inv clk _ _ _ _ _ V1) as W1.
  assert (F1 : few_hops (1 / 100) 101 (hops (N := XR) calls_e + 1)) by (change (hops (N := XR) calls_e) with 0%Z; apply few_e; lia).
  assert (S2 : steps clk g1 [10; 20]%Z [KHop 20%Z] g2 [10; 20]%Z) by (apply (sts_step clk g1 _ [] g1 [10; 20]%Z); [constructor|eapply st_hop; eauto]).
  exists g2, c. split; [exact V2|]. split; [exact L2|]. split; [apply (rate_site G g2 _ _ _ _ W2), Rt; auto 7|]. split.
  { intros ps Len Hps. destruct bounds_e as [[B1 B2] B3]. pose proof V2 as (R2 & Fv & Fp).
    assert (Few : few_hops (1 / 100) 101 (hops (N := XR) (calls_e ++ [KHop 10; KHop 20])%Z + Z.of_nat (length ps))).
    { change (hops (N := XR) (calls_e ++ [KHop 10; KHop 20])%Z) with 2%Z. apply few_e. lia. }
    destruct (hops_run clk _ _ B1 B3 HD ps _ _ _ R2 Fv Fp) as (g' & S & _).
    - apply (few_fits _ _ bounds_e); [|exact Few]. change (hops (N := XR) (calls_e ++ [KHop 10; KHop 20])%Z) with 2%Z. lia.
    - apply Few.
    - exact Hps.
    - exists g'. exact S. }
  intros tr' g' ws' S Nl.
  assert (Hc : is_cluster g' c).
  { pose proof (steps_inv clk _ _ _ _ _ W2 S) as W'. pose proof (h_ndc _ _ _ (v_shape _ _ W2)) as N2. pose proof (h_ndc _ _ _ (v_shape _ _ W')) as N'.
    pose proof (steps_carried clk _ _ _ _ _ W2 S) as Ca. pose proof (proj1 (listed_holds g2 c 1%Z N2) (L2 1%Z ltac:(cbn; auto))) as H1.
    destruct (y_together _ _ Ca c) as [c' T]. specialize (T 1%Z H1). apply (is_cluster_known g' c N').
    destruct (y_smaller _ _ Ca c c' 1%Z H1 T) as [->|[Lt Kn]]; [eapply holds_known; exact T|exfalso].
    destruct (y_fresh _ _ (steps_carried clk _ _ _ _ _ W1 S2) c' Kn) as [X|X].
    - apply (is_cluster_known g1 c' (h_ndc _ _ _ (v_shape _ _ W1))), Only in X. lia.
    - assert (Kc : known g1 c) by (apply (is_cluster_known g1 c (h_ndc _ _ _ (v_shape _ _ W1))), Ic). pose proof (small_ids _ _ _ W1 Kc). lia. }
  assert (Dec : forall j, In j [1; 2; 3]%Z <-> listed g1 c j \/ beside g1 c j) by (intros j; rewrite L1, Bc; cbn; intuition).
  destruct (C76_trapped I G U clk (1 / 100) 101 calls_e g [10; 20]%Z n1 0%Z 10%Z g1 c [KHop 20%Z] g2 [10; 20]%Z 10%Z k n tr' g' ws') as (Hq & k' & n' & K1 & K2 & K3 & K4);
    try assumption; try (apply Dec; assumption).
  - exact bounds_e.
  - intros j Hj. apply Bc in Hj. subst j. apply L2. cbn; auto.
  - split; [exact Hq|]. exists k', n'. rewrite !Dec. auto.
Qed.
Print Assumptions C76_leaves_refuted.

(** ** The hypotheses hold
    The same chain, all draws 1/2.  After the first hop no further clusters are
    looked for; the stay of walker 10 takes two hops. *)
Notation valid_e := (@valid_reach impl0 rng_c ugly_c clk_c (1 / 100) 101).
Lemma uses_e : exists (g g1 g2 g3 g4 : @world XR rng_c) (n n2 n3 : nat) (c k k' : Z),
  valid_e calls_e g [10; 20]%Z /\ hop_c n 0 10 g = Ret tt g1 /\ is_cluster (I := impl0) g1 c /\ ~ is_cluster (I := impl0) g c /\
  @steps impl0 XR rng_c ugly_c clk_c g1 [10; 20]%Z [KThr inf_iterations] g2 [10; 20]%Z /\
  hop_c n2 0 10 g2 = Ret tt g3 /\ walker_on g3 10 k /\ listed_c g2 c k /\ is_cluster (I := impl0) g3 c /\ @running rng_c g3 c 0 /\ @next_number rng_c g2 c 0 (1 / 2) /\
  hop_c n3 0 10 g3 = Ret tt g4 /\ walker_on g4 10 k' /\ listed_c g3 c k' /\ is_cluster (I := impl0) g4 c /\ ~ @running rng_c g4 c 0 /\ @next_number rng_c g3 c 0 (1 / 2) /\
  @steps impl0 XR rng_c ugly_c clk_c g1 [10; 20]%Z ([KThr inf_iterations] ++ [KHop 10%Z]) g3 [10; 20]%Z /\
  (forall j, listed_c g3 c j -> listed_c g1 c j).
Proof.
  destruct (grown_e impl0 rng_c ugly_c clk_c fair_c) as (g & g1 & _ & n & _ & c & (Eh & On1 & To1 & On4 & s & Es & Ps & Us) & V & E1 & Nc & Ic & L1 & Only & Bc & _).
  assert (In10 : In 10%Z [10; 20]%Z) by (left; reflexivity). pose proof (valid_inv clk_c _ _ _ _ _ V) as W.
  pose proof (hop_reach clk_c _ _ _ _ _ _ _ _ _ V In10 E1) as V1. pose proof (valid_inv clk_c _ _ _ _ _ V1) as W1.
  assert (Few : forall z, (0 <= z <= 4000)%Z -> few_hops (1 / 100) 101 z) by exact few_e.
  assert (Nl : forall j, ~ listed_c g c j).
  { intros j (l & El & _). apply Nc. exists l. exact El. }
  (* the walker is on site 2 and goes to site 1 *)
  destruct (hop_facts clk_c _ _ _ _ _ _ _ _ W In10 On1 To1 E1) as (On & _).
  assert (Ok1 : walker_on g1 10 2).
  { destruct (here g [10%Z; 20%Z] 2) eqn:Hh; [|exact On]. exfalso. apply here_true in Hh. destruct Hh as (q & [<-|[<-|[]]] & O1).
    - destruct O1 as (w & Ew & X), On1 as (w' & Ew' & X'). assert (w' = w) by congruence. subst. lia.
    - destruct O1 as (w & Ew & X), On4 as (w' & Ew' & X'). assert (w' = w) by congruence. subst. lia. }
  assert (Un : cluster_of g 2 unassignedId) by (apply cluster_of_iff; exists s; auto).
  assert (Er : @exit_rate rng_c g 2 101).
  { exists s. split; [exact Es|]. unfold total_rate. rewrite Eh, (Rsum_perm _ _ _ Ps). cbn. lra. }
  assert (Sr : @StaySpec.site_rate rng_c g 2 1 100).
  { exists s. split; [exact Es|]. exists 1%Z. split; [apply (Permutation_in _ (Permutation_sym Ps)); cbn; auto|rewrite Eh; reflexivity]. }
  assert (Sd : @site_draws rng_c g 2 (1 / 2) (1 / 2)) by (exists s, tt, tt; auto).
  destruct (hop_free clk_c _ _ fair_c bounds_e _ g _ n 0 10 g1 2 (1 / 2) (1 / 2) 101 V ltac:(apply Few; cbn; lia) In10 E1 Ok1 Un Sd Er) as (_ & _ & _ & Iv).
  destruct (Iv 1%Z 100 Sr) as (a & A1 & A2 & A3). assert (To : walker_to g1 10 1) by (apply A3; lra).
  assert (Nr : ~ @running rng_c g1 c 0).
  { intros (cl' & Ec' & Ne). destruct (hop_away clk_c _ _ _ _ c _ _ _ W In10 E1 Ok1 (Nl 2%Z)) with (cl' := cl') as [(cl0 & _ & Ec0 & _)|(_ & X)]; [exact Ec'| |exact (Ne (X 0%Z))].
    apply Nc. eapply cluster_there; eauto. }
  (* its increment is half of its time constant *)
  assert (Fe1 : few_hops (1 / 100) 101 (hops (calls_e ++ [KHop 10%Z] : list (@call XR)))) by (apply Few; cbn; lia).
  destruct (listed_cluster _ _ _ 1%Z W1 (proj2 (L1 1%Z) (or_introl eq_refl))) as (cl & Ec).
  destruct (budget_pos clk_c _ _ fair_c bounds_e _ _ _ _ 0%Z _ V1 Fe1 Ec) as (B & i & _ & _ & Hi & _).
  assert (Inc1 : @increment impl0 XR rng_c g1 c (Fin i)).
  { exists (@per_cluster impl0 XR rng_c _ c_getTimeIncrement (g_clusters g1)). eexists. split; [reflexivity|].
    unfold per_cluster. rewrite fold_uset_lookup; [|constructor|apply (v_shape _ _ W1)]. rewrite Ec. unfold c_getTimeIncrement. rewrite Hi. reflexivity. }
  destruct (C40_new_cluster_partial _ _ _ clk_c (1 / 100) 101 _ g g1 _ n 0 10 c _ 10000000 fair_c bounds_e V ltac:(apply Few; cbn; lia) In10 eq_refl E1 Ic Nc Inc1) as (tau & Tc1 & Ei).
  injection Ei as Ei.
  destruct (C75_bounds _ _ _ clk_c (1 / 100) 101 _ g1 _ c fair_c bounds_e V1 Fe1 Ic) as (tau' & i1 & Tc1' & _ & Tb & _).
  assert (tau' = tau).
  { destruct Tc1 as (x & Ex & X), Tc1' as (y & Ey & Y). assert (y = x) by congruence. subst y. rewrite X in Y. injection Y as ->. reflexivity. }
  subst tau'. assert (Tb1 : 0 < tau) by (assert (0 < / 101) by lra; lra). assert (Tb2 : tau <= 1010000) by lra.
  rewrite Rmin_right in Ei by lra.
  set (g2 := g_with_thr inf_iterations (g_with_thrmin inf_iterations g1)).
  assert (St : @step impl0 XR rng_c ugly_c clk_c g1 [10; 20]%Z (KThr inf_iterations) g2 [10; 20]%Z) by (constructor; reflexivity).
  destruct (valid_call_step clk_c _ _ _ _ _ _ _ _ V1 St Logic.I) as [V2 _]; [cbn; unfold inf_iterations, INT_MAX; lia|].
  assert (S12 : @steps impl0 XR rng_c ugly_c clk_c g1 [10; 20]%Z [KThr inf_iterations] g2 [10; 20]%Z) by (apply (sts_step clk_c g1 [10; 20]%Z [] g1 [10; 20]%Z); [constructor|exact St]).
  assert (Ok2 : walker_on g2 10 2) by exact Ok1. assert (To2 : walker_to g2 10 1) by exact To. assert (Nr2 : ~ @running rng_c g2 c 0) by exact Nr.
  assert (L2 : forall j, listed_c g2 c j <-> In j [1; 2]%Z) by exact L1. assert (Thr : g_thrmin g2 = inf_iterations) by reflexivity.
  assert (Ec2 : ulookup c (g_clusters g2) = Some cl) by exact Ec. assert (Ic2 : is_cluster (I := impl0) g2 c) by exact Ic.
  assert (Tc : time_constant g2 c (Fin tau : @num XR)) by exact Tc1. assert (Inc : @increment impl0 XR rng_c g2 c (Fin i)).
  { destruct Inc1 as (m & gx & Em & Ex). inversion Em; subst m gx. exists (@per_cluster impl0 XR rng_c _ c_getTimeIncrement (g_clusters g2)), g2. split; [reflexivity|exact Ex]. }
  clearbody g2. pose proof (valid_inv clk_c _ _ _ _ _ V2) as W2.
  assert (Stays : forall (h h' : @world XR rng_c) f, inv h [10; 20]%Z -> inv h' [10; 20]%Z -> g_thrmin h = inf_iterations -> hop_c f 0 10 h = Ret tt h' -> is_cluster (I := impl0) h c ->
     is_cluster (I := impl0) h' c /\ g_thrmin h' = inf_iterations /\ (forall k, listed_c h' c k -> listed_c h c k)).
  { intros h h' f Wh Wh' Th E Hc. destruct (hop_counts clk_c _ _ _ _ _ _ Wh In10 E) as (_ & Et & Hh).
    assert (Sh : same_holds h h') by (destruct Hh as [(_ & _ & _ & X)|[(_ & _ & _ & _ & X)|(_ & X & _)]]; [exact X|exact X|contradiction]).
    split; [|split; [congruence|intros k Lk; apply (listed_same h [10; 20]%Z h' [10; 20]%Z Wh Wh' Sh), Lk]].
    destruct (listed_two h [10; 20]%Z c Wh Hc) as (x & _ & _ & Hx & _). apply is_cluster_known; [apply (v_shape _ _ Wh')|].
    apply listed_holds in Hx; [|apply (v_shape _ _ Wh)]. apply Sh in Hx. eapply holds_known; exact Hx. }
  destruct (valid_hop clk_c _ _ fair_c bounds_e _ g2 _ 0 10 V2) as (g3 & n2 & E3); [apply Few; cbn; lia|exact In10|]. specialize (E3 n2 (le_n _)).
  destruct (hop_facts clk_c _ _ _ _ _ _ _ _ W2 In10 Ok2 To2 E3) as (On3 & _).
  assert (On' : exists k, walker_on g3 10 k /\ listed_c g2 c k) by (eexists; split; [exact On3|apply L2; destruct (here g2 [10%Z; 20%Z] 1); cbn; auto]).
  destruct On' as (k & Ok & Lk).
  pose proof (hop_reach clk_c _ _ _ _ _ _ _ _ _ V2 In10 E3) as V3. pose proof (valid_inv clk_c _ _ _ _ _ V3) as W3.
  destruct (valid_timed clk_c _ _ fair_c bounds_e _ _ _ 10%Z V3 ltac:(apply Few; cbn; lia) In10) as (wk & d & Ewk & Ed & _).
  assert (Cd : @cluster_draw rng_c g2 c (1 / 2)) by (exists cl, tt; auto).
  assert (S1 : stay_c 0%Z 10%Z c g2 [10; 20]%Z [KHop 10] [(i, d)] g3 [10; 20]%Z).
  { eapply sy_arrive; [exact In10|exact Nr2|exact E3|exact Ok|exact Lk|exact Inc|exists wk; auto]. }
  assert (Fv : Forall (valid_call (g_heap g2)) [KHop 10%Z]) by (repeat constructor).
  assert (Fp : Forall (paced_call (g_heap g2) (1 / 100) 101) [KHop 10%Z]) by (repeat constructor).
  assert (Fs : few_hops (1 / 100) 101 (hops (((calls_e ++ [KHop 10%Z]) ++ [KThr inf_iterations]) ++ [KHop 10%Z] : list (@call XR)))) by (apply Few; cbn; lia).
  destruct (Stays g2 g3 n2 W2 W3 Thr E3 Ic2) as (Ic3 & Thr3 & Ls3).
  assert (T0 : 1 / 2 * tau < - ln (1 / 2) * tau) by (apply Rmult_lt_compat_r; [exact Tb1|apply ln_half]).
  assert (T1 : - ln (1 / 2) * tau < tau).
  { rewrite <- (Rmult_1_l tau) at 2. apply Rmult_lt_compat_r; [exact Tb1|]. replace (1 / 2) with (/ 2) by lra. rewrite ln_Rinv by lra. rewrite Ropp_involutive.
    apply exp_lt_inv. rewrite exp_ln by lra. apply Rle_lt_trans with (1 + 1); [lra|]. apply exp_ineq1. lra. }
  assert (Hd : d = 1 / 2 * tau).
  { destruct (stay_run clk_c _ _ fair_c bounds_e 0%Z 10%Z c _ g2 _ (1 / 2) tau V2 Cd Tc _ _ _ _ S1 Fv Fp Fs) as [[_ _ _ Fa _ _ _] _].
    destruct (Fa [] i d [] eq_refl) as (Hd & _). unfold spent in Hd. simpl in Hd. rewrite Rmin_left in Hd; lra. }
  assert (Rn : @running rng_c g3 c 0).
  { apply (stay_running clk_c _ _ fair_c bounds_e 0%Z 10%Z c _ g2 _ (1 / 2) tau V2 Cd Tc _ _ _ _ S1 Fv Fp Fs Ic3). unfold spent. simpl. lra. }
  destruct (valid_hop clk_c _ _ fair_c bounds_e _ g3 _ 0 10 V3) as (g4 & n3 & E4); [apply Few; cbn; lia|exact In10|]. specialize (E4 n3 (le_n _)).
  destruct (stay_next_hop clk_c _ _ fair_c bounds_e 0%Z 10%Z c _ g2 _ (1 / 2) tau V2 Cd Tc _ _ _ _ S1 Fv Fp Fs n3 g4) as (i' & d' & S2);
    [apply Few; cbn; lia|exact Rn|exact E4|].
  pose proof (hop_reach clk_c _ _ _ _ _ _ _ _ _ V3 In10 E4) as V4. pose proof (valid_inv clk_c _ _ _ _ _ V4) as W4.
  destruct (Stays g3 g4 n3 W3 W4 Thr3 E4 Ic3) as (Ic4 & _ & Ls4).
  assert (Fv2 : Forall (valid_call (g_heap g2)) [KHop 10; KHop 10]%Z) by (repeat constructor).
  assert (Fp2 : Forall (paced_call (g_heap g2) (1 / 100) 101) [KHop 10; KHop 10]%Z) by (repeat constructor).
  assert (Fs2 : few_hops (1 / 100) 101 (hops (((calls_e ++ [KHop 10%Z]) ++ [KThr inf_iterations]) ++ [KHop 10; KHop 10]%Z : list (@call XR)))) by (apply Few; cbn; lia).
  assert (Ei' : i' = i).
  { apply (stay_increments clk_c 0%Z 10%Z c g2 _ _ _ g4 _ i W2 S2 Ic4 ltac:(auto) Inc (i', d')). apply in_app_iff. right; left; reflexivity. }
  assert (Hd' : d' = - ln (1 / 2) * tau - 1 / 2 * tau).
  { destruct (stay_run clk_c _ _ fair_c bounds_e 0%Z 10%Z c _ g2 _ (1 / 2) tau V2 Cd Tc _ _ _ _ S2 Fv2 Fp2 Fs2) as [[_ _ _ Fa _ _ _] _].
    destruct (Fa [(i, d)] i' d' [] eq_refl) as (X & _). unfold spent in X. simpl in X. rewrite Rmin_right in X; lra. }
  assert (Nr4 : ~ @running rng_c g4 c 0).
  { apply (stay_running clk_c _ _ fair_c bounds_e 0%Z 10%Z c _ g2 _ (1 / 2) tau V2 Cd Tc _ _ _ _ S2 Fv2 Fp2 Fs2 Ic4). unfold spent. simpl. lra. }
  destruct (stay_home clk_c _ _ fair_c bounds_e 0%Z 10%Z c _ g2 _ (1 / 2) tau V2 Cd Tc _ _ _ _ S1 Fv Fp Fs Rn) as (src & dst & Os & Od & Lsrc & Ldst).
  destruct (hop_facts clk_c _ _ _ _ _ _ _ _ W3 In10 Os Od E4) as (On5 & _).
  assert (On6 : exists k', walker_on g4 10 k' /\ listed_c g3 c k') by (eexists; split; [exact On5|destruct (here g3 [10%Z; 20%Z] dst); assumption]).
  destruct On6 as (k' & Ok' & Lk').
  pose proof Rn as (cl3 & Ec3 & Ne3).
  exists g, g1, g2, g3, g4, n, n2, n3, c, k, k'. split; [exact V|]. split; [exact E1|]. split; [exact Ic|]. split; [exact Nc|]. split; [exact S12|].
  split; [exact E3|]. split; [exact Ok|]. split; [exact Lk|]. split; [exact Ic3|]. split; [exact Rn|]. split.
  { exists cl, tt. split; [exact Ec2|]. right. split; [|exists (1 / 2), tt; auto]. destruct (in_dec Z.eq_dec 0%Z (ukeys (c_remaining cl))) as [X|X]; [|exact X].
    exfalso. apply Nr2. exists cl. split; [exact Ec2|]. intros Y. apply Y, X. }
  split; [exact E4|]. split; [exact Ok'|]. split; [exact Lk'|]. split; [exact Ic4|]. split; [exact Nr4|]. split.
  { exists cl3, tt. split; [exact Ec3|]. left. auto. }
  split; [|intros j Hj; apply L1, L2, Ls3, Hj]. eapply sts_step; [exact S12|]. eapply st_hop; [exact In10|exact E3].
Qed.
(** what C76_inside, C76_exits and C76_leaves_partial assume *)
Example C76_nonvacuous :
  exists (g g1 g2 g3 g4 : @world XR rng_c) (n n2 n3 : nat) (c k k' : Z),
    open_draws rng_c /\ rate_bounds (1 / 100) 101 /\ valid_e calls_e g [10; 20]%Z /\ few_hops (1 / 100) 101 (hops (calls_e : list (@call XR)) + 1) /\ In 10%Z [10; 20]%Z /\
    hop_c n 0 10 g = Ret tt g1 /\ is_cluster (I := impl0) g1 c /\ ~ is_cluster (I := impl0) g c /\
    (@steps impl0 XR rng_c ugly_c clk_c g1 [10; 20]%Z [KThr inf_iterations] g2 [10; 20]%Z /\
     hop_c n2 0 10 g2 = Ret tt g3 /\ walker_on g3 10 k /\ listed_c g2 c k /\ is_cluster (I := impl0) g3 c /\ @running rng_c g3 c 0 /\ @next_number rng_c g2 c 0 (1 / 2)) /\
    (@steps impl0 XR rng_c ugly_c clk_c g1 [10; 20]%Z [KThr inf_iterations; KHop 10%Z] g3 [10; 20]%Z /\
     hop_c n3 0 10 g3 = Ret tt g4 /\ walker_on g4 10 k' /\ listed_c g3 c k' /\ is_cluster (I := impl0) g4 c /\ ~ @running rng_c g4 c 0 /\ @next_number rng_c g3 c 0 (1 / 2) /\
     (forall j, listed_c g3 c j -> listed_c g1 c j)).
Proof.
  destruct uses_e as (g & g1 & g2 & g3 & g4 & n & n2 & n3 & c & k & k' & A1 & A2 & A3 & A4 & A5 & A6 & A7 & A8 & A9 & A10 & A11 & B1 & B2 & B3 & B4 & B5 & B6 & B7 & B8).
  exists g, g1, g2, g3, g4, n, n2, n3, c, k, k'. split; [exact fair_c|]. split; [exact bounds_e|]. split; [exact A1|].
  split; [apply few_e; cbn; lia|]. split; [left; reflexivity|]. auto 20.
Qed.
(** what C76_trapped assumes *)
Example C76_trapped_nonvacuous :
  exists (g g1 g2 : @world XR rng_c) (n n2 : nat) (c k m : Z),
    open_draws rng_c /\ rate_bounds (1 / 100) 101 /\ valid_e calls_e g [10; 20]%Z /\ few_hops (1 / 100) 101 (hops (calls_e : list (@call XR)) + 1) /\
    hop_c n 0 10 g = Ret tt g1 /\ is_cluster (I := impl0) g1 c /\ ~ is_cluster (I := impl0) g c /\
    hop_c n2 1 20 g1 = Ret tt g2 /\ beside (I := impl0) g1 c 3 /\ (forall j, beside (I := impl0) g1 c j -> listed_c g2 c j) /\
    walker_on g2 10 k /\ (listed_c g1 c k \/ beside (I := impl0) g1 c k) /\ walker_to g2 10 m /\ (listed_c g1 c m \/ beside (I := impl0) g1 c m).
Proof.
  destruct (grown_e impl0 rng_c ugly_c clk_c fair_c) as (g & g1 & g2 & n & n2 & c & _ & V & E1 & Nc & Ic & L1 & _ & Bc & E2 & _ & L2 & (k & m & Ok & On & Ik & Im) & _).
  assert (Dec : forall j, In j [1; 2; 3]%Z -> listed_c g1 c j \/ beside (I := impl0) g1 c j) by (intros j; rewrite L1, Bc; cbn; intuition).
  exists g, g1, g2, n, n2, c, k, m. split; [exact fair_c|]. split; [exact bounds_e|]. split; [exact V|]. split; [apply few_e; cbn; lia|].
  split; [exact E1|]. split; [exact Ic|]. split; [exact Nc|]. split; [exact E2|]. split; [apply Bc; reflexivity|].
  split; [intros j Hj; apply Bc in Hj; subst j; apply L2; cbn; auto|]. auto 10.
Qed.
