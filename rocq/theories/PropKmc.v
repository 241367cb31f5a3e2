(** * C58: until clusters are searched the system is kinetic Monte Carlo

    [kmc_run] (KmcSpec.v) is kinetic Monte Carlo on the user's network of rates:
    walkers enter, hop and leave; a walker that comes to a site waits for
    -ln u / (sum of the rates) and then goes to the site that [choose] gives for
    v, where u and v are the next two numbers of the stream of that site; a walker
    whose target is taken stays and waits again.  [fair] says that [choose]
    respects the rates.  [prologue] and [drive] are the calls of the library for
    the same events, [shows] compares everything the user can read.  The first
    [search_after thr] hops are plain; with inf_iterations that is every hop the
    int counter can count. *)
From Coq Require Import ZArith List Bool Reals Lra Lia.
From Verif Require Import Base BaseProofs Num RSum WalkerModel SiteModel SiteSpec ClusterModel BasinModel
  SystemModel SystemSpec ValidSpec SystemChain KmcSpec SystemKmc.
Import ListNotations.
Open Scope Z_scope.

Theorem C58_plain_kmc :
  forall (I : Impl) (G : @Rng XR) (U : @Ugly XR) (clk : Z -> Z) (rates : umap (umap Z)) (ws : umap (@walker XR)) (h : @heap XR)
         (count tick : Z) (thr : option Z) (t : R) (seed : option Z),
    NoDup (ukeys ws) -> 0 <= count -> (0 < t)%R -> network h rates -> open_draws G ->
    exists (choose : Z -> R -> Z) (streams : Z -> @eng XR G),
      KmcSpec.fair h rates choose /\
      (forall s, seed = Some s -> 0 <= s < 2 ^ 64 ->
         forall i k, nth_error (ukeys rates) i = Some k -> streams k = eseed ((s + Z.of_nat i) mod 2 ^ 64)) /\
      forall fuel l K, kmc_run h rates choose l (empty streams) = Some K -> hop_events l <= INT_MAX -> hop_events l <= search_after thr ->
        exists g, (prologue rates clk thr (Fin t) seed ;; mfor l (drive clk fuel)) (world_new ws h count tick) = Ret tt g /\
          shows rates g K.
Proof. intros I G U clk. exact (plain clk). Qed.
Print Assumptions C58_plain_kmc.

(** two walkers on the chain 3 - 1 - 2 - 4; the second is in the way of the first,
    whose first hop leaves it on site 3 *)
Example C58_nonvacuous :
  NoDup (ukeys ([] : umap (@walker XR))) /\ network heap_c rates_c /\ open_draws rng_c /\
  let l := [Enter 0 10 3; Enter 1 20 1; Hop 0 10] in
  hop_events (l ++ [Hop 1 20; Hop 0 10; Leave 1 20]) <= search_after (Some inf_iterations) /\ hop_events (l ++ [Hop 1 20; Hop 0 10; Leave 1 20]) <= search_after None /\
  forall choose streams, KmcSpec.fair heap_c rates_c choose ->
    (exists K w, @kmc_run rng_c heap_c rates_c choose l (empty streams) = Some K /\ seek 10 (walkers K) = Some w /\ on w = 3 /\ arrivals K 3 = 2) /\
    (exists K, @kmc_run rng_c heap_c rates_c choose (l ++ [Hop 1 20; Hop 0 10; Leave 1 20]) (empty streams) = Some K /\ length (walkers K) = 1%nat).
Proof.
  split; [constructor|]. split; [|split].
  - split; [repeat constructor; cbn; intuition lia|]. split; [vm_compute; intuition lia|].
    intros k r Hin. destruct (mutual_c k r Hin) as [Hg Hm]. split; [exact Hg|]. intros n Hn. destruct (Hm n Hn) as (r' & Hin' & _).
    apply (in_map fst) in Hin'. exact Hin'.
  - intros e. exists (1 / 2)%R, tt. split; [reflexivity|lra].
  - cbv zeta. split; [vm_compute; discriminate|]. split; [vm_compute; discriminate|]. intros choose streams Hf. split.
    + destruct (Hf 3) as [H3 _]; [cbn; auto|]. specialize (H3 (1 / 2)%R ltac:(lra)). destruct H3 as [H3|[]].
      change (fst (1, 4)) with 1 in H3.
      eexists. eexists. cbn. rewrite <- H3. cbn. split; [reflexivity|]. split; [reflexivity|]. split; reflexivity.
    + cbn. eexists. split; reflexivity.
Qed.
