(** * C83: the order in which rates are listed

    Full statement: two programs that differ only in the order in which they
    insert the same rates into the map (or in the hash tables of their standard
    library) simulate the same with the same seed.  That holds for the order of
    the neighbours of each site, and fails for the order of the sites, because
    consecutive seeds are given to the sites in the order in which the map lists
    them.  The processes ([KmcSpec.v]) are still the same: only the streams of the
    sites are exchanged.  Proved for the hops before the first search for a
    cluster, as in C58; what happens in clusters is missing. *)
From Coq Require Import ZArith List Bool Reals Lra Lia Permutation.
From Verif Require Import Base BaseProofs Num RSum WalkerModel SiteModel SiteSpec ClusterModel BasinModel
  SystemModel SystemSpec ValidSpec KmcSpec SystemKmc SystemChain FloatRunSpec SystemOrder.
Import ListNotations.
Open Scope Z_scope.

(** the same rates between the same sites, listed in any order *)
Definition same_network (h : @heap XR) (rates rates' : umap (umap Z)) : Prop :=
  forall k j x, user_rate h (away rates k) j x <-> user_rate h (away rates' k) j x.
(** the sites have the seeds [s], [s]+1, ... in the order of the map *)
Definition seeded_in_order {G : @Rng XR} (s : Z) (rates : umap (umap Z)) (streams : Z -> @eng XR G) : Prop :=
  forall i k, nth_error (ukeys rates) i = Some k -> streams k = eseed ((s + Z.of_nat i) mod 2 ^ 64).

Theorem C83_one_process_partial :
  forall (G : @Rng XR) (I I' : Impl) (U U' : @Ugly XR) (clk clk' : Z -> Z) (rates rates' : umap (umap Z)) (ws : umap (@walker XR)) (h : @heap XR)
         (count tick : Z) (thr : option Z) (t : R) (s : Z),
    NoDup (ukeys ws) -> 0 <= count -> (0 < t)%R -> network h rates -> network h rates' -> open_draws G -> 0 <= s < 2 ^ 64 ->
    same_network h rates rates' ->
    exists choose, KmcSpec.fair h rates choose /\
      forall streams streams', seeded_in_order s rates streams -> seeded_in_order s rates' streams' ->
      forall fuel l K, hop_events l <= INT_MAX -> hop_events l <= search_after thr ->
        (kmc_run h rates choose l (empty streams) = Some K ->
         exists g, (@prologue I G rates clk thr (Fin t) (Some s) ;; mfor l (@drive I G U clk fuel)) (world_new ws h count tick) = Ret tt g /\
           @shows I G rates g K) /\
        (kmc_run h rates choose l (empty streams') = Some K ->
         exists g, (@prologue I' G rates' clk' thr (Fin t) (Some s) ;; mfor l (@drive I' G U' clk' fuel)) (world_new ws h count tick) = Ret tt g /\
           @shows I' G rates g K).
Proof. intros G I I' U U' clk clk'. exact (orders I I' U U' clk clk'). Qed.
Print Assumptions C83_one_process_partial.

(** the sites in the same order, the neighbours of each in any: both programs show
    the same walkers, waiting times, visits and occupied sites *)
Theorem C83_neighbours_in_any_order_partial :
  forall (G : @Rng XR) (I I' : Impl) (U U' : @Ugly XR) (clk clk' : Z -> Z) (rates rates' : umap (umap Z)) (ws : umap (@walker XR)) (h : @heap XR)
         (count tick : Z) (thr : option Z) (t : R) (s : Z) (streams : Z -> @eng XR G),
    NoDup (ukeys ws) -> 0 <= count -> (0 < t)%R -> network h rates -> network h rates' -> open_draws G -> 0 <= s < 2 ^ 64 ->
    same_network h rates rates' -> ukeys rates = ukeys rates' -> seeded_in_order s rates streams ->
    exists choose, KmcSpec.fair h rates choose /\
      forall fuel l K, kmc_run h rates choose l (empty streams) = Some K -> hop_events l <= INT_MAX -> hop_events l <= search_after thr ->
        exists g g',
          (@prologue I G rates clk thr (Fin t) (Some s) ;; mfor l (@drive I G U clk fuel)) (world_new ws h count tick) = Ret tt g /\
          (@prologue I' G rates' clk' thr (Fin t) (Some s) ;; mfor l (@drive I' G U' clk' fuel)) (world_new ws h count tick) = Ret tt g' /\
          @shows I G rates g K /\ @shows I' G rates g' K.
Proof.
  intros G I I' U U' clk clk' rates rates' ws h count tick thr t s streams NDw Hc Ht HN HN' HD Hs Same Ek Hst.
  destruct (orders I I' U U' clk clk' rates rates' ws h count tick thr t s NDw Hc Ht HN HN' HD Hs Same) as (ch & F & Run).
  exists ch. split; [exact F|]. intros fuel l K E H1 H2.
  destruct (Run streams streams Hst) with (fuel := fuel) (l := l) (K := K) as [A B]; [rewrite <- Ek; exact Hst|exact H1|exact H2|].
  destruct (A E) as (g & Eg & Sg). destruct (B E) as (g' & Eg' & Sg'). eauto 10.
Qed.
Print Assumptions C83_neighbours_in_any_order_partial.

(** ** Two listings *)
(** the number a generator gives, always the same, depends on its seed *)
Local Definition rng_o : @Rng XR := {| eng := Z; eseed := fun s => s; edraw := fun e => (Fin (/ (2 + IZR (Z.abs e))) : @num XR, e) |}.
Local Definition heap_o : @heap XR := fun a => if a =? 0 then Fin 1 else Fin 2.
(** 1, 2 and 3 are neighbours of each other *)
Local Definition rates_o : umap (umap Z) := [(1, [(2, 0); (3, 1)]); (2, [(1, 0); (3, 0)]); (3, [(1, 1); (2, 0)])].
Local Definition rates_n : umap (umap Z) := [(1, [(3, 1); (2, 0)]); (2, [(1, 0); (3, 0)]); (3, [(2, 0); (1, 1)])].
Local Definition rates_s : umap (umap Z) := [(3, [(1, 1); (2, 0)]); (2, [(1, 0); (3, 0)]); (1, [(2, 0); (3, 1)])].

Local Lemma net_o (m : umap (umap Z)) : incl m (rates_o ++ rates_n) -> map fst m = [1; 2; 3] \/ map fst m = [3; 2; 1] -> network heap_o m.
Proof.
  intros Hin Hk. split; [|split].
  - unfold ukeys. destruct Hk as [-> | ->]; repeat constructor; cbn; intuition lia.
  - unfold ukeys. destruct Hk as [-> | ->]; intros [X|[X|[X|[]]]]; vm_compute in X; discriminate.
  - intros k r Hr. apply Hin in Hr.
    assert (Hm : forall n, In n [1; 2; 3] -> In n (ukeys m)) by (unfold ukeys; destruct Hk as [-> | ->]; cbn; tauto).
    assert (Hv : forall a, exists x, heap_o a = Fin x /\ (0 < x)%R) by (intros a; unfold heap_o; destruct (a =? 0); eexists; (split; [reflexivity|lra])).
    cbn in Hr. destruct Hr as [X|[X|[X|[X|[X|[X|[]]]]]]]; injection X as <- <-;
      (split; [split; [discriminate|split; [cbn; repeat constructor; cbn; intuition lia|intros n a _; apply Hv]]|intros n Hn; apply Hm; cbn in Hn |- *; intuition lia]).
Qed.
Local Lemma draws_o : open_draws rng_o.
Proof.
  intros e. exists (/ (2 + IZR (Z.abs e)))%R, e. split; [reflexivity|]. pose proof (IZR_le _ _ (Z.abs_nonneg e)) as X.
  split; [apply Rinv_0_lt_compat; lra|]. rewrite <- Rinv_1. apply Rinv_lt_contravar; lra.
Qed.
Local Lemma same_o (m : umap (umap Z)) : (forall k, Permutation (away rates_o k) (away m k)) -> same_network heap_o rates_o m.
Proof.
  intros P k j x. unfold user_rate. split; intros (a & Ha & E); exists a; (split; [|exact E]).
  - exact (Permutation_in _ (P k) Ha).
  - exact (Permutation_in _ (Permutation_sym (P k)) Ha).
Qed.
Local Lemma same_n : same_network heap_o rates_o rates_n.
Proof.
  apply same_o. intros k. unfold away, rates_o, rates_n. cbn [ulookup]. repeat (destruct (_ =? _); [try apply Permutation_refl; apply perm_swap|]). apply Permutation_refl.
Qed.
Local Lemma same_s : same_network heap_o rates_o rates_s.
Proof.
  apply same_o. intros k. unfold away, rates_o, rates_s. cbn [ulookup].
  destruct (k =? 1) eqn:E1, (k =? 2) eqn:E2, (k =? 3) eqn:E3; try apply Permutation_refl; exfalso; lia.
Qed.
Local Lemma enter_o (choose : Z -> R -> Z) (streams : Z -> Z) :
  @kmc_run rng_o heap_o rates_o choose [Enter 0 10 1] (empty (G := rng_o) streams) =
  let x := (/ (2 + IZR (Z.abs (streams 1%Z))))%R in
  Some (@mkKmc rng_o [(10, mkHopper 1 (choose 1 x) (- ln x / total_rate heap_o (away rates_o 1%Z)))]
          (set streams 1 (streams 1)) (set (fun _ => 0) 1 1)).
Proof. reflexivity. Qed.

(** hypotheses met, with neighbours in another order and sites in another order *)
Example C83_nonvacuous :
  network heap_o rates_o /\ network heap_o rates_n /\ network heap_o rates_s /\ open_draws rng_o /\
  same_network heap_o rates_o rates_n /\ ukeys rates_o = ukeys rates_n /\ same_network heap_o rates_o rates_s /\
  seeded_in_order (G := rng_o) 7 rates_o (fun k => 6 + k) /\
  forall choose, exists K, @kmc_run rng_o heap_o rates_o choose [Enter 0 10 1] (empty (G := rng_o) (fun k => 6 + k)) = Some K.
Proof.
  split; [apply net_o; [intros e He; cbn in *; tauto|left; reflexivity]|].
  split; [apply net_o; [intros e He; cbn in *; tauto|left; reflexivity]|].
  split; [apply net_o; [intros e He; cbn in *; tauto|right; reflexivity]|].
  split; [exact draws_o|]. split; [exact same_n|]. split; [reflexivity|]. split; [exact same_s|]. split.
  - intros i k H. do 3 (destruct i as [|i]; [injection H as <-; reflexivity|]). destruct i; discriminate.
  - intros choose. eexists. apply enter_o.
Qed.

(** The map lists the sites in another order: the same seed gives another waiting
    time. *)
Theorem C83_sites_in_another_order_refuted :
  forall (I : Impl) (U : @Ugly XR) (clk : Z -> Z), exists (G : @Rng XR) (h : @heap XR) (rates rates' : umap (umap Z)) (s k : Z),
    Permutation rates rates' /\ network h rates /\ network h rates' /\ open_draws G /\ 0 <= s < 2 ^ 64 /\
    let run (m : umap (umap Z)) := (prologue m clk None (Fin 1) (Some s) ;; drive clk 0 (Enter 0 10 k)) (world_new [] h 0 0) in
    exists (g g' : @world XR G) (x x' : R), run rates = Ret tt g /\ run rates' = Ret tt g' /\
      waits g 10 (Fin x : @num XR) /\ waits g' 10 (Fin x' : @num XR) /\ x <> x'.
Proof.
  intros I U clk. exists rng_o, heap_o, rates_o, rates_s, 7, 1.
  destruct C83_nonvacuous as (N1 & _ & N2 & HD & _ & _ & Same & _ & _).
  split. { unfold rates_o, rates_s. apply (Permutation_rev [_; _; _]). }
  split; [exact N1|]. split; [exact N2|]. split; [exact HD|]. split; [lia|]. cbv zeta.
  destruct (@orders rng_o I I U U clk clk rates_o rates_s [] heap_o 0 0 None 1 7 (NoDup_nil Z) ltac:(lia) ltac:(lra) N1 N2 HD ltac:(lia) Same) as (ch & F & Run).
  specialize (Run (fun k => 6 + k) (fun k => 10 - k)).
  destruct (Run ltac:(intros i k H; do 3 (destruct i as [|i]; [injection H as <-; reflexivity|]); destruct i; discriminate)
                ltac:(intros i k H; do 3 (destruct i as [|i]; [injection H as <-; reflexivity|]); destruct i; discriminate)
                0%nat [Enter 0 10 1] (@mkKmc rng_o [(10, mkHopper 1 (ch 1 (/ 9)%R) (- ln (/ 9) / 3))] (set (fun k => 6 + k) 1 7) (set (fun _ => 0) 1 1))
                ltac:(vm_compute; discriminate) ltac:(vm_compute; discriminate)) as [A _].
  destruct (Run ltac:(intros i k H; do 3 (destruct i as [|i]; [injection H as <-; reflexivity|]); destruct i; discriminate)
                ltac:(intros i k H; do 3 (destruct i as [|i]; [injection H as <-; reflexivity|]); destruct i; discriminate)
                0%nat [Enter 0 10 1] (@mkKmc rng_o [(10, mkHopper 1 (ch 1 (/ 11)%R) (- ln (/ 11) / 3))] (set (fun k => 10 - k) 1 9) (set (fun _ => 0) 1 1))
                ltac:(vm_compute; discriminate) ltac:(vm_compute; discriminate)) as [_ B].
  assert (T : total_rate heap_o (away rates_o 1) = 3%R) by (cbv; lra).
  destruct A as (g & Eg & Sg & _).
  { rewrite enter_o, T. cbv zeta. replace (2 + IZR (Z.abs (6 + 1)%Z))%R with 9%R by (cbn; lra). reflexivity. }
  destruct B as (g' & Eg' & Sg' & _).
  { rewrite enter_o, T. cbv zeta. replace (2 + IZR (Z.abs (10 - 1)%Z))%R with 11%R by (cbn; lra). reflexivity. }
  specialize (Sg 10 _ (or_introl eq_refl)). specialize (Sg' 10 _ (or_introl eq_refl)). cbn [on aim wait] in Sg, Sg'.
  exists g, g', (- ln (/ 9) / 3)%R, (- ln (/ 11) / 3)%R.
  split; [|split; [|split; [|split]]].
  - unfold bind in Eg |- *. destruct (prologue _ _ _ _ _ _) as [[] g0| |]; try discriminate. cbn [mfor] in Eg. unfold bind in Eg.
    destruct (drive clk 0 (Enter 0 10 1) g0) as [[] g1| |]; [exact Eg|discriminate|discriminate].
  - unfold bind in Eg' |- *. destruct (prologue _ _ _ _ _ _) as [[] g0| |]; try discriminate. cbn [mfor] in Eg'. unfold bind in Eg'.
    destruct (drive clk 0 (Enter 0 10 1) g0) as [[] g1| |]; [exact Eg'|discriminate|discriminate].
  - eexists. split; [exact Sg|reflexivity].
  - eexists. split; [exact Sg'|reflexivity].
  - rewrite !ln_Rinv by lra. assert (ln 9 < ln 11)%R by (apply ln_increasing; lra). lra.
Qed.
Print Assumptions C83_sites_in_another_order_refuted.
