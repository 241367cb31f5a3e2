(** * A run of the time of flight example in exact arithmetic

    One hole on the chain 0 - 1 - 2, one site in every plane, all rates 1, every draw
    1/2: with L = -ln (1/2) it hops to site 1 at time L and then waits until 3/2 L.
    The samples are taken every 5/4 L, so that the first one sees one hop. *)
From Coq Require Import ZArith List Bool Reals Lra Lia Permutation.
From Verif Require Import Base BaseProofs Num RSum QueueModel WalkerModel SiteModel SiteSpec SiteProofs ClusterModel ContainerModel BasinModel SystemModel SystemSpec SystemShape
  SystemProofs SystemFacts SystemInit ValidSpec SystemEquil SystemTotal SystemChain KmcSpec SystemKmc LatticeModel LatticeSpec TofLoop TofLoopSpec TofLoopProofs TofLoopValid.
Import ListNotations.
Open Scope R_scope.

#[local] Existing Instances impl0 rng_c ugly_c.

Definition half_life : R := - ln (1 / 2).
Lemma half_pos : 0 < half_life.
Proof. unfold half_life. rewrite <- ln_1. assert (ln (1 / 2) < ln 1) by (apply ln_increasing; lra). rewrite ln_1 in *. lra. Qed.
Definition la_t : @lattice XR := @mkLat XR 3 1 1 3 (Fin 1) Fixed Periodic Periodic.
Definition rates_t : umap (umap Z) := [(0, [(1, 0)]); (1, [(0, 1); (2, 2)]); (2, [(1, 3)])]%Z.
Definition heap_t : @heap XR := fun _ => Fin 1.
Definition inc_t : R := 5 / 4 * half_life.
Definition lits_t : @literals XR := @mkLiterals XR (Fin 1) (Fin 1) (Fin (2 * half_life)) (Fin inc_t) 7.
Definition start_t : @walker XR := @mkWalker XR 0 unassignedId (nofZ (-1)).
Definition walkers_t : umap (@walker XR) := [(10, start_t)]%Z.
Definition holes_t : list (Z * Z) := [(0, 10)]%Z.

Lemma fresh_t p w : ulookup p walkers_t = Some w -> p = 10%Z /\ w = start_t.
Proof. unfold walkers_t. cbn. destruct (Z.eqb_spec p 10); [|discriminate]. intros E; inversion E; auto. Qed.
Lemma network_t : network heap_t rates_t.
Proof.
  split; [repeat constructor; cbn; intuition lia|]. split; [vm_compute; intuition lia|].
  assert (P1 : exists r, Fin 1 = Fin r /\ 0 < r) by (exists 1; split; [reflexivity|lra]).
  intros k r [E|[E|[E|[]]]]; inversion E; subst; (split; [split; [discriminate|split; [repeat constructor; cbn; intuition lia|intros; exact P1]]|cbn; intuition]).
Qed.
Lemma mutual_t : mutual_map heap_t rates_t.
Proof.
  intros i r Hin. split; [apply (proj2 (proj2 network_t) i r Hin)|]. intros j Hj.
  destruct Hin as [E|[E|[E|[]]]]; inversion E; subst; cbn in Hj; intuition; subst; cbn; eauto 9.
  - exists [(0, 1); (2, 2)]%Z. cbn; auto.
  - exists [(1, 0)]%Z. cbn; auto.
  - exists [(1, 3)]%Z. cbn; auto.
  - exists [(0, 1); (2, 2)]%Z. cbn; auto.
Qed.
Lemma released_t : @released XR la_t holes_t walkers_t.
Proof.
  split; [repeat constructor; cbn; tauto|]. split.
  - intros p [<-|[]]. exists start_t. split; reflexivity.
  - intros p q w w' [<-|[]] [<-|[]]. reflexivity.
Qed.
Lemma valid_t : tof_valid (G := rng_c) la_t lits_t holes_t walkers_t heap_t rates_t 1 2 inc_t.
Proof.
  pose proof half_pos. constructor.
  - split; [|cbn; lia]. unfold built, la_t, INT_MAX; cbn. lia.
  - split; [reflexivity|]. split; [unfold inc_t; lra|]. eexists; reflexivity.
  - intros e. exists (1 / 2), tt. split; [reflexivity|lra].
  - split; [lra|]. pose proof small_c. lra.
  - repeat constructor; cbn; intuition lia.
  - split; [exact mutual_t|]. intros i r Hin. destruct Hin as [E|[E|[E|[]]]]; inversion E; subst; (split; [discriminate|]); (split; [cbn; intuition lia|]); split;
      try (intros; cbn; lra); unfold total_rate; cbn; lra.
  - intros k Hk. cbn in Hk. cbn. lia.
  - repeat constructor; cbn; tauto.
  - split; [discriminate|exact released_t].
  - intros p w [<-|[]] E. apply fresh_t in E. destruct E as [_ ->]. cbn. auto.
Qed.

Notation main_t := (fun n => @tof_main impl0 XR rng_c ugly_c clk_c la_t lits_t holes_t 9 rates_t n (world_new walkers_t heap_t 0 0)).
Lemma run_t : exists s, main_t 3%nat = Ret true s /\ in_sample s = false /\ q_list (f_queue s) = [(0%Z, Fin (3 / 2 * half_life) : @num XR)] /\
  length (transient_current s) = 1%nat /\ charges_left s = [Fin 1 : @num XR] /\ in_plane la_t holes_t s 0 1 /\ hopped s = [(0%Z, Fin half_life : @num XR)].
Proof.
  pose proof half_pos as HL. set (T1 := Fin inc_t : @num XR).
  destruct (@start impl0 rng_c ugly_c clk_c rates_t walkers_t heap_t 0 0 None inc_t (Some 7%Z)) as (g & E & Rf & Rd & _);
    [repeat constructor; cbn; tauto|lia|unfold inc_t; lra|exact network_t|].
  pose proof (table_fair clk_c heap_t rates_t g Rd) as Hf.
  set (g0 := world_new walkers_t heap_t 0 0 : @world XR rng_c) in *.
  set (g2 := g_with_res (Some T1) (g_with_seed (Some 7%Z) g0) : @world XR rng_c).
  assert (E2 : sys_setTimeResolution T1 (g_with_seed (Some 7%Z) g0) = Ret tt g2).
  { unfold sys_setTimeResolution. replace (nleb T1 n0) with false; [reflexivity|].
    symmetry. unfold nleb, n0, T1, inc_t; cbn. unfold xleb, xltb, xeqb, Rltb, Reqb. destruct (Rlt_dec _ _); [lra|]. destruct (Req_EM_T _ _); [lra|reflexivity]. }
  assert (E3 : sys_initializeSystem clk_c rates_t g2 = Ret tt g).
  { unfold prologue in E. apply bind_ret_inv in E. destruct E as ([] & ga & Ea & E). inversion Ea; subst ga; clear Ea.
    apply bind_ret_inv in E. destruct E as ([] & ga & Ea & E).
    assert (ga = g_with_res (Some T1) g0).
    { unfold sys_setTimeResolution in Ea. destruct (nleb _ _); [discriminate|]. inversion Ea. reflexivity. } subst ga.
    apply bind_ret_inv in E. destruct E as ([] & gb & Eb & E). inversion Eb; subst gb. exact E. }
  assert (Ew : g_walkers g = walkers_t).
  { assert (R0 : reach_by clk_c [] g0 []) by (exists walkers_t, heap_t, 0%Z, 0%Z; split; [repeat constructor; cbn; tauto|split; [lia|constructor]]).
    assert (R1 := reach_step clk_c _ _ _ _ _ _ R0 (st_seed clk_c g0 [] 7%Z (g_with_seed (Some 7%Z) g0) eq_refl)).
    assert (R2 := reach_step clk_c _ _ _ _ _ _ R1 (st_res clk_c _ _ _ _ E2)).
    destruct (init_all clk_c _ _ _ _ (reached_inv clk_c _ _ _ R2) (proj1 network_t) E3) as (Zs & _). apply (z_walkers _ _ Zs). }
  (* the hole enters *)
  assert (Hc0 : pick_at (site_table g) 0 (1 / 2) = 1%Z).
  { destruct (proj1 (Hf 0%Z ltac:(cbn; auto)) (1 / 2) ltac:(lra)) as [X|[]]. symmetry. exact X. }
  set (K0 := empty (site_stream g)) in *.
  set (h1 := mkHopper 0 (pick_at (site_table g) 0 (1 / 2)) (- ln (1 / 2) / total_rate heap_t (away rates_t 0))).
  assert (St1 : exists X1, kmc_step heap_t rates_t (pick_at (site_table g)) (Enter 0 10 0) K0 = Some X1 /\ KmcSpec.walkers X1 = [(10%Z, h1)]).
  { eexists. split; [reflexivity|]. reflexivity. }
  destruct St1 as (X1 & St1 & W1).
  assert (HO : open_draws rng_c) by (intros e; exists (1 / 2), tt; split; [reflexivity|lra]).
  assert (HT : forall k, In k (ukeys rates_t) -> 0 < total_rate heap_t (away rates_t k)).
  { intros k Hk. destruct (Rd k Hk) as (s & _ & _ & Hg & _). apply total_rate_pos, Hg. }
  assert (HP : forall k u, In k (ukeys rates_t) -> 0 <= u < 1 -> In (pick_at (site_table g) k u) (ukeys rates_t)).
  { intros k u Hk Hu. destruct (Rd k Hk) as (s & _ & _ & _ & Hin). apply Hin, (proj1 (Hf k Hk)); lra. }
  pose proof (proj1 (proj2 network_t)) as HU.
  destruct (enter_refines clk_c heap_t rates_t (site_table g) (search_after None) HO HT HP HU 0 g K0 0 10 0 X1 Rf St1) as (g1 & Ee & Rf1).
  assert (E4 : sys_initializeWalkers holes_t g = Ret tt g1).
  { cbn [drive] in Ee. apply bind_ret_inv in Ee. destruct Ee as ([] & ga & Ea & Ee). inversion Ea; subst ga; clear Ea. rewrite <- Ee.
    assert (Eg : g_with_walkers (uset (g_walkers g) 10 start_t) g = g).
    { transitivity (g_with_walkers (g_walkers g) g); [f_equal; rewrite Ew; reflexivity|apply eta_walkers]. }
    change (sys_initializeWalkers holes_t g = sys_initializeWalkers holes_t (g_with_walkers (uset (g_walkers g) 10 start_t) g)). rewrite Eg. reflexivity. }
  pose proof (r_walk _ _ _ _ _ _ _ Rf1 10%Z h1 ltac:(rewrite W1; left; reflexivity)) as Wk1. unfold h1 in Wk1; cbn [on aim wait] in Wk1. rewrite Hc0 in Wk1.
  assert (T0 : - ln (1 / 2) / total_rate heap_t (away rates_t 0) = half_life) by (unfold total_rate, half_life; cbn; field).
  rewrite T0 in Wk1.
  (* its first hop *)
  set (h2 := mkHopper 1 (pick_at (site_table g) 1 (1 / 2)) (- ln (1 / 2) / total_rate heap_t (away rates_t 1))).
  assert (St2 : exists X2, kmc_step heap_t rates_t (pick_at (site_table g)) (Hop 0 10) X1 = Some X2 /\ KmcSpec.walkers X2 = [(10%Z, h2)]).
  { cbn [kmc_step]. rewrite W1. unfold seek; cbn [find fst snd Z.eqb Pos.eqb]. unfold h1, someone; cbn [aim on existsb fst snd]. rewrite Hc0.
    cbn [Z.eqb orb]. eexists. split; [reflexivity|]. reflexivity. }
  destruct St2 as (X2 & St2 & W2).
  destruct (hop_refines clk_c heap_t rates_t (site_table g) (search_after None) HO HT HP HU 0 g1 X1 0 10 9 X2 Rf1) as (g3 & Eh & Rf2); [unfold INT_MAX; lia|cbn; lia|exact St2|].
  pose proof (r_walk _ _ _ _ _ _ _ Rf2 10%Z h2 ltac:(rewrite W2; left; reflexivity)) as Wk2. unfold h2 in Wk2; cbn [on aim wait] in Wk2.
  assert (T2 : - ln (1 / 2) / total_rate heap_t (away rates_t 1) = half_life / 2) by (unfold total_rate, half_life; cbn; field).
  rewrite T2 in Wk2. set (a2 := pick_at (site_table g) 1 (1 / 2)) in *. 
  set (s0 := tof_new lits_t holes_t g0). set (e0 := (0%Z, Fin half_life : @num XR)).
  set (s1 := f_with_queue (mkQueue [e0] true) (f_with_world g1 s0)).
  assert (Es : tof_setup clk_c lits_t holes_t rates_t s0 = Ret tt s1).
  { unfold tof_setup. rewrite (bind_run _ _ s0 tt (f_with_world (g_with_seed (Some 7%Z) g0) s0)) by (apply in_world_run; reflexivity).
    rewrite (bind_run _ _ _ tt (f_with_world g2 s0)) by (apply (in_world_run _ (f_with_world (g_with_seed (Some 7%Z) g0) s0)); exact E2).
    rewrite (bind_run _ _ _ tt (f_with_world g s0)) by (apply (in_world_run _ (f_with_world g2 s0)); exact E3).
    rewrite (bind_run _ _ _ tt (f_with_world g1 s0)) by (apply (in_world_run _ (f_with_world g s0)); exact E4).
    unfold fill_queue. rewrite (bind_run _ _ _ tt (f_with_queue (mkQueue [e0] false) (f_with_world g1 s0))).
    2: { change (zrange 0 (Z.of_nat (length holes_t) - 1)) with [0%Z]. cbn [mfor]. rewrite (bind_run _ _ _ tt (f_with_queue (mkQueue [e0] false) (f_with_world g1 s0))); [reflexivity|].
         rewrite (bind_run _ _ _ 10%Z (f_with_world g1 s0)) by reflexivity.
         rewrite (bind_run _ _ _ (Fin half_life : @num XR) (f_with_world g1 s0)); [reflexivity|].
         erewrite in_world_run by (apply getDwell_run; exact Wk1). reflexivity. }
    rewrite (bind_run _ _ _ tt s1) by reflexivity. rewrite (bind_run _ _ _ e0 s1) by reflexivity.
    unfold cassert. replace (nltb (snd e0) (cutoff_time lits_t)) with true; [reflexivity|]. symmetry. apply ltb_fin. lra. }
  set (s2 := f_with_in true (f_with_delta n0 s1)).
  set (e1 := (0%Z, Fin (half_life + half_life / 2) : @num XR)).
  set (s3 := f_with_queue (mkQueue [e1] true) (hop_done s2 e0 [] g3 0 1)).
  set (s4 := f_with_in false (f_with_sample (nadd T1 T1) (f_with_left [Fin 1 : @num XR] (f_with_current [current_of la_t lits_t (deltaX s3) 1] s3)))).
  assert (Em : main_t 3%nat = Ret true s4).
  { unfold tof_main. rewrite (bind_run _ _ s0 tt s1 Es). cbn [tof_steps].
    rewrite (bind_run _ _ s1 true s2).
    2: { unfold tof_step. rewrite (bind_run _ _ s1 false s1) by reflexivity. rewrite (bind_run _ _ s1 true s1); [reflexivity|].
         unfold next_before. rewrite (bind_run _ _ s1 1%Z s1) by reflexivity. cbn [Z.eqb]. rewrite (bind_run _ _ s1 e0 s1) by reflexivity.
         unfold ret. f_equal. apply ltb_fin. lra. }
    rewrite (bind_run _ _ s2 true s3).
    2: { unfold tof_step. rewrite (bind_run _ _ s2 true s2) by reflexivity. rewrite (bind_run _ _ s2 T1 s2) by reflexivity. rewrite (bind_run _ _ s2 true s2).
         - rewrite (bind_run _ _ s2 tt s3); [reflexivity|].
           assert (Nu : forall k, (0 <= k)%Z -> k <> unassignedId) by (intros k Hk; unfold unassignedId, INT_MIN; lia).
           rewrite (hop_run clk_c la_t holes_t 9 s2 e0 [] 10 (@mkWalker XR 0 1 (Fin half_life)) 0 g3 (@mkWalker XR 1 a2 (Fin (half_life / 2))) 1 eq_refl (conj (Z.le_refl 0) (ex_intro _ 0%Z eq_refl)) Wk1 (Nu 0%Z ltac:(lia)) eq_refl Eh Wk2 (Nu 1%Z ltac:(lia)) eq_refl eq_refl).
           reflexivity.
         - unfold next_before. rewrite (bind_run _ _ s2 1%Z s2) by reflexivity. cbn [Z.eqb]. rewrite (bind_run _ _ s2 e0 s2) by reflexivity.
           unfold ret. f_equal. apply ltb_fin. unfold inc_t. lra. }
    rewrite (bind_run _ _ s3 true s4); [reflexivity|].
    unfold tof_step. rewrite (bind_run _ _ s3 true s3) by reflexivity. rewrite (bind_run _ _ s3 T1 s3) by reflexivity. rewrite (bind_run _ _ s3 false s3).
    - reflexivity.
    - unfold next_before. rewrite (bind_run _ _ s3 1%Z s3) by reflexivity. cbn [Z.eqb]. rewrite (bind_run _ _ s3 e1 s3) by reflexivity.
      unfold ret. f_equal. apply ltb_fin_not. unfold inc_t. lra. }
  exists s4. split; [exact Em|]. split; [reflexivity|]. split; [|split; [reflexivity|split; [reflexivity|split; [|reflexivity]]]].
  - change (q_list (f_queue s4)) with [e1]. unfold e1. replace (half_life + half_life / 2) with (3 / 2 * half_life) by lra. reflexivity.
  - exists 10%Z, 1%Z. split; [split; [lia|exists 0%Z; reflexivity]|]. split; [|reflexivity]. eexists. split; [exact Wk2|reflexivity].
Qed.
