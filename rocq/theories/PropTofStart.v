(** * C64: the time of flight example places its charges

    [tof_populate la raw fuel n] is populateLattice for [n] charges; [raw] is what
    the generator of the lattice gives out, [fuel] bounds the number of draws. *)
From Coq Require Import ZArith List Bool Lia Reals Lra Permutation.
From Verif Require Import Base BaseProofs Num RSum QueueModel QueueProofs WalkerModel SiteModel SiteSpec ClusterModel ContainerModel BasinModel SystemModel SystemSpec
  ValidSpec KmcSpec MarcusModel LatticeModel LatticeSpec LatticeProofs TofModel TofSpec TofProofs PropTof TofLoop TofLoopSpec TofLoopValid PropTofLoop TofStart TofStartProofs TofBound.
Import ListNotations.
Open Scope Z_scope.

(** The holes are 0 .. n-1, hole i is walker i, the walkers are on distinct sites of
    the first plane (x = 0). *)
Theorem C64_placed :
  forall (I : Impl) (N : Num) (la : lattice) raw fuel n holes walkers,
    built la -> tof_populate la raw fuel n = Ok (holes, walkers) ->
    length holes = n /\ (forall i p, is_hole holes i p <-> 0 <= i < Z.of_nat n /\ p = i) /\
    map snd holes = ukeys walkers /\ NoDup (ukeys walkers) /\
    (forall p w, ulookup p walkers = Some w -> exists y z, at_pos (l_len la) (l_wid la) (l_hei la) (w_cur w) 0 y z) /\
    (forall p q w w', ulookup p walkers = Some w -> ulookup q walkers = Some w' -> w_cur w = w_cur w' -> p = q).
Proof. intros I N la raw fuel n holes walkers B. exact (populate_spec la raw B fuel n holes walkers). Qed.
Print Assumptions C64_placed.

(** It returns as soon as the draws have named enough sites ... *)
Theorem C64_returns :
  forall (I : Impl) (N : Num) (la : lattice) raw n K l fuel,
    built la -> NoDup l -> (n <= length l)%nat ->
    (forall i, In i l -> exists k, (k < K)%nat /\ l_getRandomSite la YZ 0 (fst (raw k)) (snd (raw k)) = Ok i) -> (K <= fuel)%nat ->
    exists holes walkers, tof_populate la raw fuel n = Ok (holes, walkers).
Proof.
  intros I N la raw n K l fuel B ND Hn HK Hf.
  destruct (pick_sites_returns la raw B n K l ND Hn HK fuel 0 []) as (s & E); [lia|intros; lia|].
  unfold tof_populate. rewrite E. cbn. destruct (new_holes 0 (ukeys s)) as [a b]. eauto.
Qed.
Print Assumptions C64_returns.

(** ... and never if there are more charges than sites in the plane. *)
Theorem C64_too_many :
  forall (I : Impl) (N : Num) (la : lattice) raw n fuel,
    built la -> l_wid la * l_hei la < Z.of_nat n -> tof_populate la raw fuel n = Bad Diverged.
Proof.
  intros I N la raw n fuel B Hn. unfold tof_populate. rewrite (pick_sites_forever la raw B n Hn fuel 0 []); [reflexivity|constructor|intros i []].
Qed.
Print Assumptions C64_too_many.

(** three draws for two charges *)
Example C64_nonvacuous (I : Impl) (N : Num) : let la := mkLat 3 2 2 12 n1 Fixed Periodic Periodic in
  built la /\ l_wid la * l_hei la < 5 /\ exists holes walkers,
    tof_populate la (fun k => match k with O => (0, 1) | S O => (2, 3) | _ => (1, 0) end) 3 2 = Ok (holes, walkers).
Proof.
  intros la. assert (B : built la) by (unfold built, la, INT_MAX; cbn; lia). split; [exact B|]. split; [cbn; lia|].
  apply (C64_returns I N la _ 2 3 [6; 3] 3 B); [repeat constructor; cbn; intuition lia|cbn; lia| |lia].
  intros i [<-|[<-|[]]]; [exists 0%nat|exists 2%nat]; (split; [lia|reflexivity]).
Qed.

(** a finite map has a smallest rate and a largest sum *)
Lemma smallest (l : list R) : (forall x, In x l -> 0 < x)%R -> exists lo, (0 < lo)%R /\ forall x, In x l -> (lo <= x)%R.
Proof.
  induction l as [|a l IH]; intros H; [exists 1%R; split; [lra|intros x []]|].
  destruct IH as (lo & P & L); [intros x Hx; apply H; right; exact Hx|]. exists (Rmin a lo).
  split; [apply Rmin_pos; [apply H; left; reflexivity|exact P]|]. intros x [<-|Hx]; [apply Rmin_l|]. eapply Rle_trans; [apply Rmin_r|apply L; exact Hx].
Qed.
Lemma largest (l : list R) b : (0 < b)%R -> (forall x, In x l -> x < b)%R -> exists hi, (0 < hi < b)%R /\ forall x, In x l -> (x <= hi)%R.
Proof.
  intros Hb. induction l as [|a l IH]; intros H; [exists (b / 2)%R; split; [lra|intros x []]|].
  destruct IH as (hi & P & L); [intros x Hx; apply H; right; exact Hx|]. exists (Rmax a hi). pose proof (H a (or_introl eq_refl)).
  split; [split; [eapply Rlt_le_trans; [apply P|apply Rmax_r]|apply Rmax_lub_lt; lra]|].
  intros x [<-|Hx]; [apply Rmax_l|]. eapply Rle_trans; [apply L; exact Hx|apply Rmax_r].
Qed.

(** No rate of calculateRates is above the rate without barrier at distance zero, no
    sum of the rates of a site above that times the number of sites. *)
Theorem C64_rates_bounded :
  forall (I : Impl) (P : recipe) (la : @lattice XR) (sp : R) (energies : list R) computed (h : @heap XR) rates,
    tof_input P la sp energies -> (0 < t_temp P)%R -> (0 < t_lambda P)%R -> (0 <= t_alpha P)%R ->
    tof_rates P la energies = Ok computed -> stored h rates computed ->
    (forall i j r, lists computed i j r -> (r <= top_rate P)%R) /\
    forall i r, In (i, r) rates -> (total_rate h r <= IZR (l_len la * l_wid la * l_hei la) * top_rate P)%R.
Proof.
  intros I P la sp energies computed h rates TI HT HL HA Em St. split.
  - intros i j r. apply (recipe_le P la sp energies TI HT HL HA computed i j r Em).
  - intros i r. apply (recipe_total_le P la sp energies TI HT HL HA computed h rates i r Em St).
Qed.
Print Assumptions C64_rates_bounded.

(** The whole program: rates by calculateRates, charges by populateLattice, then the
    loop.  For some bounds on the rates (the smallest rate, the largest sum) the
    run meets the hypotheses of C62, so it goes on until the counters overflow, or
    no hole would hop before the cutoff time. *)
Theorem C64_whole_program :
  forall (I : Impl) (G : @Rng XR) (U : @Ugly XR) (clk : Z -> Z) (P : recipe) (la : @lattice XR) (sp : R) (energies : list R) computed (h : @heap XR) rates
    (lits : @literals XR) raw draws n holes walkers inc c count tick,
    tof_input P la sp energies -> (0 < t_temp P)%R -> (t_coupling P <> 0)%R -> (sp <= t_cutoff P)%R -> 2 <= l_len la ->
    (0 < t_lambda P)%R -> (0 <= t_alpha P)%R -> (IZR (l_len la * l_wid la * l_hei la) * top_rate P < / dbl_min)%R ->
    tof_rates P la energies = Ok computed -> stored h rates computed ->
    tof_populate la raw draws n = Ok (holes, walkers) -> (0 < n)%nat ->
    open_draws G -> increment lits = Fin inc -> (0 < inc)%R -> cutoff_time lits = Fin c -> 0 <= count ->
    exists lo hi, tof_valid (G := G) la lits holes walkers h rates lo hi inc /\
      forall steps, few_hops lo hi (Z.of_nat steps) ->
        (exists b s F, forall fuel, (F <= fuel)%nat -> tof_main clk la lits holes fuel rates steps (world_new walkers h count tick) = Ret b s) \/
        (forall fuel, tof_main clk la lits holes fuel rates steps (world_new walkers h count tick) = Halt AssertFailed).
Proof.
  intros I G U clk P la sp energies computed h rates lits raw draws n holes walkers inc c count tick TI HT HA Hsc HL Hla Hal Hto Em St Ep Hn HO Ei Ip Ec Hc.
  pose proof (proj2 (C64_rates_bounded I P la sp energies computed h rates TI HT Hla Hal Em St)) as Bd.
  assert (B : built la) by (destruct TI as (B & _); exact B).
  destruct (C64_placed I XR la raw draws n holes walkers B Ep) as (H1 & H2 & H3 & H4 & H5 & H6).
  destruct (C59_valid_rates I P la sp energies computed h rates TI HT HA Em St) as (Mm & _ & _).
  assert (Hd : (0 < / dbl_min)%R) by (apply Rinv_0_lt_compat; unfold dbl_min; apply pow_lt || (apply Rinv_0_lt_compat, pow_lt); lra).
  destruct (smallest (flat_map (fun e => map (fun a => realv (h (snd a))) (snd e)) rates)) as (lo & Lp & Lo).
  { intros x Hx. apply in_flat_map in Hx. destruct Hx as ([i r] & Hin & Hx). apply in_map_iff in Hx. destruct Hx as ([j a] & <- & Hj).
    destruct (Mm i r Hin) as [(_ & _ & G3) _]. destruct (G3 j a Hj) as (x & Ex & Px). cbn. rewrite Ex. exact Px. }
  destruct (largest (map (fun e => total_rate h (snd e)) rates) (/ dbl_min)%R Hd) as (hi & [Hp Hb] & Hi).
  { intros x Hx. apply in_map_iff in Hx. destruct Hx as ([i r] & <- & Hin). eapply Rle_lt_trans; [apply (Bd i r Hin)|exact Hto]. }
  assert (TV : tof_valid (G := G) la lits holes walkers h rates (Rmin lo hi) hi inc).
  { apply (C62_example_rates I G P la sp energies computed h rates lits holes walkers (Rmin lo hi) hi inc c TI HT HA Hsc HL Em St); auto.
    - intros i r Hin. split.
      + intros j a Hj. eapply Rle_trans; [apply Rmin_l|]. apply Lo. apply in_flat_map. exists (i, r). split; [exact Hin|]. apply in_map_iff. exists (j, a). auto.
      + apply Hi. apply in_map_iff. exists (i, r). auto.
    - split; [split; [apply Rmin_pos; lra|apply Rmin_r]|exact Hb].
    - intros ->. cbn in H1. lia.
    - apply (populate_released la raw B draws n holes walkers Ep).
    - intros p w _ Ew. destruct (H5 p w Ew) as (y & z & A). apply (at_pos_range la B _ _ _ _ A). }
  exists (Rmin lo hi), hi. split; [exact TV|]. intros steps Fe.
  destruct (C62_runs I G U clk la lits holes walkers h rates (Rmin lo hi) hi inc count tick steps TV Hc Fe) as [X|[X _]]; [left; exact X|right; exact X].
Qed.
Print Assumptions C64_whole_program.

(** the literals of the example on a small lattice *)
Example C64_program_nonvacuous (I : Impl) :
  tof_input tof_recipe tof_lattice 1 tof_energies /\ (0 < t_temp tof_recipe)%R /\ (t_coupling tof_recipe <> 0)%R /\ (1 <= t_cutoff tof_recipe)%R /\
  (0 < t_lambda tof_recipe)%R /\ (0 <= t_alpha tof_recipe)%R /\ 2 <= l_len tof_lattice /\
  (IZR (l_len tof_lattice * l_wid tof_lattice * l_hei tof_lattice) * top_rate tof_recipe < / dbl_min)%R /\
  exists computed h rates holes walkers, tof_rates tof_recipe tof_lattice tof_energies = Ok computed /\ stored h rates computed /\
    tof_populate tof_lattice (fun k => (Z.of_nat k, 0)) 2 2 = Ok (holes, walkers).
Proof.
  destruct (C59_nonvacuous I) as (T1 & T2 & T3 & T4 & computed & E & _ & h & rates & St).
  split; [exact T1|]. split; [exact T2|]. split; [exact T4|]. split; [cbn; lra|]. split; [exact T3|]. split; [cbn; lra|]. split; [cbn; lia|]. split.
  - unfold top_rate, dbl_min. cbn [t_coupling t_temp tof_recipe l_len l_wid l_hei tof_lattice]. replace (/ powerRZ 2 (-1022))%R with (powerRZ 2 1022) by (cbn [powerRZ]; rewrite Rinv_inv; reflexivity).
    assert (S1 : (1 <= sqrt 300)%R) by (rewrite <- sqrt_1; apply sqrt_le_1; lra).
    assert (X : (2 * PI_c / h_bar / (SRPI * 2 * SRk_B * sqrt 300) <= 10 ^ 18)%R).
    { unfold PI_c, h_bar, SRPI, SRk_B. apply (Rmult_le_reg_r (177245385091 / 10 ^ 11 * 2 * (9282959260 / 10 ^ 12) * sqrt 300)); [nra|].
      unfold Rdiv at 1. rewrite Rmult_assoc, Rinv_l by nra. lra. }
    assert (Y : (2 ^ 80 < powerRZ 2 1022)%R).
    { change (powerRZ 2 1022) with (2 ^ (Pos.to_nat 1022))%R. apply Rlt_pow; [lra|]. lia. }
    eapply Rle_lt_trans; [|exact Y]. change (3 * 2 * 2) with 12.
    rewrite (pow_IZR 2 80), (pow_IZR 10 18) in *. change (2 ^ Z.of_nat 80) with 1208925819614629174706176. change (10 ^ Z.of_nat 18) with 1000000000000000000 in X.
    set (y := (2 * PI_c / h_bar / (SRPI * 2 * SRk_B * sqrt 300))%R) in *. lra.
  - destruct (C64_returns I XR tof_lattice (fun k => (Z.of_nat k, 0)) 2 2 [0; 3] 2 ltac:(apply T1)) as (holes & walkers & Ep).
    + repeat constructor; cbn; intuition lia.
    + cbn; lia.
    + intros i [<-|[<-|[]]]; [exists 0%nat|exists 1%nat]; (split; [lia|reflexivity]).
    + lia.
    + exists computed, h, rates, holes, walkers. auto.
Qed.
