(** * C59: the rates of the time of flight example *)
From Coq Require Import ZArith List Bool Lia Reals Lra.
From Verif Require Import Base Num SiteModel SiteSpec MarcusModel LatticeModel LatticeSpec ValidSpec KmcSpec TofModel TofSpec TofProofs.
Import ListNotations.
Open Scope Z_scope.

(** The example computes a rate for exactly the pairs of the distance table, and it
    is the Marcus rate for the difference of the site energies less the work of
    the field along x, with a coupling that decays with the distance. *)
Theorem C59_recipe :
  forall (I : Impl) (P : recipe) (la : @lattice XR) (sp : R) (energies : list R), tof_input P la sp energies ->
  exists distances rates, l_distanceTable la (Fin (t_cutoff P)) = Ok distances /\ tof_rates P la energies = Ok rates /\
    NoDup (ukeys rates) /\ (forall i r, In (i, r) rates -> r <> [] /\ NoDup (ukeys r)) /\
    forall i j r, lists rates i j r <-> exists d x1 y1 z1 x2 y2 z2, lists distances i j d /\
      at_pos (l_len la) (l_wid la) (l_hei la) i x1 y1 z1 /\ at_pos (l_len la) (l_wid la) (l_hei la) j x2 y2 z2 /\
      r = marcus_rate P (energy_change P sp energies i j x1 x2) d.
Proof.
  intros I P la sp energies (B & Sp & Hsp & HE & HC & F). exact (recipe_followed P la B sp Sp Hsp energies HE HC F).
Qed.
Print Assumptions C59_recipe.

(** Detailed balance: there is a rate back, and the ratio is the Boltzmann factor of
    the energy change, the work of the field included. *)
Theorem C59_detailed_balance :
  forall (I : Impl) (P : recipe) (la : @lattice XR) (sp : R) (energies : list R) rates i j r x1 y1 z1 x2 y2 z2,
  tof_input P la sp energies -> (0 < t_temp P)%R -> (0 < t_lambda P)%R -> tof_rates P la energies = Ok rates ->
  lists rates i j r -> at_pos (l_len la) (l_wid la) (l_hei la) i x1 y1 z1 -> at_pos (l_len la) (l_wid la) (l_hei la) j x2 y2 z2 ->
  exists r', lists rates j i r' /\ (r = r' * exp (- energy_change P sp energies i j x1 x2 / (k_B * t_temp P)))%R.
Proof.
  intros I P la sp energies rates i j r x1 y1 z1 x2 y2 z2 (B & Sp & Hsp & HE & HC & F) HT HL Em.
  exact (recipe_balanced P la B sp Sp Hsp energies HE HC F HT rates i j r x1 y1 z1 x2 y2 z2 Em HL).
Qed.
Print Assumptions C59_detailed_balance.

(** The rates are what the system asks for: distinct sites, positive rates, a rate
    back for every rate, none from a site to itself. *)
Theorem C59_valid_rates :
  forall (I : Impl) (P : recipe) (la : @lattice XR) (sp : R) (energies : list R) rates (h : Z -> @num XR) addrs,
  tof_input P la sp energies -> (0 < t_temp P)%R -> (t_coupling P <> 0)%R -> tof_rates P la energies = Ok rates ->
  stored h addrs rates ->
  mutual_map h addrs /\ network h addrs /\ forall i r, In (i, r) addrs -> ~ In i (ukeys r).
Proof.
  intros I P la sp energies rates h addrs (B & Sp & Hsp & HE & HC & F) HT HA.
  exact (recipe_valid P la B sp Sp Hsp energies HE HC F HT rates h addrs HA).
Qed.
Print Assumptions C59_valid_rates.

(** Every site of the lattice can be left if the cutoff reaches the next site. *)
Theorem C59_every_site :
  forall (I : Impl) (P : recipe) (la : @lattice XR) (sp : R) (energies : list R) rates i,
  tof_input P la sp energies -> tof_rates P la energies = Ok rates -> (sp <= t_cutoff P)%R ->
  2 <= l_len la * l_wid la * l_hei la -> 0 <= i < l_len la * l_wid la * l_hei la -> exists j r, lists rates i j r.
Proof.
  intros I P la sp energies rates i (B & Sp & Hsp & HE & HC & F). exact (recipe_covers P la B sp Sp Hsp energies HE HC F rates i).
Qed.
Print Assumptions C59_every_site.

(** the recipe of the example on a small lattice; [stored] can always be met *)
Definition tof_recipe : recipe := mkRecipe 2 (2 / 100) 300 6 8 (5 / 100) 1.
Definition tof_lattice : @lattice XR := @mkLat XR 3 2 2 12 (Fin 1) Fixed Periodic Periodic.
Definition tof_energies : list R := (map (fun k => (IZR k / 100)%R) [0;3;-1;2;5;-4;1;0;2;-3;4;1])%Z.
Example C59_nonvacuous (I : Impl) :
  tof_input tof_recipe tof_lattice 1 tof_energies /\ (0 < t_temp tof_recipe)%R /\ (0 < t_lambda tof_recipe)%R /\ (t_coupling tof_recipe <> 0)%R /\
  exists rates, tof_rates tof_recipe tof_lattice tof_energies = Ok rates /\ (exists j r, lists rates 4 j r) /\
    exists h addrs, stored h addrs rates.
Proof.
  assert (T : tof_input tof_recipe tof_lattice 1 tof_energies).
  { unfold tof_input, tof_recipe, tof_lattice, built, INT_MAX. cbn [l_len l_wid l_hei l_total l_spacing t_cutoff]. repeat split; try lia; try lra. }
  split; [exact T|]. split; [simpl; lra|]. split; [simpl; lra|]. split; [simpl; lra|].
  destruct (C59_recipe I _ _ _ _ T) as (d & m & _ & E & _). exists m. split; [exact E|]. split.
  - apply (C59_every_site I _ _ _ _ _ _ T E); simpl; try lia; lra.
  - destruct (rows_stored m (fun _ => Fin 0) 0) as (h & ad & _ & S). exists h, ad. exact S.
Qed.
