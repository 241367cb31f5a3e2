(** * Specification vocabulary for the rates of the time of flight example *)
From Coq Require Import ZArith List Bool Reals.
From Verif Require Import Base Num MarcusModel LatticeModel LatticeSpec TofModel.
Import ListNotations.
Open Scope R_scope.

(** energy of site [i] *)
Definition energy (energies : list R) (i : Z) : R := nth (Z.to_nat i) energies 0.
(** energy gained or paid by the charge when it goes from [i] at x1 to [j] at x2 *)
Definition energy_change (P : recipe) (sp : R) (energies : list R) (i j x1 x2 : Z) : R :=
  energy energies j - energy energies i - t_charge P * t_field P * (IZR (x2 - x1) * sp).
(** Marcus rate for an energy change and a distance *)
Definition marcus_rate (P : recipe) (change distance : R) : R :=
  marcus_getRate (marcus_new (t_lambda P) (t_temp P)) 0 change (t_coupling P * exp (- (t_alpha P * distance))).
(** the Marcus rate at distance zero if there were no barrier *)
Definition top_rate (P : recipe) : R := 2 * PI_c / h_bar / (SRPI * 2 * SRk_B * sqrt (t_temp P)) * (t_coupling P * t_coupling P).

(** [m] lists the rate [r] from [i] to [j] *)
Definition lists (m : umap (umap (@num XR))) (i j : Z) (r : R) : Prop :=
  exists row, In (i, row) m /\ In (j, Fin r) row.
(** the values of the map [m] are stored at the addresses [addrs] in memory [h]:
    this is how initializeSystem sees the map *)
Definition stored (h : Z -> @num XR) (addrs : umap (umap Z)) (m : umap (umap (@num XR))) : Prop :=
  map (fun e => (fst e, map (fun a => (fst a, h (snd a))) (snd e))) addrs = m.

(** sizes and cutoff for which getNeighborDistances does not overflow; one energy
    for every site *)
Definition tof_input (P : recipe) (la : @lattice XR) (sp : R) (energies : list R) : Prop :=
  built la /\ l_spacing la = Fin sp /\ 0 < sp /\
  (Z.of_nat (length energies) = l_len la * l_wid la * l_hei la)%Z /\ 0 <= t_cutoff P < 646 * sp /\
  (l_len la <= INT_MAX - 645 /\ l_wid la <= INT_MAX - 645 /\ l_hei la <= INT_MAX - 645)%Z.
