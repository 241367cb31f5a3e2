(** * Property C71: where a walker is found inside a cluster *)
From Coq Require Import ZArith List Bool Reals Lra Lia.
From Verif Require Import Base Num RSum MarcusModel SiteModel SiteSpec ClusterModel ClusterSpec ClusterHist ClusterUpdate
  EscapeSpec ThermalSpec ThermalProofs ThermalNet.
Import ListNotations.
Open Scope R_scope.

(** ** C71 *)
(** Full statement: an internal pick (see C23) puts the walker on a member
    with the probability to find a hop-by-hop walker there: the fraction of
    its time the walker spends on that member, and with Marcus rates
    exp(-E/kT) normalised over the members.

    The first half, for a walker whose first site is drawn from the
    quasi-stationary distribution: [mean_time … (Z.eqb k) t] says that it
    spends the time t on member k before it leaves, [mean_stay … T] that it
    spends T in all, and [internal_share c k x] that an internal pick of c
    yields k with probability x. *)
Theorem C71_time_shares_partial :
  forall (I : Impl) (G : @Rng XR) (h : heap) (sites : umap site),
    members_ok h sites -> mutual sites -> joined sites -> (2 <= length sites)%nat -> has_exit sites ->
    exists (Q : Z -> R) (T : R) (Tk : Z -> R), quasi_stationary h sites Q /\ 0 < T /\ mean_stay h sites Q T /\
      (forall k, In k (ukeys sites) -> mean_time h sites Q (Z.eqb k) (Tk k)) /\
      forall eps, 0 < eps -> exists (N : Z) (t : R), 0 < t /\
        forall (fuel : nat) (c c' : cluster), never_updated c -> c_sites c = sites -> finer N t c -> c_update fuel h c = Ret tt c' ->
          forall k, In k (ukeys sites) -> exists x, 0 < x /\ internal_share c' k x /\ Rabs (x - Tk k / T) < eps.
Proof. exact @time_shares. Qed.
Print Assumptions C71_time_shares_partial.

(** Marcus rates inside, and the same fraction of every member's rate leads
    out: the picks follow the Boltzmann distribution. *)
Theorem C71_boltzmann_partial :
  forall (I : Impl) (G : @Rng XR) (h : heap) (sites : umap site) (lambda T : R) (E : Z -> R) (J : Z -> Z -> R) (e : R),
    members_ok h sites -> mutual sites -> joined sites -> (2 <= length sites)%nat -> has_exit sites ->
    0 < lambda -> 0 < T -> marcus_rates h sites lambda T E J -> even_exits h sites e ->
    forall eps, 0 < eps -> exists (N : Z) (t : R), 0 < t /\
      forall (fuel : nat) (c c' : cluster), never_updated c -> c_sites c = sites -> finer N t c -> c_update fuel h c = Ret tt c' ->
        forall k, In k (ukeys sites) -> exists x, internal_share c' k x /\
          Rabs (x - exp (- E k / (k_B * T)) / Rsum (fun j => exp (- E j / (k_B * T))) (ukeys sites)) < eps.
Proof. exact @marcus_thermal. Qed.
Print Assumptions C71_boltzmann_partial.
(** The same for any rates that are balanced by some weights. *)
Theorem C71_balanced_partial :
  forall (I : Impl) (G : @Rng XR) (h : heap) (sites : umap site) (w : Z -> R) (e : R),
    members_ok h sites -> mutual sites -> joined sites -> (2 <= length sites)%nat -> has_exit sites ->
    balanced h sites w -> even_exits h sites e ->
    forall eps, 0 < eps -> exists (N : Z) (t : R), 0 < t /\
      forall (fuel : nat) (c c' : cluster), never_updated c -> c_sites c = sites -> finer N t c -> c_update fuel h c = Ret tt c' ->
        forall k, In k (ukeys sites) -> exists x, internal_share c' k x /\ Rabs (x - w k / Rsum w (ukeys sites)) < eps.
Proof. exact @thermal. Qed.
Print Assumptions C71_balanced_partial.
(** any two energies, any temperature, any number of iterations *)
Example C71_nonvacuous : forall (I : Impl) (G : @Rng XR) (lambda T : R) (E : Z -> R) (J0 : R) (N : Z) (t : R), 0 < lambda -> 0 < T -> J0 <> 0 ->
  exists h (c : @cluster XR G) c', never_updated c /\ members_ok h (c_sites c) /\ mutual (c_sites c) /\ joined (c_sites c) /\ (2 <= length (c_sites c))%nat /\
    has_exit (c_sites c) /\ marcus_rates h (c_sites c) lambda T E (fun _ _ => J0) /\ even_exits h (c_sites c) (1 / 2) /\
    finer N t c /\ c_update 0 h c = Ret tt c'.
Proof. intros I G. exact duo_marcus. Qed.

(** Without even exits it fails: two sites of the same energy, of which one
    has an exit; however fine the solver works, more than 3/5 of the internal
    picks yield the other (Boltzmann: 1/2). *)
Theorem C71_uneven_exits_refuted :
  forall (I : Impl) (G : @Rng XR) (lambda T J0 : R) (N : Z) (t : R), 0 < lambda -> 0 < T -> J0 <> 0 ->
    exists h (c : @cluster XR G) c' x, never_updated c /\ sound h c /\ joined (c_sites c) /\ (forall k, In k (ukeys (c_sites c)) <-> k = 1%Z \/ k = 2%Z) /\
      marcus_rates h (c_sites c) lambda T (fun _ => 0) (fun _ _ => J0) /\
      finer N t c /\ c_update 0 h c = Ret tt c' /\ internal_share c' 1 x /\ 3 / 5 < x.
Proof. intros I G. exact lop_marcus. Qed.
Print Assumptions C71_uneven_exits_refuted.
