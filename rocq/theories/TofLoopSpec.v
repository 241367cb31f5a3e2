(** * What the loop of the time of flight example is about *)
From Coq Require Import ZArith List Bool.
From Verif Require Import Base Num QueueModel WalkerModel SiteModel ClusterModel ContainerModel BasinModel SystemModel SystemSpec LatticeModel TofLoop.
Import ListNotations.
Open Scope Z_scope.

Section Spec.
Context {I : Impl} {N : Num} {G : Rng} {U : Ugly}.
Variable la : lattice.
Variable holes : list (Z * Z).

(** the hole with index [i] is the walker [p] *)
Definition is_hole (i p : Z) : Prop := 0 <= i /\ exists id, nth_error holes (Z.to_nat i) = Some (id, p).
(** hole [i] has an entry in the queue *)
Definition waits (s : tof) (i : Z) : Prop := In i (map fst (q_list (f_queue s))).
(** hole [i] is on a site of the plane [x] of the lattice *)
Definition in_plane (s : tof) (i x : Z) : Prop :=
  exists p k, is_hole i p /\ walker_on (f_world s) p k /\ l_getX la k = Ok x.
(** [X] is the sum of the x coordinates of all holes *)
Definition total_x (s : tof) (X : Z) : Prop :=
  exists xs, length xs = length holes /\ X = fold_right Z.add 0 xs /\
    forall i x, nth_error xs i = Some x -> in_plane s (Z.of_nat i) x.
(** the holes start on distinct sites of the first plane *)
Definition released (walkers : umap walker) : Prop :=
  NoDup (map snd holes) /\
  (forall p, In p (map snd holes) -> exists w, ulookup p walkers = Some w /\ l_getX la (w_cur w) = Ok 0) /\
  (forall p q w w', In p (map snd holes) -> In q (map snd holes) -> ulookup p walkers = Some w -> ulookup q walkers = Some w' ->
     w_cur w = w_cur w' -> p = q).
(** distinct keys, as in every std::unordered_map *)
Definition map_of_maps (rates : umap (umap Z)) : Prop :=
  NoDup (ukeys rates) /\ forall k r, In (k, r) rates -> NoDup (ukeys r).
End Spec.

(** entries that never increase *)
Fixpoint falling (l : list Z) : Prop :=
  match l with [] => True | a :: r => (forall b, In b r -> b <= a) /\ falling r end.

(** *** With valid rates *)
From Coq Require Import Reals.
From Verif Require Import SiteSpec ValidSpec LatticeSpec.

(** What the example needs: sizes that fit, mutual positive rates within bounds
    between sites of the lattice, holes on sites that have rates, a positive
    sampling interval [inc]. *)
Record tof_valid {G : @Rng XR} (la : @lattice XR) (lits : @literals XR) (holes : list (Z * Z)) (walkers : umap (@walker XR))
    (h : @heap XR) (rates : umap (umap Z)) (lo hi inc : R) : Prop := mkTofValid {
  tv_built : built la /\ 2 <= l_len la;
  tv_lits : increment lits = Fin inc /\ (0 < inc)%R /\ exists c, cutoff_time lits = Fin c;
  tv_draws : open_draws G;
  tv_bounds : rate_bounds lo hi;
  tv_keys : NoDup (ukeys rates);
  tv_rates : mutual_map h rates /\ paced_call h lo hi (KInit rates);
  tv_sites : forall k, In k (ukeys rates) -> 0 <= k < l_len la * l_wid la * l_hei la;
  tv_walkers : NoDup (ukeys walkers);
  tv_holes : holes <> [] /\ released la holes walkers;
  tv_starts : forall p w, In p (map snd holes) -> ulookup p walkers = Some w -> In (w_cur w) (ukeys rates) }.

(** hole [i] has left the lattice before time [t]: it does not wait, and all its
    hops so far are before [t] *)
Definition gone_by {G : @Rng XR} (s : @tof XR G) (t : R) (i : Z) : Prop :=
  ~ waits s i /\ forall e u, In e (hopped s) -> fst e = i -> snd e = Fin u -> (u < t)%R.
(** [n] holes have not *)
Definition remaining {G : @Rng XR} (holes : list (Z * Z)) (s : @tof XR G) (t : R) (n : Z) : Prop :=
  exists l, NoDup l /\ n = Z.of_nat (length l) /\ forall i, In i l <-> (exists p, is_hole holes i p) /\ ~ gone_by s t i.
(** times that never decrease *)
Fixpoint rising (l : list R) : Prop := match l with [] => True | a :: r => (forall b, In b r -> (a <= b)%R) /\ rising r end.
(** the number of samples taken *)
Definition samples {G : @Rng XR} (s : @tof XR G) : R := INR (length (transient_current s)).
