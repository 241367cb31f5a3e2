(** * Model of the time of flight example: placing the charges
    examples/ToF/ToF_example.cpp, populateLattice (81-99)

    The lattice class is called Cubic in the example and Cuboid in the library; the
    model takes them for the same.  The outputs of the generator of the lattice are
    an arbitrary sequence of pairs.  The shared pointers of the new walkers are
    0, 1, 2, ...: distinct, as pointers to objects that are alive. *)
From Coq Require Import ZArith List Bool.
From Verif Require Import Base Num WalkerModel LatticeModel.
Import ListNotations.
Open Scope Z_scope.

Section Start.
Context {I : Impl} {N : Num}.
Variable la : lattice.
Variable raw : nat -> Z * Z.

(** the while loop, 84-87; [k] draws were made before *)
Fixpoint pick_sites (fuel : nat) (num_charges : nat) (k : nat) (occupied : umap unit) : res (umap unit) :=
  if Nat.ltb (length occupied) num_charges then
    match fuel with
    | O => Bad Diverged
    | S fuel => site <-! l_getRandomSite la YZ 0 (fst (raw k)) (snd (raw k));
                pick_sites fuel num_charges (S k) (uinsert occupied site)
    end
  else Ok occupied.
(** the loop over the picked sites, 93-97: a new walker, placed on the site *)
Fixpoint new_holes (charge_id : Z) (sites : list Z) : list (Z * Z) * umap walker :=
  match sites with
  | [] => ([], [])
  | site :: r =>
      let (holes, walkers) := new_holes (charge_id + 1) r in
      ((charge_id, charge_id) :: holes, (charge_id, after (w_occupySite site walker_new) walker_new) :: walkers)
  end.
(** populateLattice: the vector holes and what its pointers point to *)
Definition tof_populate (fuel : nat) (num_charges : nat) : res (list (Z * Z) * umap walker) :=
  occupied <-! pick_sites fuel num_charges 0 [];
  Ok (new_holes 0 (ukeys occupied)).
End Start.
