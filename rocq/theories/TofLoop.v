(** * Model of the time of flight example: its loop
    examples/ToF/ToF_example.cpp (line numbers below)

    Simplifications: the literals of main are parameters; the charges are given
    on their start sites (populateLattice, 81-99, draws them); printing, reserve
    and current_index (the index of the sample that is printed) are left out; the
    program stops before it writes the file. *)
From Coq Require Import ZArith List Bool.
From Verif Require Import Base Num QueueModel WalkerModel SiteModel ClusterModel ContainerModel BasinModel SystemModel LatticeModel.
Import ListNotations.
Open Scope Z_scope.

Section Loop.
Context {I : Impl} {N : Num} {G : Rng} {U : Ugly}.
Variable clk : Z -> Z.

(** literals of main: nm_to_cm, q (140-141), cutoff_time, current_time_sample_increment (163-164),
    random_number_seed (167) *)
Record literals := mkLiterals { nm_to_cm : num; q_e : num; cutoff_time : num; increment : num; the_seed : Z }.

(** local variables of main, 165-187; [in_sample] says that control is in the inner
    loop; [hopped] is no variable of the program: the entries popped so far *)
Record tof := mkTof {
  f_world : world;            (* CGsystem and what the pointers point to *)
  f_queue : queue;            (* walker_global_times *)
  sample_time : num;
  deltaX : num;
  charges_remain : Z;
  transient_current : list num;
  charges_left : list num;
  in_sample : bool;
  hopped : list entry }.
Definition f_with_world v s := mkTof v (f_queue s) (sample_time s) (deltaX s) (charges_remain s) (transient_current s) (charges_left s) (in_sample s) (hopped s).
Definition f_with_queue v s := mkTof (f_world s) v (sample_time s) (deltaX s) (charges_remain s) (transient_current s) (charges_left s) (in_sample s) (hopped s).
Definition f_with_sample v s := mkTof (f_world s) (f_queue s) v (deltaX s) (charges_remain s) (transient_current s) (charges_left s) (in_sample s) (hopped s).
Definition f_with_delta v s := mkTof (f_world s) (f_queue s) (sample_time s) v (charges_remain s) (transient_current s) (charges_left s) (in_sample s) (hopped s).
Definition f_with_remain v s := mkTof (f_world s) (f_queue s) (sample_time s) (deltaX s) v (transient_current s) (charges_left s) (in_sample s) (hopped s).
Definition f_with_current v s := mkTof (f_world s) (f_queue s) (sample_time s) (deltaX s) (charges_remain s) v (charges_left s) (in_sample s) (hopped s).
Definition f_with_left v s := mkTof (f_world s) (f_queue s) (sample_time s) (deltaX s) (charges_remain s) (transient_current s) v (in_sample s) (hopped s).
Definition f_with_in v s := mkTof (f_world s) (f_queue s) (sample_time s) (deltaX s) (charges_remain s) (transient_current s) (charges_left s) v (hopped s).
Definition f_with_hopped v s := mkTof (f_world s) (f_queue s) (sample_time s) (deltaX s) (charges_remain s) (transient_current s) (charges_left s) (in_sample s) v.
Definition in_world {A} (m : M world A) : M tof A := zoom f_world f_with_world m.
Definition in_queue {A} (m : M queue A) : M tof A := zoom f_queue f_with_queue m.

Variable la : lattice.
Variable lits : literals.
(** the vector holes: ids and pointers *)
Variable holes : list (Z * Z).
(** holes.at(i).second *)
Definition hole_at (i : Z) : res Z :=
  if i <? 0 then Err OutOfRange
  else match nth_error holes (Z.to_nat i) with Some h => Ok (snd h) | None => Err OutOfRange end.
(** bound on the iterations of loops inside hop *)
Variable fuel : nat.

(** size() && at(0).second < t, the conditions 185 and 187 *)
Definition next_before (t : num) : M tof bool :=
  n <- in_queue q_size ;;
  if n =? 0 then ret false else e <- in_queue (q_at 0) ;; ret (nltb (snd e) t).

(** body of the inner loop, 188-205 *)
Definition tof_hop : M tof unit :=
  e <- in_queue q_pop ;;
  modify (fun s => f_with_hopped (hopped s ++ [e]) s) ;;
  p <- lift (hole_at (fst e)) ;;
  k <- in_world (in_walker p w_getSite) ;;
  old_x <- lift (l_getX la k) ;;
  in_world (sys_hop clk fuel (fst e) p) ;;
  k' <- in_world (in_walker p w_getSite) ;;
  new_x <- lift (l_getX la k') ;;
  dx <- lift (chk (new_x - old_x)) ;;
  modify (fun s => f_with_delta (nadd (deltaX s) (nofZ dx)) s) ;;
  d <- in_world (in_walker p w_getDwellTime) ;;
  if new_x <? l_len la - 1 then in_queue (q_sortedAdd (fst e, nadd (snd e) d))
  else
    in_world (sys_removeWalker clk (fst e) p) ;;
    modify (fun s => f_with_remain (charges_remain s - 1) s).

(** len*wid*hei*nm_to_cm^3, 184 *)
Definition volume : num := nmul (nmul (nmul (nofZ (l_len la * l_wid la * l_hei la)) (nm_to_cm lits)) (nm_to_cm lits)) (nm_to_cm lits).
(** the sample, 208-216 *)
Definition current_of (dX : num) (n : Z) : num :=
  let num_charges := nofZ n in
  let avg_velocity := ndiv (nmul dX (nm_to_cm lits)) (nmul num_charges (increment lits)) in
  let charge_density := ndiv (nmul (q_e lits) num_charges) volume in
  nmul charge_density avg_velocity.
Definition tof_record : M tof unit :=
  n <- in_queue q_size ;;
  modify (fun s =>
    f_with_sample (nadd (sample_time s) (increment lits))
      (f_with_left (charges_left s ++ [nofZ (charges_remain s)])
         (f_with_current (transient_current s ++ [current_of (deltaX s) n]) s))).

(** One step of the two nested loops, 185-217: a hop, the end of a sample, or the
    begin of a sample; false when the outer loop ends. *)
Definition tof_step : M tof bool :=
  b <- gets in_sample ;;
  if b : bool then
    t <- gets sample_time ;;
    c <- next_before t ;;
    if c : bool then tof_hop ;; ret true
    else tof_record ;; modify (f_with_in false) ;; ret true
  else
    c <- next_before (cutoff_time lits) ;;
    if c : bool then modify (fun s => f_with_in true (f_with_delta n0 s)) ;; ret true
    else ret false.
(** the first [n] steps, or all if the loop ends before *)
Fixpoint tof_steps (n : nat) : M tof bool :=
  match n with
  | O => ret true
  | S n => b <- tof_step ;; if b : bool then tof_steps n else ret false
  end.

(** createQueue, 101-116 (the random numbers drawn there are not used) *)
Definition fill_queue : M tof unit :=
  mfor (zrange 0 (Z.of_nat (length holes) - 1)) (fun i =>
    p <- lift (hole_at i) ;;
    d <- in_world (in_walker p w_getDwellTime) ;;
    in_queue (q_add (i, d))) ;;
  in_queue q_sort ;;
  e <- in_queue (q_at 0) ;;
  cassert (nltb (snd e) (cutoff_time lits)).
(** main up to the loop, 163-184, from a system that was just constructed *)
Definition tof_setup (rates : umap (umap Z)) : M tof unit :=
  in_world (sys_setRandomSeed (the_seed lits)) ;;
  in_world (sys_setTimeResolution (increment lits)) ;;
  in_world (sys_initializeSystem clk rates) ;;
  in_world (sys_initializeWalkers holes) ;;
  fill_queue.
Definition tof_new (g : world) : tof :=
  mkTof g q_init (increment lits) n0 (Z.of_nat (length holes)) [] [] false [].
(** main after [n] steps of its loops *)
Definition tof_main (rates : umap (umap Z)) (n : nat) (g : world) : outcome tof bool :=
  (tof_setup rates ;; tof_steps n) (tof_new g).
End Loop.
