(** * Model of mythical::Walker and mythical::Identity *)
From Coq Require Import ZArith List Bool.
From Verif Require Import Base Num.
Import ListNotations.
Open Scope Z_scope.

Section Walker.
Context {N : Num}.

(** walker.hpp:57-67 *)
Record walker := mkWalker { w_cur : Z; w_pot : Z; w_dwell : num }.

(** walker.cpp:12-16 *)
Definition walker_new : walker := mkWalker unassignedId unassignedId (nofZ (-1)).

(** walker.hpp:25 *)
Definition w_occupySite (s : Z) : M walker unit :=
  modify (fun w => mkWalker s (w_pot w) (w_dwell w)).
(** walker.hpp:40 *)
Definition w_setPotentialSite (s : Z) : M walker unit :=
  modify (fun w => mkWalker (w_cur w) s (w_dwell w)).
(** walker.hpp:55 *)
Definition w_setDwellTime (t : num) : M walker unit :=
  modify (fun w => mkWalker (w_cur w) (w_pot w) t).
(** walker.cpp:18-28 *)
Definition w_getSite : M walker Z :=
  fun w => if w_cur w =? unassignedId then Thr RuntimeError w else Ret (w_cur w) w.
(** walker.cpp:30-37 *)
Definition w_getPotentialSite : M walker Z :=
  fun w => if w_pot w =? unassignedId then Thr RuntimeError w else Ret (w_pot w) w.
(** walker.hpp:50 *)
Definition w_getDwellTime : M walker num := gets w_dwell.

(** Histories of setter calls. *)
Inductive wop := WOccupy (s : Z) | WPotential (s : Z) | WDwell (t : num)
               | WGetSite | WGetPotential | WGetDwell.

(** State after a call, whether it returned or threw. *)
Definition after {S A} (o : outcome S A) (s : S) : S :=
  match o with Ret _ s' => s' | Thr _ s' => s' | Halt _ => s end.

Definition w_step (o : wop) (w : walker) : walker :=
  match o with
  | WOccupy s => after (w_occupySite s w) w
  | WPotential s => after (w_setPotentialSite s w) w
  | WDwell t => after (w_setDwellTime t w) w
  | WGetSite => after (w_getSite w) w
  | WGetPotential => after (w_getPotentialSite w) w
  | WGetDwell => after (w_getDwellTime w) w
  end.
Definition w_exec (ops : list wop) : walker := fold_left (fun w o => w_step o w) ops walker_new.
End Walker.

(** identity.hpp:14-29.  id_ is not initialised before setId; the model gives
    it some value [junk], which no call can observe. *)
Record identity := mkId { id_val : Z; id_set : bool }.
Definition id_new (junk : Z) : identity := mkId junk false.
Definition id_getId : M identity Z :=
  fun i => if id_set i then Ret (id_val i) i else Thr RuntimeError i.
Definition id_setId (v : Z) : M identity unit := modify (fun _ => mkId v true).
Definition id_exec (junk : Z) (ids : list Z) : identity :=
  fold_left (fun i v => after (id_setId v i) i) ids (id_new junk).
