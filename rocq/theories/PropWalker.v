(** * C50: walkers and ids report what was set *)
From Coq Require Import ZArith List Bool Floats.
From Verif Require Import Base Num F64 WalkerModel WalkerProofs.
Import ListNotations.
Open Scope Z_scope.

(** After any history of setter and getter calls: the last site given is
    reported (the reserved id excepted), and an error is thrown if none was given. *)
Theorem C50_walker_site :
  forall (N : Num) (ops : list wop),
    match last_of site_given ops with
    | Some s => s <> unassignedId -> w_getSite (w_exec ops) = Ret s (w_exec ops)
    | None => w_getSite (w_exec ops) = Thr RuntimeError (w_exec ops)
    end.
Proof. exact @walker_site. Qed.
Print Assumptions C50_walker_site.

Theorem C50_walker_potential :
  forall (N : Num) (ops : list wop),
    match last_of potential_given ops with
    | Some s => s <> unassignedId -> w_getPotentialSite (w_exec ops) = Ret s (w_exec ops)
    | None => w_getPotentialSite (w_exec ops) = Thr RuntimeError (w_exec ops)
    end.
Proof. exact @walker_potential. Qed.
Print Assumptions C50_walker_potential.

Theorem C50_walker_dwell :
  forall (N : Num) (ops : list wop),
    w_getDwellTime (w_exec ops) =
    Ret (match last_of dwell_given ops with Some t => t | None => nofZ (-1) end) (w_exec ops).
Proof. exact @walker_dwell. Qed.
Print Assumptions C50_walker_dwell.

(** Giving the reserved id is indistinguishable from giving none. *)
Theorem C50_walker_reserved_id :
  forall (N : Num) (ops : list wop),
    last_of site_given ops = Some unassignedId ->
    w_getSite (w_exec ops) = Thr RuntimeError (w_exec ops).
Proof. exact @walker_reserved. Qed.
Print Assumptions C50_walker_reserved_id.

Theorem C50_identity :
  forall (junk : Z) (ids : list Z),
    match last_of Some ids with
    | Some v => id_getId (id_exec junk ids) = Ret v (id_exec junk ids)
    | None => id_getId (id_exec junk ids) = Thr RuntimeError (id_exec junk ids)
    end.
Proof. exact @identity_spec. Qed.
Print Assumptions C50_identity.

Local Definition fn : Num := F64 (fun x => x).
Example C50_nonvacuous :
  w_getSite (w_exec (N := fn)
    [WOccupy (N := fn) 5; WGetSite (N := fn); WPotential (N := fn) 9; WOccupy (N := fn) (-3); WDwell (N := fn) 1%float])
  = Ret (-3) (mkWalker (N := fn) (-3) 9 1%float) /\
  id_getId (id_exec 77 [4; 8]) = Ret 8 (mkId 8 true).
Proof. split; reflexivity. Qed.
