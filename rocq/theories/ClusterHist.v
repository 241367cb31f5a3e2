(** * Histories of cluster operations (specification) *)
From Coq Require Import ZArith List Bool.
From Verif Require Import Base Num SiteModel ClusterModel.
Import ListNotations.
Open Scope Z_scope.

Section Hist.
Context {I : Impl} {N : Num} {G : Rng}.

(** ** Clusters reached through the interface *)
(** everything except a walker asking for its dwell time or next site; the
    label is the member whose occupation the operation sets *)
Inductive sstep : option Z -> cluster -> cluster -> Prop :=
| ss_method m c c' : c_setMethod m c = Ret tt c' -> sstep None c c'
| ss_tol t c c' : c_setTolerance t c = Ret tt c' -> sstep None c c'
| ss_iters n c c' : c_setIterations n c = Ret tt c' -> sstep None c c'
| ss_res r c c' : c_setResolution r c = Ret tt c' -> sstep None c c'
| ss_seed s c c' : c_setRandomSeed s c = Ret tt c' -> sstep None c c'
| ss_add l c c' : c_addSites l c = Ret tt c' -> sstep None c c'
| ss_update fuel h c c' : c_update fuel h c = Ret tt c' -> sstep None c c'
| ss_occupy k c c' : c_occupy k c = Ret tt c' -> sstep (Some k) c c'
| ss_vacate clock k c c' : c_vacate clock k c = Ret tt c' -> sstep (Some k) c c'
| ss_occupy0 c c' : c_occupy0 c = Ret tt c' -> sstep None c c'
| ss_vacate0 c c' : c_vacate0 c = Ret tt c' -> sstep None c c'
| ss_remove clock w k c c' : c_removeWalker clock w k c = Ret tt c' -> sstep (Some k) c c'
| ss_getVisits k v c c' : c_getVisits k c = Ret v c' -> sstep None c c'
| ss_setVisits k v c c' : c_setVisits v k c = Ret tt c' -> sstep None c c'
| ss_probOn k p c c' : c_probOn k c = Ret p c' -> sstep None c c'
| ss_merge fuel h c d c' d' : c_migrate fuel h (c, d) = Ret tt (c', d') -> sstep None c c'.
Inductive cstep : cluster -> cluster -> Prop :=
| cs_sys o c c' : sstep o c c' -> cstep c c'
| cs_dwell w d c c' : c_getDwellTime w c = Ret d c' -> cstep c c'
| cs_pick w k c c' : c_pick w c = Ret k c' -> cstep c c'.

(** any number of operations *)
Inductive csteps : cluster -> cluster -> Prop :=
| css_refl c : csteps c c
| css_step a b c : csteps a b -> cstep b c -> csteps a c.

(** every cluster a program can own; [built_merged] is the emptied cluster
    left behind by a merge *)
Inductive built : cluster -> Prop :=
| built_new i clock : built (cluster_new i clock)
| built_step c c' : built c -> cstep c c' -> built c'
| built_merged fuel h c d c' d' : built d -> c_migrate fuel h (c, d) = Ret tt (c', d') -> built d'.

(** a cluster that was configured and filled but never updated *)
Inductive never_updated : cluster -> Prop :=
| nu_new i clock : never_updated (cluster_new i clock)
| nu_method m c c' : never_updated c -> c_setMethod m c = Ret tt c' -> never_updated c'
| nu_tol t c c' : never_updated c -> c_setTolerance t c = Ret tt c' -> never_updated c'
| nu_iters n c c' : never_updated c -> c_setIterations n c = Ret tt c' -> never_updated c'
| nu_res r c c' : never_updated c -> c_setResolution r c = Ret tt c' -> never_updated c'
| nu_seed s c c' : never_updated c -> c_setRandomSeed s c = Ret tt c' -> never_updated c'
| nu_add l c c' : never_updated c -> c_addSites l c = Ret tt c' -> never_updated c'.

(** walkers living in the cluster: nothing but dwell times, picks, occupation
    changes and reseeding *)
Inductive moves : cluster -> cluster -> Prop :=
| mv_refl c : moves c c
| mv_dwell w d a b c : moves a b -> c_getDwellTime w b = Ret d c -> moves a c
| mv_pick w k a b c : moves a b -> c_pick w b = Ret k c -> moves a c
| mv_occupy k a b c : moves a b -> c_occupy k b = Ret tt c -> moves a c
| mv_vacate clock k a b c : moves a b -> c_vacate clock k b = Ret tt c -> moves a c
| mv_remove clock w k a b c : moves a b -> c_removeWalker clock w k b = Ret tt c -> moves a c
| mv_seed s a b c : moves a b -> c_setRandomSeed s b = Ret tt c -> moves a c.

(** ** One walker among others *)
(** anything that happens to the cluster except walker [w] asking for its
    dwell time or next site: updates, merges, other walkers, occupation *)
Inductive others (w : Z) : cluster -> cluster -> Prop :=
| ot_refl c : others w c c
| ot_sys o a b c : others w a b -> sstep o b c -> others w a c
| ot_dwell j d a b c : others w a b -> j <> w -> c_getDwellTime j b = Ret d c -> others w a c
| ot_pick j k a b c : others w a b -> j <> w -> c_pick j b = Ret k c -> others w a c.

(** [w] is not inside the cluster: it would be given a fresh escape time *)
Definition entering (w : Z) (c : cluster) : Prop := ~ In w (ukeys (c_remaining c)).

(** Part of a stay of [w] from its first question on: it asked for its dwell
    time and then for its next site some number of times, each time staying
    inside.  The list holds the time increment in force at each question and
    the dwell time returned. *)
Inductive staying (w : Z) (c : cluster) : list (num * num) -> cluster -> Prop :=
| stay_nil : staying w c [] c
| stay_more tr c1 d c2 c3 k c4 c5 :
    staying w c tr c1 -> c_getDwellTime w c1 = Ret d c2 -> others w c2 c3 ->
    c_pick w c3 = c_pickInternal c3 -> c_pick w c3 = Ret k c4 -> others w c4 c5 ->
    staying w c (tr ++ [(c_getTimeIncrement c1, d)]) c5.
(** a complete stay: the last answer sends the walker out of the cluster *)
Inductive stay (w : Z) (c : cluster) : list (num * num) -> cluster -> Prop :=
| stay_end tr c1 d c2 c3 k c4 :
    staying w c tr c1 -> c_getDwellTime w c1 = Ret d c2 -> others w c2 c3 ->
    c_pick w c3 = c_pickNeighbor w c3 -> c_pick w c3 = Ret k c4 ->
    stay w c (tr ++ [(c_getTimeIncrement c1, d)]) c4.

(** ** Occupation of one member *)
(** any history; the flag tells whether the last event on [k] was a walker
    being put there (true) or removed (false) *)
Inductive marks (k : Z) : cluster -> bool -> cluster -> bool -> Prop :=
| mk_refl c b : marks k c b c b
| mk_put a x b y c : marks k a x b y -> c_occupy k b = Ret tt c -> marks k a x c true
| mk_take clock a x b y c : marks k a x b y -> c_vacate clock k b = Ret tt c -> marks k a x c false
| mk_remove clock w a x b y c : marks k a x b y -> c_removeWalker clock w k b = Ret tt c -> marks k a x c false
| mk_sys o a x b y c : marks k a x b y -> o <> Some k -> sstep o b c -> marks k a x c y
| mk_dwell w d a x b y c : marks k a x b y -> c_getDwellTime w b = Ret d c -> marks k a x c y
| mk_pick w j a x b y c : marks k a x b y -> c_pick w b = Ret j c -> marks k a x c y.
End Hist.
