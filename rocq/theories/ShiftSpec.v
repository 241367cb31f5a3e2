(** * Specification: runs that number their clusters from different starts (C41, C86), or
      with clusters made elsewhere in between (C70) *)
From Coq Require Import ZArith List Bool.
From Verif Require Import Base Num WalkerModel SiteModel ClusterModel ContainerModel BasinModel SystemModel SystemSpec SystemRuns.
Import ListNotations.
Open Scope Z_scope.

(** the table with every key moved by [d] *)
Definition kshift {V} (d : Z) (m : umap V) : umap V := map (fun e => (fst e + d, snd e)) m.
(** Hash tables over ids that are not negative place a key by its distance
    from the keys that are there: moving all keys by the same number moves the
    table.  An identity hash into buckets by remainder has this property. *)
Definition shifts_alike {I : Impl} (d : Z) : Prop :=
  forall V (m : umap V) k v, 0 <= k -> (forall j, In j (ukeys m) -> 0 <= j) ->
  hplace V (kshift d m) (k + d) v = kshift d (hplace V m k v).
(** the same for other names: every key replaced by its name *)
Definition kmap {V} (nm : Z -> Z) (m : umap V) : umap V := map (fun e => (nm (fst e), snd e)) m.
(** Hash tables that place ids without regard to the gaps between them (for
    instance in the order of insertion) *)
Definition names_alike {I : Impl} (nm : Z -> Z) : Prop :=
  forall V (m : umap V) k v, 0 <= k -> (forall j, In j (ukeys m) -> 0 <= j) ->
  hplace V (kmap nm m) (nm k) v = kmap nm (hplace V m k v).
(** names are in the order of the ids and not negative *)
Definition increasing (nm : Z -> Z) : Prop := 0 <= nm 0 /\ forall a b, 0 <= a < b -> nm a < nm b.
(** the label of a site: no cluster stays no cluster *)
Definition relabel (nm : Z -> Z) (c : Z) : Z := if c =? unassignedId then c else nm c.
Definition new_label (d c : Z) : Z := if c =? unassignedId then c else c + d.

Section Spec.
Context {I : Impl} {N : Num} {G : Rng} {U : Ugly}.
(** Everything a program can ask is the same, but for the ids of the clusters,
    which are larger by [d]. *)
Definition renumbered (d : Z) (g g' : world) : Prop :=
  g_walkers g' = g_walkers g /\
  (forall m, (exists x, sys_getClusters g = Ret m x) <-> exists x, sys_getClusters g' = Ret (kshift d m) x) /\
  (forall m, (exists x, sys_getResolutions g = Ret m x) <-> exists x, sys_getResolutions g' = Ret (kshift d m) x) /\
  (forall m, (exists x, sys_getIncrements g = Ret m x) <-> exists x, sys_getIncrements g' = Ret (kshift d m) x) /\
  (forall k c', cluster_of g' k c' <-> exists c, cluster_of g k c /\ c' = new_label d c) /\
  (forall k b, taken g k b <-> taken g' k b) /\
  (forall k v, visits g k v <-> visits g' k v).
(** the same, the clusters having the names [nm], and the walkers looked at
    being those in [P] *)
Definition renamed (P : Z -> Prop) (nm : Z -> Z) (g g' : world) : Prop :=
  (forall p, P p -> ulookup p (g_walkers g') = ulookup p (g_walkers g)) /\
  (forall m', (exists x, sys_getClusters g' = Ret m' x) <-> exists m, (exists x, sys_getClusters g = Ret m x) /\ m' = kmap nm m) /\
  (forall m', (exists x, sys_getResolutions g' = Ret m' x) <-> exists m, (exists x, sys_getResolutions g = Ret m x) /\ m' = kmap nm m) /\
  (forall m', (exists x, sys_getIncrements g' = Ret m' x) <-> exists m, (exists x, sys_getIncrements g = Ret m x) /\ m' = kmap nm m) /\
  (forall k c', cluster_of g' k c' <-> exists c, cluster_of g k c /\ c' = relabel nm c) /\
  (forall k b, taken g k b <-> taken g' k b) /\
  (forall k v, visits g k v <-> visits g' k v).

(** A graph library that breaks ties in the same way in every search *)
Definition steady : Prop :=
  (forall n n' i l, u_order n i l = u_order n' i l) /\ (forall n n' i e l, u_next n i e l = u_next n' i e l) /\
  (forall n n' l, u_verts n l = u_verts n' l) /\ (forall n n' i j, u_far n i j = u_far n' i j).
End Spec.
