(** * Specification: the counters of a system (C78) *)
From Coq Require Import ZArith List Bool.
From Verif Require Import Base Num WalkerModel SiteModel ClusterModel ContainerModel BasinModel SystemModel SystemSpec.
Import ListNotations.
Open Scope Z_scope.

Section Spec.
Context {I : Impl} {N : Num} {G : Rng} {U : Ugly}.

(** walkers placed and hops made: every one of these occupies a site once *)
Definition arrivals (tr : list call) : Z :=
  fold_right (fun c n => match c with KEnter l => Z.of_nat (length l) + n | KHop _ => 1 + n | _ => n end) 0 tr.
(** hops made and walkers removed: every one of these vacates a site once *)
Definition departures (tr : list call) : Z :=
  fold_right (fun c n => match c with KHop _ => 1 + n | KLeave _ => 1 + n | _ => n end) 0 tr.
(** nothing else in the program makes clusters *)
Definition only_here (tr : list call) : Prop := forall c, In c tr -> c <> KElsewhere.

(** The members of type [int] that count: occupied_ and total_visit_freq_ of a
    site and of a cluster, prev_total_visit_freq_ (the visits at the last query). *)
Definition site_counts (a d : Z) (s : site) : Prop :=
  0 <= s_visits s <= a /\ - d <= s_occ s <= a + 1.
Definition cluster_counts (a d : Z) (c : cluster) : Prop :=
  0 <= c_visits c <= a /\ 0 <= c_prev c <= a /\ - d <= c_occ c <= a /\
  forall k s, In (k, s) (c_sites c) -> site_counts a d s.
Definition counts_within (a d : Z) (g : world) : Prop :=
  (forall k s, In (k, s) (g_sites g) -> site_counts a d s) /\
  (forall i c, In (i, c) (g_clusters g) -> cluster_counts a d c).

(** no counter of the system has left the range of int *)
Definition int_counters (g : world) : Prop :=
  (forall k s, In (k, s) (g_sites g) -> in_int (s_visits s) = true /\ in_int (s_occ s) = true) /\
  (forall i c, In (i, c) (g_clusters g) ->
     in_int (c_visits c) = true /\ in_int (c_prev c) = true /\ in_int (c_visits c - c_prev c) = true /\ in_int (c_occ c) = true /\
     forall k s, In (k, s) (c_sites c) -> in_int (s_visits s) = true /\ in_int (s_occ s) = true) /\
  in_int (g_count g) = true.
End Spec.
