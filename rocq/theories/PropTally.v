(** * C85: occupation and visits of sites and clusters are counts *)
From Coq Require Import ZArith List Bool Lia.
From Verif Require Import Base BaseProofs Num SiteModel ClusterModel ClusterHist TallyModel TallySpec TallyProofs.
Import ListNotations.
Open Scope Z_scope.

(** After any calls to a site, isOccupied() and getVisitFrequency() are the
    counts of TallySpec.v. *)
Theorem C85_site_tally :
  forall (I : Impl) (N : Num) (G : Rng) (clock : Z) (l : list scall) (s : site),
    mfor l site_do (site_new clock) = Ret tt s ->
    s_isOccupied s = (0 <? balance (rev l)) /\ s_getVisitFrequency s = came (rev l).
Proof. exact @site_tally. Qed.
Print Assumptions C85_site_tally.

(** If nobody leaves who had not come and the status is not set by hand, the
    site is occupied exactly while more walkers came than left. *)
Theorem C85_site_occupied_partial :
  forall (I : Impl) (N : Num) (G : Rng) (clock : Z) (l : list scall) (s : site),
    mfor l site_do (site_new clock) = Ret tt s -> orderly (rev l) ->
    (s_isOccupied s = true <-> number departed l < number arrived l) /\ number departed l <= number arrived l.
Proof. exact @site_orderly. Qed.
Print Assumptions C85_site_occupied_partial.

(** A site that was vacated while free does not notice the walker that comes next. *)
Theorem C85_vacated_while_free_refuted :
  forall (I : Impl) (N : Num) (G : Rng) (clock : Z), exists s s' : site,
    mfor [SVacate] site_do (site_new clock) = Ret tt s /\ s_occupy s = Ret tt s' /\ s_isOccupied s' = false.
Proof. intros I N G clock. do 2 eexists. split; [reflexivity|]. split; reflexivity. Qed.
Print Assumptions C85_vacated_while_free_refuted.

(** isOccupied() of a cluster compares the calls of occupy() with the calls of
    vacate(), vacate(site) and removeWalker; getVisitFrequency() without a site
    counts the calls of occupy() and occupy(site).  Every cluster a program can
    own has such counts. *)
Theorem C85_cluster_tally :
  forall (I : Impl) (N : Num) (G : Rng) (c : cluster) (ins outs v : Z), ctally c ins outs v ->
    c_isOccupied0 c = (outs <? ins) /\ c_getVisits0 c = v /\ 0 <= ins /\ 0 <= outs.
Proof. exact @cluster_tally. Qed.
Print Assumptions C85_cluster_tally.
Theorem C85_every_cluster_has_counts :
  forall (I : Impl) (N : Num) (G : Rng) (c : cluster), built c -> exists ins outs v, ctally c ins outs v.
Proof. exact @built_tally. Qed.
Print Assumptions C85_every_cluster_has_counts.
(** A cluster that walkers only enter at a site, as they do by hopping, is never
    occupied as a whole. *)
Theorem C85_cluster_never_occupied :
  forall (I : Impl) (N : Num) (G : Rng) (c : cluster) (outs v : Z), ctally c 0 outs v -> c_isOccupied0 c = false.
Proof.
  intros I N G c o v T. destruct (cluster_tally c 0 o v T) as (A & _ & _ & B). rewrite A. apply Z.ltb_ge. exact B.
Qed.
Print Assumptions C85_cluster_never_occupied.

(** two walkers on a site of which one left; and a cluster with one visitor *)
Example C85_nonvacuous : forall (I : Impl) (N : Num) (G : Rng),
  let l := [SOccupy; SDwell; SVisits 7; SOccupy; SVacate] in
  (exists s, mfor l site_do (site_new 0) = Ret tt s) /\ orderly (rev l) /\ number departed l < number arrived l /\
  balance (rev l) = 1 /\ came (rev l) = 8 /\
  ctally (c_with_occ 0 (c_with_visits 5 (cluster_new 0 0))) 1 1 5 /\
  exists c' : cluster, c_occupy0 (cluster_new 0 0) = Ret tt c' /\ ctally c' 1 0 1.
Proof.
  intros I N G l. split; [|split; [|split; [|split; [|split; [|split]]]]]; try (cbn; intuition lia).
  - unfold l, mfor, bind, site_do, s_occupy, s_getDwellTime, s_draw, modify, bind, gets, ret. cbn [s_rng s_with_visits s_with_occ site_new].
    destruct (edraw (eseed 0)). eexists. reflexivity.
  - apply (ct_setVisits0 5 (c_with_occ 0 (c_with_visits 1 (cluster_new 0 0))) 1 1 1); [|reflexivity].
    apply (ct_vacate0 (c_with_occ 1 (c_with_visits 1 (cluster_new 0 0))) 1 0 1); [|reflexivity].
    apply (ct_occupy0 (cluster_new 0 0) 0 0 0); [apply ct_new|reflexivity].
  - eexists. split; [reflexivity|]. apply (ct_occupy0 (cluster_new 0 0) 0 0 0); [apply ct_new|reflexivity].
Qed.
