(** * C78: the counters of a system *)
From Coq Require Import ZArith List Bool Floats Lia.
From Verif Require Import Base BaseProofs Num F64 WalkerModel SiteModel ClusterModel ContainerModel BasinModel
  SystemModel SystemSpec SystemShape SystemProofs SystemFacts SystemRuns CounterSpec SystemCounter PropSystem.
Import ListNotations.
Open Scope Z_scope.

Lemma ids_grow {I : Impl} {N : Num} {G : Rng} {U : Ugly} (clk : Z -> Z) (g : world) ws tr g' ws' :
  inv g ws -> steps clk g ws tr g' ws' -> g_count g <= g_count g'.
Proof.
  intros V. induction 1 as [|tr g1 ws1 c g2 ws2 S IH St]; [lia|].
  pose proof (y_count _ _ (step_carried clk _ _ _ _ _ (steps_inv clk _ _ _ _ _ V S) St)). lia.
Qed.

(** Every counter of sites and clusters is bounded by the number of times a
    walker arrived or departed, whatever the rates, draws and settings are. *)
Theorem C78_counters_bounded :
  forall (I : Impl) (N : Num) (G : Rng) (U : Ugly) (clk : Z -> Z) (tr : list call) (g : world) (ws : list Z),
    reach_by clk tr g ws -> counts_within (arrivals tr) (departures tr) g.
Proof. intros I N G U clk tr g ws. exact (reach_counts clk tr g ws). Qed.
Print Assumptions C78_counters_bounded.

(** Hence a program that makes fewer than 2^31 - 1 placements and hops, no more
    than 2^31 hops and removals, and that started with an id counter that leaves
    room for two ids per hop, never takes a counter out of the range of int, at
    any point ([tr] is the part of the program executed so far). *)
Theorem C78_no_overflow :
  forall (I : Impl) (N : Num) (G : Rng) (U : Ugly) (clk : Z -> Z) (walkers : umap walker) (h : heap) (count tick : Z)
         (tr : list call) (g : world) (ws : list Z),
    NoDup (ukeys walkers) -> 0 <= count -> only_here tr -> arrivals tr < INT_MAX -> departures tr <= INT_MAX -> count + 2 * hops tr <= INT_MAX ->
    steps clk (world_new walkers h count tick) [] tr g ws ->
    int_counters g.
Proof.
  intros I N G U clk walkers h count tick tr g ws ND Hc Ho Ha Hd Hn St.
  assert (W : counts_within (arrivals tr) (departures tr) g) by (eapply steps_counts; [exact St|split; intros k x []]).
  pose proof (steps_ids clk _ _ _ _ _ St Ho) as Hi. cbn [g_count world_new] in Hi.
  assert (V0 : inv (world_new walkers h count tick) []).
  { apply (reach_inv clk). exists [], walkers, h, count, tick. split; [exact ND|]. split; [exact Hc|constructor]. }
  assert (Hg : 0 <= g_count g) by (pose proof (ids_grow clk _ _ _ _ _ V0 St) as X; cbn [g_count world_new] in X; lia).
  destruct W as [W1 W2].
  assert (S1 : forall s, site_counts (arrivals tr) (departures tr) s -> in_int (s_visits s) = true /\ in_int (s_occ s) = true).
  { intros s Hs. unfold site_counts in Hs. unfold in_int, INT_MIN, INT_MAX in *. lia. }
  split; [intros k s Hs; apply S1, (W1 _ _ Hs)|]. split.
  - intros i c Hcl. destruct (W2 _ _ Hcl) as (A & B & C & D). unfold in_int, INT_MIN, INT_MAX in *.
    repeat split; try lia; intros; apply (S1 s), (D _ _ H).
  - unfold in_int, INT_MIN, INT_MAX in *. lia.
Qed.
Print Assumptions C78_no_overflow.

(** What a user reads for a site outside clusters. *)
Theorem C78_visits_of_free_site :
  forall (I : Impl) (N : Num) (G : Rng) (U : Ugly) (clk : Z -> Z) (tr : list call) (g : world) (ws : list Z) (k v : Z),
    reach_by clk tr g ws -> cluster_of g k unassignedId -> visits g k v -> 0 <= v <= arrivals tr.
Proof.
  intros I N G U clk tr g ws k v H C [g' E]. destruct (reach_counts clk tr g ws H) as [W _].
  apply SystemProofs.getVisits_inv in E. destruct E as (s & Es & [(_ & -> & _)|(Hn & _)]).
  - apply ulookup_In in Es. apply (W _ _ Es).
  - exfalso. destruct C as [g1 C]. unfold sys_getClusterId, in_sites, zoom, sc_getClusterId, read_key in C. rewrite Es in C. injection C as C _. unfold s_getClusterId, unassignedId in C. 
  unfold INT_MIN in C. lia.
Qed.
Print Assumptions C78_visits_of_free_site.

(** two placements and three hops; by then clusters 0 and 2 were made and merged *)
Example C78_nonvacuous :
  exists (g : @world fz rh) (ws : list Z), let tr := map call_of calls3 in
    @steps impl0 fz rh uz cz (world_new [(10, wz 1); (20, wz 3); (30, wz 1); (31, wz 5)] heap1 0 0) [] tr g ws
    /\ @reach_by impl0 fz rh uz cz tr g ws
    /\ only_here tr /\ arrivals tr = 5 /\ departures tr = 3 /\ hops tr = 3
    /\ listedf g 0 1 /\ listedf g 0 4 /\ cluster_of g 5 unassignedId /\ @visits impl0 fz rh g 5 0 /\ g_count g = 4.
Proof.
  exists (final1 calls3), (inside1 calls3). cbv zeta.
  assert (R1 : @reach_by impl0 fz rh uz cz (map call_of calls3) (final1 calls3) (inside1 calls3)).
  { apply (@runs_reach_by impl0 fz rh uz cz [(10, wz 1); (20, wz 3); (30, wz 1); (31, wz 5)] heap1 0 0); [repeat constructor; cbn; intuition lia|lia|vm_compute; reflexivity]. }
  split; [apply (@runs_steps impl0 fz rh uz cz [] calls3 start1); vm_compute; reflexivity|]. split; [exact R1|].
  split; [intros c Hc ->; cbn in Hc; intuition discriminate|].
  split; [vm_compute; reflexivity|]. split; [vm_compute; reflexivity|]. split; [vm_compute; reflexivity|].
  split; [listing|]. split; [listing|]. split; [labelled|]. split; [apply visits_by; vm_compute; reflexivity|vm_compute; reflexivity].
Qed.
