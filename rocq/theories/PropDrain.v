(** * C39: sites without outgoing rates

    Every program ([reach_by], SystemSpec.v), stream of draws, clock, hash order
    and tie-breaking of the graph library, and every arithmetic in which 0.001 is
    smaller than 0.001 * 1.1 ([fits], DrainSpec.v). *)
From Coq Require Import ZArith List Bool Reals Lra Floats Lia.
From Verif Require Import Base BaseProofs Num F64 OrdLaws WalkerModel SiteModel ClusterModel ContainerModel BasinModel
  SystemModel SystemSpec SystemShape SystemHop SystemProofs SystemFacts SystemRuns DrainSpec SystemDrain PropSystem PropValid.
Import ListNotations.
Open Scope Z_scope.

(** both arithmetics of the model are of this kind *)
Lemma fits_real : @fits XR.
Proof. unfold fits. cbn. apply Rltb_true. lra. Qed.
Lemma fits_double : @fits fz.
Proof. vm_compute. reflexivity. Qed.

(** ** C39 *)
(** A site without outgoing rates is in no cluster. *)
Theorem C39_in_no_cluster :
  forall (I : Impl) (N : Num) (G : Rng) (U : Ugly) (clk : Z -> Z) (tr : list call) (g : world) (ws : list Z) (k : Z),
    fits -> reach_by clk tr g ws -> drain tr k ->
    cluster_of g k unassignedId /\ forall c, ~ listed g c k.
Proof.
  intros I N G U clk tr g ws k F R Hk. pose proof (drain_apart clk tr g ws k F R Hk) as Hc. split; [exact Hc|].
  assert (V : inv g ws) by (apply (reach_inv clk); exists tr; exact R).
  intros c Hl. apply (listed_holds _ _ _ (inv_ndc _ _ V)) in Hl. destruct Hl as (m & Hm).
  destruct (h_mem _ _ _ (v_shape _ _ V) _ _ _ Hm) as (s & Es & Hn & _). apply cluster_of_iff in Hc. destruct Hc as (s' & Es' & Eu). congruence.
Qed.
Print Assumptions C39_in_no_cluster.

(** Full statement: a walker that reaches a site without outgoing rates stays
    there, and a further hop of it is harmless.  Proved: it stays there, aiming at
    -1, during all calls but its own hops and removal.  The rest is false, see
    below. *)
Theorem C39_stays_partial :
  forall (I : Impl) (N : Num) (G : Rng) (U : Ugly) (clk : Z -> Z) (tr tr' : list call) (g g' : world) (ws ws' : list Z) (p k : Z),
    fits -> reach_by clk tr g ws -> In p ws -> walker_on g p k -> drain tr k ->
    steps clk g ws tr' g' ws' -> (forall c, In c tr' -> ~ own p c) ->
    In p ws' /\ walker_on g' p k /\ walker_to g' p (-1).
Proof.
  intros I N G U clk tr tr' g g' ws ws' p k F R Hp Hk Hd S No.
  assert (V : inv g ws) by (apply (reach_inv clk); exists tr; exact R).
  destruct (other_steps clk _ _ _ _ _ _ V Hp S No) as [A B]. split; [exact A|]. split; [apply (on_same clk _ _ _ _ B), Hk|].
  apply (to_same g _ _ _ B). apply (drain_aim clk tr g ws p k R Hp Hk Hd), (drain_apart clk tr g ws k F R Hd).
Qed.
Print Assumptions C39_stays_partial.

(** What a further hop does: it uses the feature of site -1, which does not
    exist. *)
Theorem C39_further_hop_undefined :
  forall (I : Impl) (N : Num) (G : Rng) (U : Ugly) (clk : Z -> Z) (tr : list call) (g : world) (ws : list Z) (fuel : nat) (id p k : Z),
    fits -> reach_by clk tr g ws -> In p ws -> walker_on g p k -> drain tr k -> k <> unassignedId -> ~ knows g (-1) ->
    sys_hop clk fuel id p g = Halt Undefined.
Proof.
  intros I N G U clk tr g ws fuel id p k F R Hp Hk Hd Nk Hn.
  assert (V : inv g ws) by (apply (reach_inv clk); exists tr; exact R).
  apply (hop_nowhere clk fuel id p k (-1) g ws V Hp Hk Nk); [|discriminate|exact Hn].
  apply (drain_aim clk tr g ws p k R Hp Hk Hd), (drain_apart clk tr g ws k F R Hd).
Qed.
Print Assumptions C39_further_hop_undefined.

(** one rate, from site 1 to site 2; walker 10 hops to site 2, walker 30 enters on
    site 1 afterwards *)
Definition one_way : umap (umap Z) := [(1, [(2, 1)])].
Definition to_drain : list (@act fz) := [ARes (5%float : @num fz); AThr 0; AInit one_way; AEnter [(0, 10)]; AHop 20 0 10].
Lemma reach_act l : run1 l start1 = true -> @reach_by impl0 fz rh uz cz (map call_of l) (final1 l) (inside1 l).
Proof.
  intros R. apply (@runs_reach_by impl0 fz rh uz cz [(10, wz 1); (20, wz 3); (30, wz 1); (31, wz 5)] heap1 0 0 l); [|lia|exact R].
  repeat constructor; cbn; intuition lia.
Qed.
Example C39_nonvacuous :
  exists (tr tr' : list (@call fz)) (g g' : world) (ws ws' : list Z),
    @reach_by impl0 fz rh uz cz tr g ws /\ In 10 ws /\ walker_on g 10 2 /\ drain tr 2
    /\ @steps impl0 fz rh uz cz g ws tr' g' ws' /\ (forall c, In c tr' -> ~ own 10 c) /\ tr' <> [].
Proof.
  set (l1 := to_drain). set (l2 := [AEnter [(1, 30)]; AVisits 2] : list (@act fz)).
  exists (map call_of l1), (map call_of l2), (final1 l1), (final1 (l1 ++ l2)), (inside1 l1), (inside1 (l1 ++ l2)).
  split; [apply reach_act; vm_compute; reflexivity|]. split; [vm_compute; auto|]. split; [on|].
  split; [exists one_way; split; [right; right; left; reflexivity|]; split; [right; exists 1, [(2, 1)]; split; left; reflexivity|intros [X|[]]; discriminate]|].
  split; [apply runs_steps; vm_compute; reflexivity|].
  split; [intros c [<-|[<-|[]]] [X|X]; discriminate|discriminate].
Qed.
Theorem C39_further_hop_refuted :
  exists (tr : list (@call fz)) (g : world) (ws : list Z),
    @reach_by impl0 fz rh uz cz tr g ws /\ In 10 ws /\ walker_on g 10 2 /\ drain tr 2 /\ hopf 20%nat 0 10 g = Halt Undefined.
Proof.
  set (l1 := to_drain). exists (map call_of l1), (final1 l1), (inside1 l1).
  split; [apply reach_act; vm_compute; reflexivity|]. split; [vm_compute; auto|]. split; [on|].
  split; [exists one_way; split; [right; right; left; reflexivity|]; split; [right; exists 1, [(2, 1)]; split; left; reflexivity|intros [X|[]]; discriminate]|].
  apply halted_by. vm_compute. reflexivity.
Qed.
Print Assumptions C39_further_hop_refuted.

(** A walker does not even stay: if there is a site -1, it hops there. *)
Definition from_minus_one : umap (umap Z) := [(1, [(2, 1)]); (-1, [(1, 1)])].
Theorem C39_leaves_refuted :
  exists (tr : list (@call fz)) (g g' : world) (ws : list Z),
    @reach_by impl0 fz rh uz cz tr g ws /\ In 10 ws /\ walker_on g 10 2 /\ drain tr 2 /\ hopf 20%nat 0 10 g = Ret tt g' /\ walker_on g' 10 (-1).
Proof.
  set (l1 := [ARes (5%float : @num fz); AThr inf_iterations; AInit from_minus_one; AEnter [(0, 10)]; AHop 20 0 10] : list (@act fz)).
  set (l2 := l1 ++ [AHop 20 0 10]).
  assert (R2 : run1 l2 start1 = true) by (vm_compute; reflexivity). destruct (final_hop _ _ _ _ _ _ R2) as [H1 I1].
  exists (map call_of l1), (final1 l1), (final1 l2), (inside1 l1).
  split; [apply reach_act; vm_compute; reflexivity|]. split; [exact I1|]. split; [on|].
  split; [exists from_minus_one; split; [right; right; left; reflexivity|]; split; [right; exists 1, [(2, 1)]; split; left; reflexivity|intros [X|[X|[]]]; discriminate]|].
  split; [exact H1|on].
Qed.
Print Assumptions C39_leaves_refuted.

(** Walkers that never reach such a site are not safe either: an attempt to
    coarse grain a basin with a quick way into it fails an assertion. *)
Definition leak : umap (umap Z) := [(1, [(2, 0)]); (2, [(1, 0); (3, 0); (4, 2)]); (4, [(2, 2)])].
Theorem C39_basin_with_drain_refuted :
  exists (tr : list (@call fz)) (g : world) (ws : list Z),
    @reach_by impl0 fz rh uz cz tr g ws /\ In 10 ws /\ walker_on g 10 1 /\ walker_to g 10 2 /\ drain tr 3
    /\ forall f, hopf (S (S (S (S (S f))))) 0 10 g = Halt AssertFailed.
Proof.
  set (l1 := [ARes (5%float : @num fz); AThr 0; AInit leak; AEnter [(0, 10)]] : list (@act fz)).
  exists (map call_of l1), (final1 l1), (inside1 l1).
  split; [apply reach_act; vm_compute; reflexivity|]. split; [vm_compute; auto|]. split; [on|]. split; [goes|].
  split; [exists leak; split; [right; right; left; reflexivity|]; split; [right; exists 2, [(1, 0); (3, 0); (4, 2)]; split; [right; left; reflexivity|right; left; reflexivity]|intros [X|[X|[X|[]]]]; discriminate]|].
  intros f. apply halted_by. vm_compute. reflexivity.
Qed.
Print Assumptions C39_basin_with_drain_refuted.
