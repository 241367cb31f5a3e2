(** * A walker's stay in a cluster of a system *)
From Coq Require Import ZArith List Bool Reals.
From Verif Require Import Base Num RSum WalkerModel SiteModel SiteSpec ClusterModel ClusterHist ContainerModel BasinModel SystemModel SystemSpec ReportSpec.
Import ListNotations.

Section Spec.
Context {I : Impl} {G : @Rng XR} {U : @Ugly XR}.
Variable clk : Z -> Z.
Implicit Types (g : @world XR G).

(** getDwellTime of the walker [p] is [d] *)
Definition dwells g (p : Z) (d : R) : Prop :=
  exists w, ulookup p (g_walkers g) = Some w /\ w_getDwellTime w = Ret (Fin d : @num XR) w.
(** the next number that the generator of cluster [c] gives *)
Definition cluster_draw g (c : Z) (u : R) : Prop :=
  exists cl e, ulookup c (g_clusters g) = Some cl /\ edraw (c_rng cl) = ((Fin u : @num XR), e).
(** the cluster [c] keeps a remaining time for the walker id [w] *)
Definition running g (c w : Z) : Prop :=
  exists cl, ulookup c (g_clusters g) = Some cl /\ ~ entering w cl.

(** a call that is not about the walker [p] with the id [w] *)
Inductive meanwhile (w p : Z) g (ws : list Z) : @call XR -> @world XR G -> list Z -> Prop :=
| mw_hop fuel id q g' : In q ws -> q <> p -> id <> w -> sys_hop clk fuel id q g = Ret tt g' -> meanwhile w p g ws (KHop q) g' ws
| mw_call a g' ws' : step clk g ws a g' ws' -> is_hop a = false -> a <> KLeave p -> meanwhile w p g ws a g' ws'.

(** The walker [p] with the id [w] hops onto a site of cluster [c] for which
    [c] keeps no remaining time, and then hops within it while [c] keeps one.
    Any other calls in between.  The list has, for every hop, the increment of
    the cluster before the hop and the dwell time of the walker after it. *)
Inductive stay (w p c : Z) (g0 : @world XR G) (ws0 : list Z) : list (@call XR) -> list (R * R) -> @world XR G -> list Z -> Prop :=
| sy_arrive fuel g k i d : In p ws0 -> ~ running g0 c w -> sys_hop clk fuel w p g0 = Ret tt g -> walker_on g p k -> listed g0 c k ->
    increment g0 c (Fin i : @num XR) -> dwells g p d -> stay w p c g0 ws0 [KHop p] [(i, d)] g ws0
| sy_wait tr l g ws a g' ws' : stay w p c g0 ws0 tr l g ws -> meanwhile w p g ws a g' ws' -> stay w p c g0 ws0 (tr ++ [a]) l g' ws'
| sy_hop tr l g ws fuel g' k i d : stay w p c g0 ws0 tr l g ws -> running g c w -> sys_hop clk fuel w p g = Ret tt g' -> walker_on g' p k -> listed g c k ->
    increment g c (Fin i : @num XR) -> dwells g' p d -> stay w p c g0 ws0 (tr ++ [KHop p]) (l ++ [(i, d)]) g' ws.

(** the time spent so far *)
Definition spent (l : list (R * R)) : R := Rsum snd l.

(** every walker hops with its own id, no two with the same *)
Inductive with_ids (ids : Z -> Z) (g : @world XR G) (ws : list Z) : list (@call XR) -> @world XR G -> list Z -> Prop :=
| wi_refl : with_ids ids g ws [] g ws
| wi_hop tr g1 ws1 fuel p g2 : with_ids ids g ws tr g1 ws1 -> In p ws1 -> sys_hop clk fuel (ids p) p g1 = Ret tt g2 -> with_ids ids g ws (tr ++ [KHop p]) g2 ws1
| wi_call tr g1 ws1 a g2 ws2 : with_ids ids g ws tr g1 ws1 -> step clk g1 ws1 a g2 ws2 -> is_hop a = false -> with_ids ids g ws (tr ++ [a]) g2 ws2.

(** The next two numbers that the generator of site [k] gives *)
Definition site_draws g (k : Z) (u v : R) : Prop :=
  exists s e e', ulookup k (g_sites g) = Some s /\ edraw (s_rng s) = ((Fin u : @num XR), e) /\ edraw e = ((Fin v : @num XR), e').
(** the sum [S] of the rates from site [k] *)
Definition exit_rate g (k : Z) (S : R) : Prop :=
  exists s, ulookup k (g_sites g) = Some s /\ S = total_rate (g_heap g) (s_neigh s).
(** the rate from site [k] to site [j] *)
Definition site_rate g (k j : Z) (r : R) : Prop :=
  exists s, ulookup k (g_sites g) = Some s /\ user_rate (g_heap g) (s_neigh s) j r.
End Spec.
