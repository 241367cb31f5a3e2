(** * The settings of a program and its valid calls *)
From Coq Require Import ZArith List Bool Reals.
From Verif Require Import Base Num SiteModel SiteSpec ClusterModel ContainerModel BasinModel BasinSpec SystemModel SystemSpec.
Import ListNotations.
Open Scope R_scope.

Section Settings.
Context {N : Num}.
(** the performance ratio in use, 1 if none was set, and the time resolution *)
Definition ratio (tr : list call) : num := fold_left (fun p c => match c with KPerf q => q | _ => p end) tr n1.
Definition resolution (tr : list call) : option num := fold_left (fun t c => match c with KRes u => Some u | _ => t end) tr None.
End Settings.

(** distinct neighbours with finite positive rates, every one of them a key with a
    rate back *)
Definition mutual_map (h : @heap XR) (rates : umap (umap Z)) : Prop :=
  forall i r, In (i, r) rates -> good_rates h r /\
    forall j, In j (ukeys r) -> exists r', In (j, r') rates /\ In i (ukeys r').
(** calls of a valid program: a performance ratio of at least 1/2, a finite time
    resolution, mutual rates, and rates are not changed *)
Definition valid_call (h : @heap XR) (c : @call XR) : Prop :=
  match c with
  | KPerf p => exists r, p = Fin r /\ 1 / 2 <= r
  | KRes t => exists r, t = Fin r
  | KInit rates => mutual_map h rates
  | KRates => False
  | _ => True
  end.
(** no negative threshold, no site with the reserved id, no rate from a site to
    itself, every rate at least [lo] and the rates of a site together at most [hi] *)
Definition paced_call (h : @heap XR) (lo hi : R) (c : @call XR) : Prop :=
  match c with
  | KThr t => (0 <= t)%Z
  | KInit rates => forall i r, In (i, r) rates ->
      i <> unassignedId /\ ~ In i (ukeys r) /\ (forall j a, In (j, a) r -> lo <= realv (h a)) /\ total_rate h r <= hi
  | _ => True
  end.

(** every draw lies strictly between 0 and 1 *)
Definition open_draws (G : @Rng XR) : Prop := forall e : @eng XR G, exists u e', edraw e = ((Fin u : @num XR), e') /\ 0 < u < 1.
(** the rates can be represented; [dbl_min] is the smallest positive normal double *)
Definition rate_bounds (lo hi : R) : Prop := 0 < lo <= hi /\ hi < / dbl_min.
(** so few hops that no int counter can overflow: the counters of a cluster grow
    by at most hi / (2 lo^2) per hop, the hop counters are doubled *)
Definition few_hops (lo hi : R) (n : Z) : Prop := IZR n * (hi / (2 * (lo * lo)) + 1) <= 2147483647 /\ (n <= 2 ^ 30)%Z.
(** a state with the walkers [ws] that a valid program reaches by the calls [tr] *)
Definition valid_reach {I : Impl} {G : @Rng XR} {U : @Ugly XR} (clk : Z -> Z) (lo hi : R) (tr : list (@call XR)) (g : @world XR G) (ws : list Z) : Prop :=
  reach_by clk tr g ws /\ Forall (valid_call (g_heap g)) tr /\ Forall (paced_call (g_heap g) lo hi) tr.

(** where a walker on [k] may go next: along a rate from [k]; if [k] is in a
    cluster, to any site of the cluster or along a rate from one of them *)
Definition may_follow {I : Impl} {G : @Rng XR} (g : @world XR G) (k n : Z) : Prop :=
  (exists r, rate_between (g_heap g) (g_sites g) k n r) \/
  exists c i, listed g c k /\ listed g c i /\ (n = i \/ exists r, rate_between (g_heap g) (g_sites g) i n r).
