(** * C74, C75: what the system reports about a cluster, over time *)
From Coq Require Import ZArith List Bool Reals Lra Lia.
From Verif Require Import Base BaseProofs Num WalkerModel SiteModel SiteSpec ClusterModel ClusterLive ContainerModel BasinModel SystemModel SystemSpec
  SystemShape SystemProofs SystemFacts SystemInit SystemRuns ValidSpec SystemEffect SystemLive SystemTotal SystemChain SystemControl ReportSpec SystemReport PropReport PropValid
  SystemOps SystemTables StaySpec SystemStay PropStay.
Import ListNotations.
Open Scope R_scope.

(** ** C74 *)
(** Between two states of a program in which a cluster has the same sites, its
    time constant, its resolution and its time increment did not change,
    whatever the calls in between were. *)
Theorem C74_same_sites :
  forall (I : Impl) (N : Num) (G : Rng) (U : Ugly) (clk : Z -> Z) (g : world) (ws : list Z) (tr : list call) (g' : world) (ws' : list Z) (c : Z),
    reach clk g ws -> steps clk g ws tr g' ws' -> is_cluster g c -> is_cluster g' c -> (forall k, listed g' c k -> listed g c k) ->
    (forall x, time_constant g' c x <-> time_constant g c x) /\
    (forall x, cluster_resolution g' c x <-> cluster_resolution g c x) /\
    (forall x, increment g' c x <-> increment g c x).
Proof. intros I N G U clk g ws tr g' ws' c Rb. exact (run_reports clk g ws tr g' ws' c (reach_inv clk g ws Rb)). Qed.
Print Assumptions C74_same_sites.
(** Sites never leave a cluster that is still there (so that "no new sites"
    is "the same sites" above). *)
Theorem C74_no_losses :
  forall (I : Impl) (N : Num) (G : Rng) (U : Ugly) (clk : Z -> Z) (g : world) (ws : list Z) (tr : list call) (g' : world) (ws' : list Z) (c k : Z),
    reach clk g ws -> steps clk g ws tr g' ws' -> is_cluster g' c -> listed g c k -> listed g' c k.
Proof. intros I N G U clk g ws tr g' ws' c k Rb. exact (run_listed clk g ws tr g' ws' c k (reach_inv clk g ws Rb)). Qed.
Print Assumptions C74_no_losses.
(** the chain: two hops within its cluster *)
Example C74_nonvacuous :
  exists (g g' : @world XR rng_c) (tr : list call) (c : Z),
    @reach impl0 XR rng_c ugly_c clk_c g [10%Z] /\ @steps impl0 XR rng_c ugly_c clk_c g [10%Z] tr g' [10%Z] /\ hops tr = 2%Z /\
    @is_cluster impl0 XR rng_c g c /\ @is_cluster impl0 XR rng_c g' c /\ (forall k, listed_c g' c k -> listed_c g c k).
Proof.
  destruct stay_c_two as (g & g1 & g2 & c & tau & i & d & i' & d' & n & V & _ & _ & _ & _ & _ & _ & S & Hc & Hi & Ls & _).
  exists g, g2, [KHop 10; KHop 10]%Z, c. pose proof (valid_inv clk_c 1 101 _ _ _ V) as W.
  split; [exists calls_s; apply V|]. split; [apply (stay_steps clk_c _ _ _ _ _ _ _ _ _ W S)|]. split; [reflexivity|].
  split; [|split; [exact Hc|exact Ls]]. destruct Hi as (m & h & E & Ex). inversion E; subst.
  destruct (per_lookup c_getTimeIncrement _ _ _ (h_ndc _ _ _ (v_shape _ _ W)) Ex) as (cl & Ec & _). eapply cluster_there; eauto.
Qed.

(** ** C75 *)
(** If every rate is at least [lo] and the rates off a site add up to at most
    [hi], the time constant of every cluster lies between [1/hi] and
    [hi/lo^2], and its increment is positive and at most half of the time
    constant. *)
Theorem C75_bounds :
  forall (I : Impl) (G : @Rng XR) (U : @Ugly XR) (clk : Z -> Z) (lo hi : R) (tr : list call) (g : world) (ws : list Z) (c : Z),
    open_draws G -> rate_bounds lo hi -> valid_reach clk lo hi tr g ws -> few_hops lo hi (hops tr) -> is_cluster g c ->
    exists t i, time_constant g c (Fin t : @num XR) /\ increment g c (Fin i : @num XR) /\
      / hi <= t <= hi / (lo * lo) /\ 0 < i <= t / 2.
Proof.
  intros I G U clk lo hi tr g ws c HD HB V F Hc. pose proof (valid_inv clk lo hi _ _ _ V) as W.
  apply is_cluster_known in Hc; [|apply (v_shape _ _ W)]. apply ukeys_In in Hc. destruct Hc as [cl Ec].
  destruct (report_of _ _ _ _ W Ec) as (R1 & _ & R3).
  pose proof (valid_living clk lo hi HD HB _ _ _ V F) as L. destruct (a_cl _ _ _ _ (i_alive _ _ _ _ _ L) c cl Ec) as (Ho & Lv).
  destruct (cluster_firm g c cl (v_shape _ _ W) (a_solid _ _ _ _ (i_alive _ _ _ _ _ L)) (hm_mem _ _ _ _ _ Ho) Ec) as (_ & Lk & _).
  destruct (lv_pace _ _ _ _ _ Lv) as (t & Et & T1 & T2).
  assert (Hi : increment g c (c_inc cl)) by (apply R3; reflexivity).
  destruct (reported_half clk lo hi HD HB _ _ _ _ _ V F Hi) as (t' & r & Ht & _ & _ & Ei & B).
  apply R1 in Ht. assert (t' = t) by congruence. subst t'. exists t, (t / r). split; [apply R1; congruence|].
  split; [apply R3; congruence|]. split; [|exact B]. split; [exact T1|apply T2, Lk].
Qed.
Print Assumptions C75_bounds.
Example C75_nonvacuous :
  exists (g : @world XR rng_c) (c : Z),
    open_draws rng_c /\ rate_bounds 1 101 /\ reach_c calls_s g [10%Z] /\ few_hops 1 101 (hops (calls_s : list (@call XR))) /\ @is_cluster impl0 XR rng_c g c.
Proof.
  destruct stay_c_two as (g & g1 & g2 & c & tau & i & d & i' & d' & n & V & _ & _ & _ & _ & _ & _ & S & Hc & Hi & Ls & _).
  exists g, c. split; [exact fair_c|]. split; [exact bounds_c|]. split; [exact V|]. split; [apply few_c; cbn; lia|].
  pose proof (valid_inv clk_c 1 101 _ _ _ V) as W. destruct Hi as (m & h & E & Ex). inversion E; subst.
  destruct (per_lookup c_getTimeIncrement _ _ _ (h_ndc _ _ _ (v_shape _ _ W)) Ex) as (cl & Ec & _). eapply cluster_there; eauto.
Qed.
