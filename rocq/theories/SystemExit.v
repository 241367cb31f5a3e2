(** * The sites a cluster sends its walkers to are those of its first update *)
From Coq Require Import ZArith List Bool Reals Lra Lia Permutation Relations.
From Verif Require Import Base BaseProofs Num OrdLaws RSum WalkerModel SiteModel SiteSpec SiteProofs ClusterModel ClusterHist ClusterSpec ClusterFrame ClusterReal ClusterProofs ClusterTables ClusterUpdate ClusterSome ClusterOps ClusterPick
  ClusterStay ContainerModel BasinModel BasinSpec CrossSpec CrossProofs SystemModel SystemSpec SystemShape SystemHop SystemCoarse SystemMerge SystemProofs SystemFacts SystemControl SystemInit
  ValidSpec SystemEffect SystemEquil ClusterLive SystemLive SystemGrow SystemTotal SystemValid PropValid SystemDrain SystemOps SystemTables SystemReport StaySpec SystemStay ExitSpec.
Import ListNotations.
Open Scope R_scope.

(** ** Picking from a table with more entries behind it *)
Lemma finite_choice (Q : Z -> R -> Prop) (K : list Z) : (forall k, In k K -> exists x, Q k x) -> exists a : Z -> R, forall k, In k K -> Q k (a k).
Proof.
  induction K as [|k K IH]; intros H; [exists (fun _ => 0); intros k []|].
  destruct IH as [a Ha]; [intros j Hj; apply H; right; exact Hj|]. destruct (H k (or_introl eq_refl)) as [x Hx].
  exists (fun j => if Z.eqb j k then x else a j). intros j Hj. destruct (Z.eqb_spec j k) as [->|Ne]; [exact Hx|]. apply Ha. destruct Hj; [congruence|assumption].
Qed.
Lemma table_pick (share : Z -> R) (K : list Z) : NoDup K -> (forall k, In k K -> 0 < share k) -> Rsum share K = 1 ->
  exists a, divided share a K /\
    forall (r : list (Z * @num XR)) u, 0 <= u < 1 -> exists n, In n K /\ @cum_scan XR (Fin u) (@cumulate XR n0 (tab share K) ++ r) = n /\ a n <= u < a n + share n.
Proof.
  intros ND Hp Hs. assert (H0 : forall k, In k K -> 0 <= share k) by (intros k Hk; left; auto).
  destruct (finite_choice (fun j lo => 0 <= lo /\ lo + share j <= 1 /\
    forall u, 0 <= u < 1 -> (@cum_scan XR (Fin u) (@cumulate XR n0 (tab share K)) = j <-> lo <= u < lo + share j)) K) as [a Ha].
  { intros j Hj. apply cum_pick_interval; assumption. }
  exists a. split.
  - split; [exact ND|]. split; [exact Hp|]. split; [exact Hs|]. intros v Hv.
    exists (@cum_scan XR (Fin v) (@cumulate XR n0 (tab share K))). split; [apply cum_pick_member; assumption|].
    intros m Hm. destruct (Ha m Hm) as (_ & _ & X). rewrite <- (X v Hv). split; intros Y; symmetry; exact Y.
  - intros r u Hu. set (n := @cum_scan XR (Fin u) (@cumulate XR n0 (tab share K))).
    assert (Hn : In n K) by (apply cum_pick_member; assumption). exists n. split; [exact Hn|]. split; [|apply (Ha n Hn); [exact Hu|reflexivity]].
    assert (Ne : K <> []) by (intros ->; exact Hn). destruct (cumulate_total share K 0 Ne) as (j & _ & Hj). subst n. rewrite n0_XR.
    apply cum_scan_prefix. eexists; split; [exact Hj|]. cbn [snd nltb XR xltb]. apply Rltb_true. rewrite Hs. lra.
Qed.

Section Exit.
Context {I : Impl} {G : @Rng XR} {U : @Ugly XR}.
Variables (clk : Z -> Z) (lo hi : R).
Hypothesis (HD : open_draws G) (HB : rate_bounds lo hi).

(** ** The hop that makes a cluster *)
Lemma hop_creates tr (g : @world XR G) ws fuel id p g' c : valid_reach clk lo hi tr g ws -> few_hops lo hi (hops tr + 1) -> In p ws ->
  sys_hop clk fuel id p g = Ret tt g' -> is_cluster g' c -> ~ is_cluster g c ->
  (exists cl c1 c2 f, ulookup c (g_clusters g') = Some cl /\ never_updated c1 /\ sound (g_heap g') c1 /\ c_update f (g_heap g') c1 = Ret tt c2 /\
     c_sites cl = c_sites c1 /\ c_sites c2 = c_sites c1 /\ c_pon cl = c_pon c2 /\ c_cint cl = c_cint c2 /\ c_cnbr cl = c_cnbr c2) /\
  (forall c', is_cluster g' c' -> c' = c \/ is_cluster g c').
Proof.
  intros Vr Fh Hp E Hc Hn. pose proof (valid_inv clk lo hi _ _ _ Vr) as V.
  pose proof (hop_reach clk lo hi _ _ _ _ _ _ _ Vr Hp E) as Vr'.
  assert (Lv : living lo hi (hops (tr ++ [KHop p])) g' ws).
  { apply (valid_living clk lo hi HD HB _ _ _ Vr'). rewrite hops_app. exact Fh. }
  pose proof (a_solid _ _ _ _ (i_alive _ _ _ _ _ Lv)) as So'.
  destruct (hop_made clk _ _ _ _ _ _ V Hp E) as (g1 & i & k & V1 & D & _ & H1). cbv zeta in H1.
  assert (Back : forall x, is_cluster g1 x -> is_cluster g x).
  { intros x X. destruct (listed_two g1 ws x V1 X) as (j & _ & _ & Hj & _).
    pose proof (h_ndc _ _ _ (v_shape _ _ V)) as N0. pose proof (h_ndc _ _ _ (v_shape _ _ V1)) as N1. rewrite listed_holds in Hj by exact N1.
    assert (Y : holds g x j) by (apply (drift_holds g g1 D); exact Hj).
    apply (proj2 (listed_holds g x j N0)) in Y. destruct Y as (l & El & _). exists l; exact El. }
  assert (Hn1 : ~ is_cluster g1 c) by (intros X; apply Hn, Back, X).
  assert (Keep : forall g2 x, g_clusters g' = g_clusters g2 -> is_cluster g' x -> is_cluster g2 x).
  { intros g2 x X [l El]. exists l. unfold sys_getClusters, in_clusters, zoom, cc_getSiteIds, gets in *. rewrite X in El. exact El. }
  destruct H1 as [(_ & Ec)|(g3 & B & c0 & Eg' & _ & Md & Bal & H1)]; [exfalso; apply Hn1, (Keep g1 c Ec), Hc|].
  set (g2 := g_with_iter i g1) in *. pose proof (valid_inv clk lo hi _ _ _ Vr') as V'.
  pose proof (h_ndc _ _ _ (v_shape _ _ V')) as N3. pose proof (h_ndc _ _ _ (v_shape _ _ V1)) as N1.
  assert (Eh : g_heap g' = g_heap g) by (destruct (step_settings clk _ _ _ _ _ V (st_hop clk g ws fuel id p g' Hp E)) as ([X|X] & _); [discriminate|exact X]).
  assert (New : forall x, is_cluster g' x -> x = c0 \/ is_cluster g1 x).
  { intros x Hx. destruct (listed_two _ ws x V' Hx) as (j & _ & _ & Hj & _). rewrite listed_holds in Hj by exact N3. rewrite Eg' in Hj. change (holds g3 x j) in Hj.
    apply (d_holds _ _ _ _ _ Md) in Hj. destruct Hj as (_ & [Hj|(-> & _)]); [right|left; reflexivity].
    apply (proj2 (listed_holds g1 x j N1)) in Hj. destruct Hj as (l & El & _). exists l; exact El. }
  assert (c0 = c) by (destruct (New c Hc) as [X|X]; [symmetry; exact X|contradiction]). subst c0.
  assert (Kn : forall x, holds g1 c x -> False).
  { intros x Hx. apply Hn1. apply (proj2 (listed_holds g1 c x N1)) in Hx. destruct Hx as (l & El & _). exists l; exact El. }
  split; [|intros x Hx; destruct (New x Hx) as [X|X]; [left; exact X|right; apply Back, X]].
  destruct H1 as [(Ecc & E3)|(sac & NDs & Ef & Cn & A1 & A2 & _)].
  - destruct (create_inv clk _ _ _ _ _ E3) as (t & l & tres & c1 & c2 & e & gx & _ & Er & Ea & Eu & X). cbv zeta in X.
    set (cl := c_with_rng e _) in X. destruct X as (_ & _ & Ec1 & _ & _ & _ & _ & _ & _ & _ & _ & _ & _ & Lb).
    assert (Ecl : ulookup c (g_clusters g') = Some cl).
    { rewrite Eg'. change (ulookup c (g_clusters g3) = Some cl). rewrite Ecc, (b_clusters _ _ _ _ Lb), Ec1. apply uset_lookup_same. exact N1. }
    assert (Eh2 : g_heap g2 = g_heap g') by (rewrite Eh; change (g_heap g1 = g_heap g); apply D).
    change (g_heap (g_with_tick (g_tick g2 + 1) g2)) with (g_heap g2) in Eu.
    rewrite Eh2 in Eu.
    assert (Es : c_sites c2 = c_sites c1) by (pose proof (keeps_update _ _ _ _ _ Eu) as K; destruct K; assumption).
    exists cl, c1, c2. eexists. split; [exact Ecl|]. split.
    { eapply nu_add; [|exact Ea]. eapply (nu_tol (nlit 1 1000)); [eapply (nu_method ByTolerance); [apply nu_new|reflexivity]|].
      unfold c_setTolerance, bind, cassert. replace (nleb n0 (nlit 1 1000 : @num XR)) with true; [reflexivity|].
      symmetry. unfold nleb; cbn. unfold xleb, xltb, xeqb, Rltb, Reqb. destruct (Rlt_dec 0 (1 / 1000)) as [|X]; [reflexivity|]. exfalso; apply X; lra. }
    assert (Esl : c_sites cl = c_sites c1) by (rewrite <- Es; reflexivity).
    split; [|split; [exact Eu|split; [exact Esl|split; [exact Es|repeat split]]]].
    destruct (a_cl _ _ _ _ (i_alive _ _ _ _ _ Lv) c cl Ecl) as [Hm _]. destruct Hm as [Hm _].
    destruct (cluster_firm g' c cl (v_shape _ _ V') So' Hm Ecl) as ([F1 F2 F3 F4 F5] & Lk & _).
    rewrite Esl in F1, F2, F4, F5, Lk. constructor; assumption.
  - exfalso. destruct (d_which _ _ _ _ _ Md) as [[E1 X]|[(x & _ & Hx) _]]; [|apply (Kn x Hx)].
    destruct (count_more clk sac) with (x := unassignedId) as ([j' c'] & Hin & Nu); [|exact Cn|].
    + intros ->. destruct (A1 k (d_in _ _ _ _ _ Md)) as (s & _ & Y). discriminate.
    + cbn [snd] in Nu. apply (In_ulookup _ _ _ NDs) in Hin. destruct (in_dec Z.eq_dec j' B) as [Hj'|Hj'].
      * destruct (A1 j' Hj') as (s & Es & Y). assert (c' = s_cluster s) by congruence. subst c'.
        destruct (d_some _ _ _ _ _ Md j' s Hj' Es) as [Z|Z]; [congruence|]. apply (X (s_cluster s)). exists j'. auto.
      * rewrite (A2 j' Hj') in Hin. discriminate.
Qed.

(** ** Later operations only add to the tables *)
Lemma ops_csteps ids (a b : @cluster XR G) : ops ids a b -> csteps a b.
Proof. induction 1; eauto using css_refl, css_step, cs_sys, cs_dwell, cs_pick. Qed.
Lemma csteps_trans (a b c : @cluster XR G) : csteps a b -> csteps b c -> csteps a c.
Proof. intros A B. induction B; eauto using css_step. Qed.
Lemma run_csteps g ws tr g' ws' c cl cl' : inv g ws -> steps clk g ws tr g' ws' -> ulookup c (g_clusters g) = Some cl -> ulookup c (g_clusters g') = Some cl' -> csteps cl cl'.
Proof.
  intros V S Ec. pose proof (cluster_small _ _ _ _ V Ec) as Sm. revert cl'. induction S as [|tr g1 ws1 a g2 ws2 S IH St]; intros cl' Ec'.
  - assert (cl' = cl) by congruence. subst. apply css_refl.
  - pose proof (steps_inv clk _ _ _ _ _ V S) as V1. destruct (step_any clk _ _ _ _ _ V1 St) as [_ X].
    pose proof (steps_count clk _ _ _ _ _ V S) as Cn.
    destruct (X c cl' Ec') as [(cl1 & E1 & O)|(Y & _)]; [|lia]. eapply csteps_trans; [apply IH, E1|eapply ops_csteps; exact O].
Qed.

(** ** One hop that ends in the cluster *)
Lemma dwell_rng w (c : @cluster XR G) d c' u e : c_getDwellTime w c = Ret d c' -> umem w (c_remaining c) = false -> edraw (c_rng c) = (u, e) -> c_rng c' = e.
Proof.
  intros E Em Eu. unfold c_getDwellTime in E. apply bind_ret_inv in E. destruct E as (x & c0 & E0 & E). injection E0 as <- <-.
  apply bind_ret_inv in E. destruct E as ([] & c0 & E0 & E). unfold cassert in E0. destruct (negb _); [|discriminate]. injection E0 as <-.
  apply bind_ret_inv in E. destruct E as ([] & c1 & E1 & E). rewrite Em in E1. apply bind_ret_inv in E1. destruct E1 as (y & c2 & E2 & E1).
  unfold c_draw in E2. rewrite Eu in E2. injection E2 as <- <-. injection E1 as <-.
  apply bind_ret_inv in E. destruct E as (x & c0 & E0 & E). injection E0 as <- <-. cbv zeta in E.
  apply bind_ret_inv in E. destruct E as ([] & c0 & E0 & E). injection E0 as <-. unfold bind, cassert, ret in E.
  repeat match type of E with context [if ?b then _ else _] => destruct b end; try discriminate; injection E as <- <-; reflexivity.
Qed.
Lemma hop_sends g ws fuel w q g' k c v : inv g ws -> reach clk g ws -> In q ws -> sys_hop clk fuel w q g = Ret tt g' -> walker_on g' q k -> listed g c k -> is_cluster g' c ->
  next_number g c w v ->
  exists cl, ulookup c (g_clusters g) = Some cl /\ 0 < v < 1 /\
    ((running g' c w /\ walker_to g' q (cum_scan (Fin v : @num XR) (c_cint cl))) \/ (~ running g' c w /\ walker_to g' q (cum_scan (Fin v : @num XR) (c_cnbr cl)))).
Proof.
  intros W Rc Hq E Ok L Hc (cl & e & Ec & Nx).
  destruct (hop_in clk fuel w q k c g g' ws W Hq E Ok L) as (cl_ & cl0 & dd & cl1 & n & cl2 & Ec_ & Kc & Ed & Ep & Ewp & Hops).
  assert (cl_ = cl) by congruence. subst cl_. exists cl. split; [exact Ec|].
  pose proof (built_neat _ (made_built _ (reach_made clk g ws c cl Rc Ec))) as [Na Nb].
  destruct Kc as (K1 & K2 & K3 & K4 & K5 & K6 & K7).
  assert (N0 : NoDup (ukeys (c_remaining cl0))) by (rewrite K4; exact Nb).
  destruct (getDwell_inv _ _ _ _ Ed N0) as (rm & r1 & E1 & Nr & Er & Lk & _).
  assert (Rv : edraw (c_rng cl1) = ((Fin v : @num XR), e)).
  { destruct Nx as [(Ne & X)|(En & u & e0 & Eu & Ev)].
    - rewrite E1. cbn [c_rng c_with_remaining c_with_rng]. rewrite Er, K1; [exact X|]. rewrite K4. destruct (umem w (c_remaining cl)) eqn:Y; [reflexivity|].
      exfalso. apply Ne. unfold entering. apply umem_false, Y.
    - rewrite (dwell_rng _ _ _ _ (Fin u) e0 Ed); [exact Ev| |rewrite K1; exact Eu]. rewrite K4. apply umem_false. exact En. }
  assert (Hv : 0 < v < 1).
  { destruct (HD (c_rng cl1)) as (u & e' & Eu & Hu). rewrite Rv in Eu. injection Eu as -> _. exact Hu. }
  split; [exact Hv|].
  assert (Ci : c_cint cl1 = c_cint cl) by (rewrite E1; exact K5). assert (Cn : c_cnbr cl1 = c_cnbr cl) by (rewrite E1; exact K6).
  assert (Tos : walker_to g' q n) by (eexists; split; [exact Ewp|reflexivity]).
  pose proof (cluster_small _ _ _ _ W Ec) as Sm.
  pose proof (step_inv clk _ _ _ _ _ W (st_hop clk g ws fuel w q g' Hq E)) as W'.
  apply is_cluster_known in Hc; [|apply (v_shape _ _ W')]. apply ukeys_In in Hc. destruct Hc as [cl' Ec'].
  destruct (pick_inv _ _ _ _ Ep) as (b & rg & Ew & E3 & E2).
  assert (N2 : neat cl2).
  { rewrite E2. split; [rewrite E1; cbn [c_sites c_with_remaining c_with_rng]; apply K7, Na|]. cbn [c_remaining c_with_remaining]. rewrite E1. cbn [c_remaining c_with_remaining c_with_rng].
    destruct b; [exact Nr|apply uremove_NoDup; exact Nr]. }
  assert (Lo : ulookup w (c_remaining cl') = ulookup w (c_remaining cl2)).
  { apply others_lookup; [|exact N2]. apply ops_others. eapply ops_mono; [|apply Hops; eassumption]. intros j []. }
  rewrite E2 in Lo. cbn [c_remaining c_with_remaining] in Lo. rewrite E3 in Ep.
  destruct b.
  - left. rewrite (pickInternal_eq _ _ _ Rv), Ci in Ep. injection Ep as En _. rewrite En. split; [|exact Tos].
    exists cl'. split; [exact Ec'|]. intros X. apply entering_iff in X. rewrite Lo, E1 in X. cbn [c_remaining c_with_remaining] in X. congruence.
  - right. rewrite (pickNeighbor_eq _ _ _ _ Rv), Cn in Ep. injection Ep as En _. rewrite En. split; [|exact Tos].
    intros (x & Ex & X). assert (x = cl') by congruence. subst x. apply X, entering_iff. rewrite Lo, E1. cbn [c_remaining c_with_remaining].
    rewrite (uremove_lookup _ _ _ Nr), Z.eqb_refl. reflexivity.
Qed.

(** ** What the new cluster knows about its sites *)
Lemma member_prob (g : @world XR G) ws c cl k n : inv g ws -> ulookup c (g_clusters g) = Some cl -> In k (c_siteIds cl) ->
  mprob (g_heap g) (c_sites cl) k n = rate_to g k n / rate_off g k /\ mtau (g_heap g) (c_sites cl) k = / rate_off g k.
Proof.
  intros V Ec Hk. apply ukeys_In in Hk. destruct Hk as [m Em].
  destruct (h_mem _ _ _ (v_shape _ _ V) c k m) as (s & Es & _ & En); [exists cl; auto|].
  unfold mprob, mtau, rate_to, rate_off, site_prob, ClusterSpec.site_rate. rewrite Em, Es, En. auto.
Qed.
Lemma ids_listed (g : @world XR G) ws c cl k : inv g ws -> ulookup c (g_clusters g) = Some cl -> (In k (c_siteIds cl) <-> listed g c k).
Proof.
  intros V Ec. rewrite listed_holds by apply (v_shape _ _ V). split.
  - intros Hk. apply ukeys_In in Hk. destruct Hk as [m Em]. exists m, cl. auto.
  - intros (m & cl' & Ec' & Em). assert (cl' = cl) by congruence. subst cl'. eapply ulookup_In_key; exact Em.
Qed.
Lemma outside_beside (g : @world XR G) ws c cl n : inv g ws -> members_ok (g_heap g) (c_sites cl) -> ulookup c (g_clusters g) = Some cl ->
  (outside (c_sites cl) n <-> beside g c n).
Proof.
  intros V Hm Ec. unfold outside, beside. rewrite <- (ids_listed g ws c cl n V Ec).
  split; intros [A (k & x & B)]; (split; [exact A|]).
  - destruct B as [Hin Hn]. apply in_map_iff in Hn. destruct Hn as ([n' a] & En & Ha). cbn [fst] in En. subst n'.
    pose proof (In_ulookup _ _ _ (proj1 Hm) Hin) as Em.
    destruct (h_mem _ _ _ (v_shape _ _ V) c k x) as (s & Es & _ & Es2); [exists cl; auto|].
    destruct (proj2 Hm k x Hin) as [(_ & _ & Gr) _]. destruct (Gr n a Ha) as (r & Er & _).
    exists k, r. split; [apply (ids_listed g ws c cl k V Ec); eapply ulookup_In_key; exact Em|].
    exists s. split; [exact Es|]. exists a. rewrite <- Es2. auto.
  - destruct B as [Lk (s & Es & a & Ha & _)]. apply (ids_listed g ws c cl k V Ec) in Lk. apply ukeys_In in Lk. destruct Lk as [m Em].
    destruct (h_mem _ _ _ (v_shape _ _ V) c k m) as (s' & Es' & _ & Es2); [exists cl; auto|]. assert (s' = s) by congruence. subst s'.
    exists k, m. split; [apply ulookup_In, Em|]. unfold s_neighIds. rewrite Es2. apply (in_map fst) in Ha. exact Ha.
Qed.

(** ** The two tables of a new cluster *)
Lemma first_tables tr g ws fuel id p g1 c : valid_reach clk lo hi tr g ws -> few_hops lo hi (hops tr + 1) -> In p ws ->
  sys_hop clk fuel id p g = Ret tt g1 -> is_cluster g1 c -> ~ is_cluster g c ->
  exists (P inner a outer b : Z -> R) (mem out : list Z),
    (forall k, In k mem <-> listed g1 c k) /\ (forall k, In k mem -> 0 < P k /\ occupation g1 c k (P k)) /\
    (forall k, In k mem -> inner k = P k / rate_off g1 k / Rsum (fun j => P j / rate_off g1 j) mem) /\ divided inner a mem /\
    (forall n, In n out <-> beside g1 c n) /\
    (forall n, In n out -> outer n = Rsum (fun k => P k * (rate_to g1 k n / rate_off g1 k)) mem / Rsum (fun m => Rsum (fun k => P k * (rate_to g1 k m / rate_off g1 k)) mem) out) /\
    divided outer b out /\
    exists cl, ulookup c (g_clusters g1) = Some cl /\
      (forall ti u, 0 <= u < 1 -> exists k, In k mem /\ cum_scan (Fin u : @num XR) (c_cint cl ++ ti) = k /\ a k <= u < a k + inner k) /\
      (forall tn u, 0 <= u < 1 -> exists n, In n out /\ cum_scan (Fin u : @num XR) (c_cnbr cl ++ tn) = n /\ b n <= u < b n + outer n).
Proof.
  intros Vr Fh Hp E Hc Hn. destruct (hop_creates _ _ _ _ _ _ _ _ Vr Fh Hp E Hc Hn) as ((cl & c1 & c2 & f & Ec & Nu & So & Eu & Es & Es2 & Ep & Ei & En) & _).
  pose proof (valid_inv clk lo hi _ _ _ (hop_reach clk lo hi _ _ _ _ _ _ _ Vr Hp E)) as V'.
  destruct (never_updated_empty c1 Nu) as (C1 & C2 & _). pose proof (never_updated_built c1 Nu) as Hb.
  destruct (update_solved f (g_heap g1) c1 c2 (built_tidy c1 Hb) So Eu) as (P & So1). pose proof So as [Hm Hmut Hlk Hex H2].
  pose proof (solved_probOn _ _ _ _ Hm So1) as Pon.
  destruct So1 as [Sc Sd Sp (K1 & PK1 & Si) Sci (K2 & N2 & O2 & Sn) Scn Sh St Sinc Sdw].
  assert (Hne : ukeys (c_sites c1) <> []) by (destruct (c_sites c1); [simpl in H2; lia | discriminate]).
  set (h := g_heap g1) in *. set (sites := c_sites c1) in *.
  assert (T1 : c_cint cl = cumulate n0 (tab (wint h sites P) K1)) by (rewrite Ei, Sci, C1, Si; reflexivity).
  assert (T2 : c_cnbr cl = cumulate n0 (tab (exit_prob h sites P K2) K2)) by (rewrite En, Scn, C2, Sn; reflexivity).
  assert (W1 : Rsum (wint h sites P) K1 = 1) by (rewrite (Rsum_perm _ _ _ PK1); apply wint_sum; auto).
  assert (W0 : forall k, In k K1 -> 0 < wint h sites P k) by (intros k Hk; apply wint_pos; auto; eapply Permutation_in; eauto).
  assert (NK1 : NoDup K1) by (eapply Permutation_NoDup; [symmetry; exact PK1 | apply Hm]).
  destruct (exit_prob_dist h sites P K2 Hm Sd Hex O2) as [A B].
  destruct (table_pick (wint h sites P) K1 NK1 W0 W1) as (a & Da & Pa). destruct (table_pick (exit_prob h sites P K2) K2 N2 A B) as (b & Db & Pb).
  assert (HK1 : forall k, In k K1 <-> In k (c_siteIds cl)).
  { intros k. unfold c_siteIds. rewrite Es. split; intros X; [eapply Permutation_in; eauto|eapply Permutation_in; [symmetry; exact PK1|exact X]]. }
  assert (Mp : forall k n, In k (ukeys sites) -> mprob h sites k n = rate_to g1 k n / rate_off g1 k /\ mtau h sites k = / rate_off g1 k).
  { intros k n Hk. pose proof (member_prob g1 ws c cl k n V' Ec) as X. rewrite Es in X. apply X. unfold c_siteIds. rewrite Es. exact Hk. }
  exists P, (wint h sites P), a, (exit_prob h sites P K2), b, K1, K2.
  split; [intros k; rewrite HK1; apply (ids_listed g1 ws c cl k V' Ec)|]. split.
  { intros k Hk. assert (Hk' : In k (ukeys sites)) by (eapply Permutation_in; eauto). split; [apply Sd; exact Hk'|]. exists cl. split; [exact Ec|].
    specialize (Pon k Hk'). destruct Sp as (Kp & PKp & Spon).
    assert (Mk : umem k (c_pon c2) = true).
    { apply umem_lookup. exists (Fin (P k) : @num XR). rewrite Spon. apply tab_lookup. eapply Permutation_in; [symmetry; exact PKp|exact Hk']. }
    unfold c_probOn, bind, gets, cassert, ret in *. rewrite Es2 in Pon. rewrite Es, Ep. rewrite Mk in *.
    destruct (umem k sites); [|discriminate]. injection Pon as X. apply (f_equal (fun z => Ret z cl)). exact X. }
  split.
  { intros k Hk. assert (Hk' : In k (ukeys sites)) by (eapply Permutation_in; eauto). unfold wint, WT. rewrite (proj2 (Mp k 0%Z Hk')).
    unfold Rdiv. f_equal. f_equal. rewrite (Rsum_perm _ _ _ PK1). apply Rsum_ext. intros j Hj. rewrite (proj2 (Mp j 0%Z Hj)). reflexivity. }
  split; [exact Da|]. split.
  { intros n. rewrite O2. pose proof (outside_beside g1 ws c cl n V') as X. rewrite Es in X. apply X; assumption. }
  split; [|split; [exact Db|]].
  { assert (We : forall n, wexit h sites P n = Rsum (fun k => P k * (rate_to g1 k n / rate_off g1 k)) K1).
    { intros n. unfold wexit. rewrite (Rsum_perm _ _ _ PK1). apply Rsum_ext. intros j Hj. rewrite (proj1 (Mp j n Hj)). reflexivity. }
    intros n Hn2. unfold exit_prob. rewrite We. f_equal. apply Rsum_ext. intros m _. apply We. }
  exists cl. split; [exact Ec|]. rewrite T1, T2. split; [exact Pa|exact Pb].
Qed.

(** ** They are used for ever *)
Lemma steps_join g ws tr g1 ws1 tr' g2 ws2 : steps clk g ws tr g1 ws1 -> steps clk g1 ws1 tr' g2 ws2 -> steps clk g ws (tr ++ tr') g2 ws2.
Proof. intros A B. induction B; [rewrite app_nil_r; exact A|]. rewrite app_assoc. eapply sts_step; eauto. Qed.
Lemma sent_on g1 ws c cl (inner a outer b : Z -> R) (mem out : list Z) : reach clk g1 ws -> ulookup c (g_clusters g1) = Some cl ->
  (forall ti u, 0 <= u < 1 -> exists k, In k mem /\ cum_scan (Fin u : @num XR) (c_cint cl ++ ti) = k /\ a k <= u < a k + inner k) ->
  (forall tn u, 0 <= u < 1 -> exists n, In n out /\ cum_scan (Fin u : @num XR) (c_cnbr cl ++ tn) = n /\ b n <= u < b n + outer n) ->
  forall tr' g2 ws2 f w q g3 k v, steps clk g1 ws tr' g2 ws2 -> In q ws2 -> sys_hop clk f w q g2 = Ret tt g3 -> walker_on g3 q k -> listed g2 c k -> is_cluster g3 c ->
    next_number g2 c w v ->
    (running g3 c w -> exists n, In n mem /\ walker_to g3 q n /\ a n <= v < a n + inner n) /\
    (~ running g3 c w -> exists n, In n out /\ walker_to g3 q n /\ b n <= v < b n + outer n).
Proof.
  intros Rc Ec Hi Ho tr' g2 ws2 f w q g3 k v S Hq E Ok L Hc Nx. pose proof (reach_inv clk _ _ Rc) as V. pose proof (steps_inv clk _ _ _ _ _ V S) as V2.
  assert (Rc2 : reach clk g2 ws2).
  { destruct Rc as (tr0 & m & h & n & t & A1 & A2 & S0). exists (tr0 ++ tr'), m, h, n, t. split; [exact A1|]. split; [exact A2|]. eapply steps_join; eauto. }
  destruct (hop_sends _ _ _ _ _ _ _ _ _ V2 Rc2 Hq E Ok L Hc Nx) as (cl2 & Ec2 & Hv & H).
  destruct (csteps_grow _ _ (run_csteps _ _ _ _ _ _ _ _ V S Ec Ec2)) as (ti & tn & Ai & An). rewrite Ai, An in H.
  assert (Hv' : 0 <= v < 1) by lra. destruct H as [[Rn To]|[Rn To]].
  - split; [intros _|contradiction]. destruct (Hi ti v Hv') as (n & A & B & C). exists n. rewrite B in To. auto.
  - split; [contradiction|intros _]. destruct (Ho tn v Hv') as (n & A & B & C). exists n. rewrite B in To. auto.
Qed.
Lemma next_some g ws c k w : inv g ws -> listed g c k -> exists v, next_number g c w v.
Proof.
  intros V L. destruct (listed_cluster g ws c k V L) as [cl Ec]. destruct (HD (c_rng cl)) as (u & e & Eu & _). destruct (HD e) as (v & e' & Ev & _).
  destruct (in_dec Z.eq_dec w (ukeys (c_remaining cl))) as [X|X].
  - exists u, cl, e. split; [exact Ec|]. left. split; [intros Y; apply Y, X|exact Eu].
  - exists v, cl, e'. split; [exact Ec|]. right. split; [exact X|]. exists u, e. auto.
Qed.
Lemma running_dec g c w : running g c w \/ ~ running g c w.
Proof.
  destruct (ulookup c (g_clusters g)) as [cl|] eqn:Ec.
  - destruct (in_dec Z.eq_dec w (ukeys (c_remaining cl))) as [X|X].
    + left. exists cl. split; [exact Ec|]. intros Y. apply Y, X.
    + right. intros (cl' & Ec' & Y). assert (cl' = cl) by congruence. subst. contradiction.
  - right. intros (cl' & Ec' & _). congruence.
Qed.

(** ** Trapped *)
Lemma trapped g1 ws c cl (inner a outer b : Z -> R) (mem out : list Z) : reach clk g1 ws -> ulookup c (g_clusters g1) = Some cl ->
  (forall ti u, 0 <= u < 1 -> exists k, In k mem /\ cum_scan (Fin u : @num XR) (c_cint cl ++ ti) = k /\ a k <= u < a k + inner k) ->
  (forall tn u, 0 <= u < 1 -> exists n, In n out /\ cum_scan (Fin u : @num XR) (c_cnbr cl ++ tn) = n /\ b n <= u < b n + outer n) ->
  forall tr2 g2 ws2 q (l : list Z), steps clk g1 ws tr2 g2 ws2 -> incl mem l -> incl out l -> (forall n, In n l -> listed g2 c n) ->
    In q ws2 -> (exists k n, walker_on g2 q k /\ walker_to g2 q n /\ In k l /\ In n l) ->
    forall tr3 g3 ws3, steps clk g2 ws2 tr3 g3 ws3 -> is_cluster g3 c -> ~ In (KLeave q) tr3 ->
      In q ws3 /\ exists k n, walker_on g3 q k /\ walker_to g3 q n /\ In k l /\ In n l.
Proof.
  intros Rc Ec Hi Ho tr2 g2 ws2 q l S Mi Mo Ml Hq H2 tr3 g3 ws3 S3. pose proof (reach_inv clk _ _ Rc) as V. pose proof (steps_inv clk _ _ _ _ _ V S) as V2.
  assert (Sm : (c < g_count g2)%Z).
  { pose proof (cluster_small _ _ _ _ V Ec). pose proof (steps_count clk _ _ _ _ _ V S). lia. }
  induction S3 as [|tr g ws' x g' ws'' S3 IH St]; intros Hc Nl; [auto|].
  pose proof (steps_inv clk _ _ _ _ _ V2 S3) as Vg. pose proof (step_inv clk _ _ _ _ _ Vg St) as Vg'.
  assert (Sm3 : (c < g_count g)%Z) by (pose proof (steps_count clk _ _ _ _ _ V2 S3); lia).
  assert (Hc0 : is_cluster g c) by (eapply (step_back clk); eauto).
  destruct (IH Hc0) as (Hq3 & k & n & Ok & On & Lk & Ln); [intros X; apply Nl, in_app_iff; auto|].
  assert (Nx : x <> KLeave q) by (intros ->; apply Nl, in_app_iff; right; left; reflexivity).
  assert (Far : forall m, listed g2 c m -> listed g c m) by (intros m; apply (run_listed clk g2 ws2 tr g ws' c m V2 S3 Hc0)).
  assert (Dx : x = KHop q \/ x <> KHop q).
  { destruct x as [| | | | | | | | |p|p|]; try (right; discriminate). destruct (Z.eq_dec p q) as [->|]; [left; reflexivity|right; congruence]. }
  destruct Dx as [->|Nh].
  - inversion St as [| | | | | | | | |fuel id p g0 Hp E| |]; subst.
    destruct (hop_on clk _ _ _ _ _ E) as (src & dst & Hs & Hd). destruct (hop_facts clk _ _ _ src dst _ _ _ Vg Hp Hs Hd E) as (On' & _).
    assert (src = k) by (destruct Hs as (? & ? & <-), Ok as (? & ? & <-); congruence). subst src.
    assert (dst = n) by (destruct Hd as (? & ? & <-), On as (? & ? & <-); congruence). subst dst.
    assert (Ik' : In (if here g ws'' n then k else n) l) by (destruct (here g ws'' n); assumption). pose proof (Far _ (Ml _ Ik')) as Lk'.
    split; [exact Hp|]. destruct (next_some g ws'' c _ id Vg Lk') as [v Nv].
    destruct (sent_on g1 ws c cl inner a outer b mem out Rc Ec Hi Ho (tr2 ++ tr) g ws'' fuel id q g' _ v (steps_join _ _ _ _ _ _ _ _ S S3) Hp E On' Lk' Hc Nv) as [A B].
    assert (X : exists m, walker_to g' q m /\ In m l).
    { destruct (running_dec g' c id) as [Rn|Rn]; [destruct (A Rn) as (m & Hm & To & _)|destruct (B Rn) as (m & Hm & To & _)]; exists m; auto. }
    destruct X as (m & To & Lm). eexists _, m. split; [exact On'|]. split; [exact To|]. auto.
  - destruct (other_step clk g ws' x g' ws'' q Vg Hq3 St) as [Hq' Ew]; [intros [X|X]; contradiction|]. split; [exact Hq'|].
    destruct Ok as (wk & Ewk & Ek), On as (wk' & Ewk' & En). exists k, n.
    split; [exists wk; rewrite Ew; auto|]. split; [exists wk'; rewrite Ew; auto|]. auto.
Qed.
End Exit.
