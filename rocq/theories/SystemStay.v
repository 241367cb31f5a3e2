(** * A stay of a walker in a cluster, while other calls are made *)
From Coq Require Import ZArith List Bool Reals Lra Lia.
From Verif Require Import Base BaseProofs Num OrdLaws RSum WalkerModel SiteModel SiteSpec SiteProofs ClusterModel ClusterFrame ClusterHist ClusterOps ClusterStay ClusterReal
  ClusterTime ClusterPick ClusterSpec ClusterProofs ClusterLive ContainerModel BasinModel SystemModel SystemSpec SystemShape SystemHop SystemProofs SystemFacts SystemInit
  SystemRuns SystemControl ValidSpec SystemEffect SystemLive SystemTotal DrainSpec SystemDrain ReportSpec SystemReport PropValid SystemOps SystemTables StaySpec.
Import ListNotations.
Open Scope R_scope.

Section Stay.
Context {I : Impl} {G : @Rng XR} {U : @Ugly XR}.
Variables (clk : Z -> Z) (lo hi : R).
Hypothesis (HD : open_draws G) (HB : rate_bounds lo hi).
#[local] Existing Instance XR.

(** ** Internal picks stay inside *)
Lemma hit (K : Z -> Prop) (l : list (Z * @num XR)) u : covers K l -> (exists z, ~ K z) -> 0 < u < 1 -> In (@cum_scan XR (Fin u) l) (map fst l).
Proof.
  intros C (z & Hz) Hu. destruct (existsb (fun e => @nltb XR (Fin u) (snd e)) l) eqn:E.
  - apply existsb_exists in E. destruct E as (e & He & Hlt). apply (cum_scan_prefix (Fin u) l []). eauto.
  - exfalso. apply Hz. specialize (C u [(z, Fin 2)] Hu).
    assert (X : @cum_scan XR (Fin u) (l ++ [(z, Fin 2)]) = z); [|rewrite X in C; exact C].
    clear C. induction l as [|e l IH]; cbn [existsb] in E.
    + cbn [app cum_scan snd fst]. assert (Y : @nltb XR (Fin u) (Fin 2) = true) by (apply Rltb_true; lra). rewrite Y. reflexivity.
    + apply orb_false_iff in E. destruct E as [E1 E2]. cbn [app cum_scan]. rewrite E1. apply IH, E2.
Qed.
Lemma beyond (l : list Z) : exists z, forall x, In x l -> (x < z)%Z.
Proof.
  induction l as [|a l (z & Hz)]; [exists 0%Z; intros x []|]. exists (Z.max z (a + 1)). intros x [<-|Hx]; [lia|]. specialize (Hz x Hx). lia.
Qed.
Lemma near_bound (cl : @cluster XR G) : exists z, ~ near cl z.
Proof.
  destruct (beyond (flat_map (fun e => fst e :: s_neighIds (snd e)) (c_sites cl))) as [z Hz]. exists z. intros (i & m & Hin & Hk).
  assert (X : (z < z)%Z); [|lia]. apply Hz, in_flat_map. exists (i, m). split; [exact Hin|]. cbn [fst snd In]. destruct Hk; auto.
Qed.

(** ** One hop of the walker itself *)
Lemma cluster_small g ws c (cl : @cluster XR G) : inv g ws -> ulookup c (g_clusters g) = Some cl -> (c < g_count g)%Z.
Proof. intros V E. apply (small_ids _ _ _ V). eapply ulookup_In_key; eauto. Qed.
Lemma kept_budget w (a b : @cluster XR G) : kept a b -> budget w b = budget w a.
Proof. intros (E1 & E2 & E3 & E4 & _). unfold budget. rewrite E1, E2, E4. reflexivity. Qed.
Lemma valid_made tr g ws c cl : valid_reach clk lo hi tr g ws -> ulookup c (g_clusters g) = Some cl -> made cl.
Proof. intros (Rb & _). apply (reach_made clk g ws). exists tr. exact Rb. Qed.
Lemma valid_call_step tr g ws a g' ws' : valid_reach clk lo hi tr g ws -> step clk g ws a g' ws' ->
  valid_call (g_heap g) a -> paced_call (g_heap g) lo hi a -> valid_reach clk lo hi (tr ++ [a]) g' ws' /\ g_heap g' = g_heap g.
Proof.
  intros V E Hv Hp. pose proof (valid_inv clk lo hi _ _ _ V) as W. destruct V as (Rb & Fv & Fp).
  destruct (step_settings clk _ _ _ _ _ W E) as ([X|X] & _); [rewrite X in Hv; destruct Hv|].
  split; [|exact X]. split; [destruct Rb as (m & h & n & t & H1 & H2 & S); exists m, h, n, t; split; [exact H1|]; split; [exact H2|]; eapply sts_step; eauto|]. rewrite X. split; apply Forall_app; split; try assumption; repeat constructor; assumption.
Qed.

Lemma own_hop tr g ws f w p g' k c cl B i d : valid_reach clk lo hi tr g ws -> few_hops lo hi (hops tr) -> In p ws -> sys_hop clk f w p g = Ret tt g' ->
  walker_on g' p k -> listed g c k -> ulookup c (g_clusters g) = Some cl -> budget w cl = Fin B -> 0 < B -> c_inc cl = Fin i -> dwells g' p d ->
  0 < i /\ d = Rmin i B /\
  (forall cl', ulookup c (g_clusters g') = Some cl' ->
     (i < B /\ ulookup w (c_remaining cl') = Some (Fin (B - i))) \/ (B <= i /\ entering w cl')) /\
  (i < B -> exists n, walker_to g' p n /\ listed g c n).
Proof.
  intros V F Hp E Ok L Ec Hb HB0 Hi Hd. pose proof (valid_inv clk lo hi _ _ _ V) as W.
  pose proof (valid_living clk lo hi HD HB _ _ _ V F) as Lv. destruct (a_cl _ _ _ _ (i_alive _ _ _ _ _ Lv) c cl Ec) as (_ & Ll).
  destruct (lv_tau _ _ _ _ _ Ll) as (t & Et & Ht). destruct (lv_inc _ _ _ _ _ Ll) as (t' & r' & Et' & Er' & Ei). destruct (lv_res _ _ _ _ _ Ll) as (r & Er & Hr).
  assert (t' = t) by congruence. assert (r' = r) by congruence. subst t' r'. pose proof dbl_min_pos as Hm.
  assert (Hi0 : 0 < i).
  { rewrite Hi in Ei. injection Ei as ->. apply Rdiv_lt_0_compat; lra. }
  pose proof (built_neat _ (made_built _ (valid_made _ _ _ _ _ V Ec))) as Nc.
  destruct (hop_in clk f w p k c g g' ws W Hp E Ok L) as (cl_ & cl0 & dd & cl1 & n & cl2 & Ec_ & Kc & Ed & Ep & Ewp & Hops).
  assert (cl_ = cl) by congruence. subst cl_.
  assert (N0 : neat cl0).
  { destruct Kc as (_ & _ & _ & K4 & _ & _ & K7). destruct Nc as [Na Nb]. split; [apply K7, Na|rewrite K4; exact Nb]. }
  destruct (ClusterTime.dwell_step w cl0 B i N0) as (c2 & Ed' & N1 & Lk); [rewrite (kept_budget _ _ _ Kc); exact Hb|exact HB0| |exact Hi0| |].
  { destruct Kc as (_ & _ & K3 & _). rewrite K3. exact Hi. }
  { destruct Kc as (_ & K2 & _). rewrite K2, Et. intros X. injection X as X. lra. }
  rewrite Ed in Ed'. injection Ed' as Ed1 Ed2. subst c2.
  assert (Dd : d = Rmin i B).
  { destruct Hd as (wk & Ewk & Edw). rewrite Ewp in Ewk. injection Ewk as <-. unfold w_getDwellTime, gets in Edw. cbn [w_dwell] in Edw. injection Edw as Edw. rewrite Ed1 in Edw. congruence. }
  split; [exact Hi0|]. split; [exact Dd|].
  assert (Tos : walker_to g' p n) by (eexists; split; [exact Ewp|reflexivity]).
  pose proof (pick_kind w cl1 _ N1 Lk) as (_ & _ & Pk). change (@nltb XR n0 (Fin (B - i))) with (Rltb 0 (B - i)) in Pk.
  destruct (pick_inv _ _ _ _ Ep) as (b & rg & Ew & _ & E2). unfold c_hopWithin in Ew. rewrite Lk in Ew. injection Ew as Eb.
  change (@nltb XR n0 (Fin (B - i))) with (Rltb 0 (B - i)) in Eb.
  assert (Sm : (c < g_count g)%Z) by (eapply cluster_small; eauto).
  assert (Oth : forall cl', ulookup c (g_clusters g') = Some cl' -> others w cl2 cl').
  { intros cl' Ecl'. apply ops_others. eapply ops_mono; [|apply Hops; eassumption]. intros j []. }
  assert (N2 : neat cl2).
  { destruct N1 as [Na Nb]. rewrite E2. split; [exact Na|]. cbn [c_remaining c_with_remaining]. destruct b; [exact Nb|apply uremove_NoDup; exact Nb]. }
  split.
  - intros cl' Ecl'. pose proof (others_lookup _ _ _ (Oth _ Ecl') N2) as Lo.
    rewrite E2 in Lo. cbn [c_remaining c_with_remaining] in Lo.
    destruct (Rltb 0 (B - i)) eqn:Ec2; rewrite <- Eb in Lo.
    + left. apply Rltb_true in Ec2. split; [lra|]. rewrite Lo. exact Lk.
    + right. apply Rltb_false in Ec2. split; [lra|]. apply entering_iff. rewrite Lo, (uremove_lookup _ _ _ (proj2 N1)), Z.eqb_refl. reflexivity.
  - intros Hlt. exists n. split; [exact Tos|].
    assert (Y : Rltb 0 (B - i) = true) by (apply Rltb_true; lra). rewrite Y in Pk. rewrite Pk in Ep.
    destruct (HD (c_rng cl1)) as (u & e & Eu & Hu). rewrite (pickInternal_eq _ _ _ Eu) in Ep. injection Ep as En _.
    assert (Ci : c_cint cl1 = c_cint cl).
    { destruct (getDwell_inv _ _ _ _ Ed (proj2 N0)) as (rm & r1 & -> & _). destruct Kc as (_ & _ & _ & _ & K5 & _). exact K5. }
    rewrite Ci in En.
    pose proof (hit _ _ u (lv_cint _ _ _ _ _ Ll) (near_bound cl) Hu) as Hin. rewrite En in Hin.
    apply (made_inside _ (valid_made _ _ _ _ _ V Ec)) in Hin. apply ukeys_In in Hin. destruct Hin as [m Em].
    apply listed_holds; [apply (h_ndc _ _ _ (v_shape _ _ W))|]. exists m, cl. auto.
Qed.

(** ** Listed sites and reported numbers *)
Lemma keep_listed g ws a g' ws' c k : inv g ws -> inv g' ws' -> step clk g ws a g' ws' -> is_cluster g' c -> listed g c k -> listed g' c k.
Proof.
  intros V V' S Hc L. pose proof (h_ndc _ _ _ (v_shape _ _ V)) as N2. pose proof (h_ndc _ _ _ (v_shape _ _ V')) as N2'.
  rewrite listed_holds in * by assumption. rewrite is_cluster_known in Hc by assumption. apply (y_keep _ _ (step_carried clk _ _ _ _ _ V S)); assumption.
Qed.
Lemma increment_of g ws c i cl : inv g ws -> increment g c (Fin i) -> ulookup c (g_clusters g) = Some cl -> c_inc cl = Fin i.
Proof.
  intros V (m & g' & E & Ex) Ec. pose proof (h_ndc _ _ _ (v_shape _ _ V)) as N2. inversion E; subst m g'.
  destruct (per_lookup c_getTimeIncrement _ _ _ N2 Ex) as (cl' & Ec' & X). assert (cl' = cl) by congruence. subst cl'. symmetry. exact X.
Qed.
Lemma cluster_there g ws c (cl : @cluster XR G) : inv g ws -> ulookup c (g_clusters g) = Some cl -> is_cluster g c.
Proof. intros V E. apply is_cluster_known; [apply (v_shape _ _ V)|]. eapply ulookup_In_key; eauto. Qed.
Lemma listed_cluster g ws c k : inv g ws -> listed g c k -> exists cl : @cluster XR G, ulookup c (g_clusters g) = Some cl.
Proof. intros V L. apply listed_holds in L; [|apply (v_shape _ _ V)]. destruct L as (m & cl & E & _). eauto. Qed.

(** ** Calls in between *)
Lemma meanwhile_step w p g ws a g' ws' : meanwhile clk w p g ws a g' ws' -> step clk g ws a g' ws'.
Proof. destruct 1; [eapply st_hop; eauto|assumption]. Qed.
Lemma meanwhile_evolve w p g ws a g' ws' : inv g ws -> meanwhile clk w p g ws a g' ws' -> evolve (fun j => j <> w) g g'.
Proof.
  intros V M. destruct M as [fuel id q g' Hq Nq Ni E|a g' ws' S Hh Na].
  - eapply evolve_mono; [|eapply hop_evolve; eauto]. intros j <-. exact Ni.
  - eapply evolve_mono; [|eapply step_evolve; eauto]. intros j [].
Qed.
Lemma meanwhile_walker w p g ws a g' ws' : inv g ws -> In p ws -> meanwhile clk w p g ws a g' ws' -> In p ws' /\ ulookup p (g_walkers g') = ulookup p (g_walkers g).
Proof.
  intros V Hp M. apply (other_step clk g ws a g' ws' p V Hp); [eapply meanwhile_step; eauto|].
  destruct M as [fuel id q g' Hq Nq Ni E|a g' ws' S Hh Na]; intros [X|X]; try congruence. rewrite X in Hh. discriminate.
Qed.

(** ** The stay *)
Definition in_steps (T : R) (l : list (R * R)) : Prop :=
  forall l1 i d l2, l = l1 ++ (i, d) :: l2 -> d = Rmin i (T - spent l1) /\ 0 < d /\ 0 < i /\ spent l1 < T.
Lemma steps_snoc T l i d : in_steps T l -> d = Rmin i (T - spent l) -> 0 < i -> spent l < T -> in_steps T (l ++ [(i, d)]).
Proof.
  intros F Hd Hi Hs l1 i' d' l2 E. destruct l2 as [|x l2 _] using rev_ind.
  - apply app_inj_tail in E. destruct E as [-> E]. injection E as -> ->. split; [exact Hd|]. split; [|auto]. rewrite Hd. apply Rmin_glb_lt; lra.
  - rewrite app_comm_cons, app_assoc in E. apply app_inj_tail in E. destruct E as [-> _]. eapply F; reflexivity.
Qed.
Lemma spent_snoc l i d : spent (l ++ [(i, d)]) = spent l + d.
Proof. unfold spent. rewrite Rsum_app. simpl. lra. Qed.

Record stay_state (w p c : Z) (T : R) (tr : list call) (l : list (R * R)) (g : @world XR G) (ws : list Z) : Prop := {
  ss_valid : valid_reach clk lo hi tr g ws;
  ss_in : In p ws;
  ss_count : (c < g_count g)%Z;
  ss_fair : in_steps T l;
  ss_le : spent l <= T;
  ss_left : forall cl, ulookup c (g_clusters g) = Some cl ->
    (spent l < T /\ ulookup w (c_remaining cl) = Some (Fin (T - spent l))) \/ (spent l = T /\ entering w cl);
  ss_place : spent l < T -> is_cluster g c -> exists k n, walker_on g p k /\ walker_to g p n /\ listed g c k /\ listed g c n }.

(** one more hop of the walker itself *)
Lemma stay_hop w p c T tr l g ws f g' k i d cl : valid_reach clk lo hi tr g ws -> few_hops lo hi (hops tr) -> In p ws -> in_steps T l -> spent l < T ->
  ulookup c (g_clusters g) = Some cl -> budget w cl = Fin (T - spent l) -> sys_hop clk f w p g = Ret tt g' -> walker_on g' p k -> listed g c k ->
  increment g c (Fin i) -> dwells g' p d -> stay_state w p c T (tr ++ [KHop p]) (l ++ [(i, d)]) g' ws.
Proof.
  intros V F Hp Fa Hs Ec Hb E Ok L Inc Dw. pose proof (valid_inv clk lo hi _ _ _ V) as W.
  pose proof (hop_reach clk lo hi _ _ _ _ _ _ _ V Hp E) as V'. pose proof (valid_inv clk lo hi _ _ _ V') as W'.
  pose proof (increment_of _ _ _ _ _ W Inc Ec) as Hi.
  destruct (own_hop tr g ws f w p g' k c cl (T - spent l) i d V F Hp E Ok L Ec Hb ltac:(lra) Hi Dw) as (Hi0 & Hd & Lf & Tg).
  assert (S : step clk g ws (KHop p) g' ws) by (eapply st_hop; eauto).
  constructor.
  - exact V'.
  - exact Hp.
  - pose proof (y_count _ _ (step_carried clk _ _ _ _ _ W S)). pose proof (cluster_small _ _ _ _ W Ec). lia.
  - apply steps_snoc; assumption.
  - rewrite spent_snoc, Hd. pose proof (Rmin_r i (T - spent l)). lra.
  - intros cl' Ec'. rewrite spent_snoc, Hd. destruct (Lf cl' Ec') as [[A B]|[A B]].
    + left. rewrite Rmin_left by lra. split; [lra|]. rewrite B. f_equal. f_equal. lra.
    + right. rewrite Rmin_right by lra. split; [lra|exact B].
  - intros Hs' Hc. rewrite spent_snoc, Hd in Hs'. assert (Hlt : i < T - spent l).
    { destruct (Rlt_le_dec i (T - spent l)) as [|X]; [assumption|]. rewrite Rmin_right in Hs' by lra. lra. }
    destruct (Tg Hlt) as (n & Hn & Ln). exists k, n. split; [exact Ok|]. split; [exact Hn|]. split; apply (keep_listed g ws (KHop p) g' ws); assumption.
Qed.
Lemma stay_wait w p c T tr l g ws a g' ws' : stay_state w p c T tr l g ws -> meanwhile clk w p g ws a g' ws' ->
  valid_call (g_heap g) a -> paced_call (g_heap g) lo hi a -> stay_state w p c T (tr ++ [a]) l g' ws'.
Proof.
  intros [V Hp Cn Fa Le Lf Pl] M Hv Hpc. pose proof (valid_inv clk lo hi _ _ _ V) as W. pose proof (meanwhile_step _ _ _ _ _ _ _ M) as S.
  destruct (valid_call_step _ _ _ _ _ _ V S Hv Hpc) as [V' _]. pose proof (valid_inv clk lo hi _ _ _ V') as W'.
  destruct (meanwhile_walker _ _ _ _ _ _ _ W Hp M) as [Hp' Ew]. pose proof (meanwhile_evolve _ _ _ _ _ _ _ W M) as Ev.
  constructor; try assumption.
  - pose proof (e_count _ _ _ Ev). lia.
  - intros cl' Ec'. destruct (e_cl _ _ _ Ev _ _ Ec') as [(cl & Ec & O)|(X & _)]; [|lia].
    pose proof (built_neat _ (made_built _ (valid_made _ _ _ _ _ V Ec))) as Nc. apply ops_others in O.
    pose proof (others_lookup _ _ _ O Nc) as Lo. destruct (Lf cl Ec) as [[A B]|[A B]]; [left|right]; (split; [exact A|]).
    + rewrite Lo. exact B.
    + apply entering_iff. rewrite Lo. apply entering_iff. exact B.
  - intros Hs Hc. assert (Hc0 : is_cluster g c).
    { pose proof Hc as Hc1. apply is_cluster_known in Hc1; [|apply (v_shape _ _ W')]. apply ukeys_In in Hc1. destruct Hc1 as [cl' Ec'].
      destruct (e_cl _ _ _ Ev _ _ Ec') as [(cl & Ec & _)|(X & _)]; [eapply cluster_there; eauto|lia]. }
    destruct (Pl Hs Hc0) as (k & n & (wk & Ewk & Ek) & (wk' & Ewk' & En) & Lk & Ln). exists k, n.
    split; [exists wk; rewrite Ew; auto|]. split; [exists wk'; rewrite Ew; auto|]. split; apply (keep_listed g ws a g' ws'); assumption.
Qed.

Section One.
Variables (w p c : Z) (tr : list (@call XR)) (g0 : @world XR G) (ws0 : list Z) (u tau : R).
Hypothesis (V0 : valid_reach clk lo hi tr g0 ws0) (Hu : cluster_draw g0 c u) (Ht : time_constant g0 c (Fin tau)).
Let T := - ln u * tau.

Lemma stay_T : few_hops lo hi (hops tr) -> 0 < u < 1 /\ 0 < tau /\ 0 < T.
Proof.
  intros F. destruct Hu as (cl & e & Ec & Ed), Ht as (cl' & Ec' & Et). assert (cl' = cl) by congruence. subst cl'.
  pose proof (valid_living clk lo hi HD HB _ _ _ V0 F) as Lv. destruct (a_cl _ _ _ _ (i_alive _ _ _ _ _ Lv) c cl Ec) as (_ & Ll).
  destruct (lv_tau _ _ _ _ _ Ll) as (t & Et' & Ht'). unfold c_getTimeConstant in Et. assert (X : t = tau) by congruence. subst t. pose proof dbl_min_pos.
  destruct (HD (c_rng cl)) as (u' & e' & Eu & Hu'). assert (u' = u) by congruence. subst u'. split; [exact Hu'|]. split; [lra|].
  apply T_pos with (1 := Hu'). lra.
Qed.
Lemma stay_run tr' l g ws : stay clk w p c g0 ws0 tr' l g ws -> Forall (valid_call (g_heap g0)) tr' -> Forall (paced_call (g_heap g0) lo hi) tr' ->
  few_hops lo hi (hops (tr ++ tr')) -> stay_state w p c T (tr ++ tr') l g ws /\ g_heap g = g_heap g0.
Proof.
  intros S. induction S as [fuel g k i d Hp Nr E Ok L Inc Dw|tr' l g ws a g' ws' S IH M|tr' l g ws fuel g' k i d S IH Rn E Ok L Inc Dw]; intros Fv Fp F.
  - rewrite hops_app in F. pose proof (hops_nonneg tr). pose proof (hops_nonneg [KHop p : @call XR]).
    assert (F0 : few_hops lo hi (hops tr)) by (eapply few_less; [exact HB| |exact F]; lia).
    destruct (stay_T F0) as (Hu1 & Ht1 & HT). destruct Hu as (cl & e & Ec & Ed), Ht as (cl' & Ec' & Et). assert (cl' = cl) by congruence. subst cl'.
    unfold c_getTimeConstant in Et.
    assert (Ent : entering w cl).
    { destruct (in_dec Z.eq_dec w (ukeys (c_remaining cl))) as [X|X]; [|exact X]. exfalso. apply Nr. exists cl. split; [exact Ec|]. intros Y. apply Y, X. }
    split.
    + change [(i, d)] with ([] ++ [(i, d)]). apply (stay_hop w p c T tr [] g0 ws0 fuel g k i d cl); try assumption.
      * intros l1 i' d' l2 X. destruct l1; discriminate.
      * rewrite (budget_enter w cl u e tau Ent Ed Hu1 Et). f_equal. unfold spent; simpl. unfold T. lra.
    + destruct (step_settings clk _ _ _ _ _ (valid_inv clk lo hi _ _ _ V0) (st_hop clk g0 ws0 fuel w p g Hp E)) as ([X|X] & _); [discriminate|exact X].
  - apply Forall_app in Fv. destruct Fv as [Fv Fv1]. apply Forall_app in Fp. destruct Fp as [Fp Fp1].
    rewrite app_assoc in *. rewrite hops_app in F. pose proof (hops_nonneg (tr ++ tr')). pose proof (hops_nonneg [a]).
    destruct (IH Fv Fp) as [St Eh]; [eapply few_less; [exact HB| |exact F]; lia|].
    assert (Hv : valid_call (g_heap g) a) by (rewrite Eh; inversion Fv1; assumption). assert (Hpc : paced_call (g_heap g) lo hi a) by (rewrite Eh; inversion Fp1; assumption).
    split; [eapply stay_wait; eauto|]. rewrite <- Eh. eapply valid_call_step; [exact (ss_valid _ _ _ _ _ _ _ _ St)|eapply meanwhile_step; exact M|exact Hv|exact Hpc].
  - apply Forall_app in Fv. destruct Fv as [Fv Fv1]. apply Forall_app in Fp. destruct Fp as [Fp Fp1].
    rewrite app_assoc in *. rewrite hops_app in F. pose proof (hops_nonneg (tr ++ tr')). pose proof (hops_nonneg [KHop p : @call XR]).
    assert (F1 : few_hops lo hi (hops (tr ++ tr'))) by (eapply few_less; [exact HB| |exact F]; lia).
    destruct (IH Fv Fp F1) as [[V Hp Cn Fa Le Lf Pl] Eh]. destruct Rn as (cl & Ec & Nent).
    destruct (Lf cl Ec) as [[A B]|[_ B]]; [|contradiction].
    split.
    + apply (stay_hop w p c T (tr ++ tr') l g ws fuel g' k i d cl); try assumption. unfold budget. rewrite B. reflexivity.
    + rewrite <- Eh. destruct (step_settings clk _ _ _ _ _ (valid_inv clk lo hi _ _ _ V) (st_hop clk g ws fuel w p g' Hp E)) as ([X|X] & _); [discriminate|exact X].
Qed.
End One.

(** ** Where the cluster keeps a time for a walker, the walker is *)
Lemma with_ids_steps ids g ws tr g' ws' : with_ids clk ids g ws tr g' ws' -> steps clk g ws tr g' ws'.
Proof. induction 1; [apply sts_refl|eapply sts_step; [eassumption|eapply st_hop; eauto]|eapply sts_step; eauto]. Qed.
Lemma budget_pos tr g ws c w cl : valid_reach clk lo hi tr g ws -> few_hops lo hi (hops tr) -> ulookup c (g_clusters g) = Some cl ->
  exists B i, budget w cl = Fin B /\ 0 < B /\ c_inc cl = Fin i /\ (~ entering w cl -> ulookup w (c_remaining cl) = Some (Fin B)).
Proof.
  intros V F Ec. pose proof (valid_living clk lo hi HD HB _ _ _ V F) as Lv. destruct (a_cl _ _ _ _ (i_alive _ _ _ _ _ Lv) c cl Ec) as (_ & Ll).
  destruct (lv_tau _ _ _ _ _ Ll) as (t & Et & Ht). destruct (lv_inc _ _ _ _ _ Ll) as (t' & r' & _ & _ & Ei). pose proof dbl_min_pos.
  destruct (ulookup w (c_remaining cl)) as [v|] eqn:Ew.
  - destruct (i_rests _ _ _ _ _ Lv c cl Ec w v Ew) as (x & -> & Hx). exists x, (t' / r'). unfold budget. rewrite Ew. auto.
  - destruct (HD (c_rng cl)) as (u & e & Eu & Hu). exists (- ln u * t), (t' / r').
    split; [apply (budget_enter w cl u e t); try assumption; apply entering_iff; exact Ew|]. split; [apply (T_pos u t Hu); lra|]. split; [exact Ei|].
    intros X. exfalso. apply X, entering_iff, Ew.
Qed.
Lemma listed_dec g ws c k : inv g ws -> {listed g c k} + {~ listed g c k}.
Proof.
  intros V. pose proof (h_ndc _ _ _ (v_shape _ _ V)) as N2.
  destruct (ulookup c (g_clusters g)) as [cl|] eqn:Ec.
  - destruct (ulookup k (c_sites cl)) as [m|] eqn:Em.
    + left. apply listed_holds; [exact N2|]. exists m, cl. auto.
    + right. rewrite listed_holds by exact N2. intros (m & cl' & Ec' & Em'). congruence.
  - right. rewrite listed_holds by exact N2. intros (m & cl' & Ec' & Em'). congruence.
Qed.
Lemma running_entering g c w (cl : @cluster XR G) : ulookup c (g_clusters g) = Some cl -> ~ running g c w -> entering w cl.
Proof.
  intros Ec Nr. destruct (in_dec Z.eq_dec w (ukeys (c_remaining cl))) as [X|X]; [|exact X]. exfalso. apply Nr. exists cl. split; [exact Ec|]. intros Y. apply Y, X.
Qed.
Lemma ops_running (P : Z -> Prop) w (a b : @cluster XR G) : neat a -> ops P a b -> ~ P w -> ~ entering w b -> ~ entering w a.
Proof. intros Na O Hp Hb Ha. apply Hb. eapply ops_entering; eauto. Qed.
Definition at_home (g : @world XR G) (p c : Z) : Prop := exists k n, walker_on g p k /\ walker_to g p n /\ listed g c k /\ listed g c n.

(** calls that are not the walker's: a running stay was running before, at the same place *)
Lemma meanwhile_running tr g ws w p a g' ws' c : valid_reach clk lo hi tr g ws -> In p ws \/ ~ running g c w -> meanwhile clk w p g ws a g' ws' -> running g' c w ->
  running g c w /\ In p ws' /\ (at_home g p c -> at_home g' p c).
Proof.
  intros V Hor M (cl' & Ec' & Nent). pose proof (valid_inv clk lo hi _ _ _ V) as W. pose proof (meanwhile_step _ _ _ _ _ _ _ M) as S.
  pose proof (step_inv clk _ _ _ _ _ W S) as W'. pose proof (meanwhile_evolve _ _ _ _ _ _ _ W M) as Ev.
  destruct (e_cl _ _ _ Ev _ _ Ec') as [(cl & Ec & O)|(_ & _ & X)]; [|exfalso; apply Nent, X; intros Y; apply Y; reflexivity].
  pose proof (built_neat _ (made_built _ (valid_made _ _ _ _ _ V Ec))) as Nc.
  assert (Rn : running g c w).
  { exists cl. split; [exact Ec|]. apply (ops_running _ w cl cl' Nc O); [intros Y; apply Y; reflexivity|exact Nent]. }
  split; [exact Rn|]. destruct Hor as [Hp|]; [|contradiction]. destruct (meanwhile_walker _ _ _ _ _ _ _ W Hp M) as [Hp' Ew]. split; [exact Hp'|].
  intros (k & n & (wk & Ewk & Ek) & (wk' & Ewk' & En) & Lk & Ln). exists k, n. assert (Hc : is_cluster g' c) by (eapply cluster_there; eauto).
  split; [exists wk; rewrite Ew; auto|]. split; [exists wk'; rewrite Ew; auto|]. split; apply (keep_listed g ws a g' ws'); assumption.
Qed.
(** the walker's own hop *)
Lemma own_running tr g ws f w p g' c : valid_reach clk lo hi tr g ws -> few_hops lo hi (hops tr + 1) -> In p ws -> sys_hop clk f w p g = Ret tt g' ->
  (running g c w -> at_home g p c) -> running g' c w -> at_home g' p c.
Proof.
  intros V F1 Hp E Ih (cl' & Ec' & Nent). pose proof (valid_inv clk lo hi _ _ _ V) as W. pose proof (hops_nonneg tr) as H0.
  assert (F : few_hops lo hi (hops tr)) by (eapply few_less; [exact HB| |exact F1]; lia).
  assert (S : step clk g ws (KHop p) g' ws) by (eapply st_hop; eauto).
  pose proof (hop_reach clk lo hi _ _ _ _ _ _ _ V Hp E) as V'. pose proof (valid_inv clk lo hi _ _ _ V') as W'.
  destruct (v_on _ _ W' p Hp) as (k & Ok & _). assert (Hc : is_cluster g' c) by (eapply cluster_there; eauto).
  destruct (listed_dec g ws c k W) as [L|NL].
  - destruct (listed_cluster _ _ _ _ W L) as (cl & Ec). destruct (budget_pos _ _ _ _ w _ V F Ec) as (B & i & Hb & HB0 & Hi & _).
    destruct (valid_timed clk lo hi HD HB _ _ _ p V') as (wk & d & Ewk & Ed & _); [rewrite hops_app; exact F1|exact Hp|].
    destruct (own_hop tr g ws f w p g' k c cl B i d V F Hp E Ok L Ec Hb HB0 Hi) as (Hi0 & Hd & Lf & Tg); [exists wk; auto|].
    destruct (Lf cl' Ec') as [[A _]|[_ A]]; [|contradiction]. destruct (Tg A) as (n & Hn & Ln).
    exists k, n. split; [exact Ok|]. split; [exact Hn|]. split; apply (keep_listed g ws (KHop p) g' ws); assumption.
  - exfalso. assert (Nr : ~ running g c w).
    { intros Rn. destruct (Ih Rn) as (src & dst & Os & Od & Ls & Ld). destruct (hop_facts clk _ _ _ _ _ _ _ _ W Hp Os Od E) as (On & _).
      apply NL. rewrite (walker_on_fun _ _ _ _ Ok On). destruct (here g ws dst); assumption. }
    destruct (hop_away clk _ _ _ _ _ _ _ _ W Hp E Ok NL cl' Ec') as [(cl & cl0 & Ec & Kc & O)|(_ & X)]; [|exact (Nent (X w))].
    pose proof (built_neat _ (made_built _ (valid_made _ _ _ _ _ V Ec))) as Nc. pose proof (running_entering _ _ _ _ Ec Nr) as Ent.
    apply Nent. destruct Kc as (_ & _ & _ & K4 & _ & _ & K7). eapply ops_entering; [exact O|intros []| |].
    + destruct Nc as [Na Nb]. split; [apply K7, Na|rewrite K4; exact Nb].
    + unfold entering. rewrite K4. exact Ent.
Qed.
Lemma placed ids p m h count tick tr g ws : (forall q q', ids q = ids q' -> q = q') -> NoDup (ukeys m) -> (0 <= count)%Z ->
  with_ids clk ids (world_new m h count tick) [] tr g ws -> Forall (valid_call (g_heap g)) tr -> Forall (paced_call (g_heap g) lo hi) tr ->
  few_hops lo hi (hops tr) -> ~ In (KLeave p) tr -> forall c, running g c (ids p) -> In p ws /\ at_home g p c.
Proof.
  intros Inj ND Hc Wi. 
  assert (Rb : forall tr g ws, with_ids clk ids (world_new m h count tick) [] tr g ws -> reach_by clk tr g ws).
  { intros tr0 g0 ws0 X. exists m, h, count, tick. split; [exact ND|]. split; [exact Hc|]. apply (with_ids_steps _ _ _ _ _ _ X). }
  assert (Go : forall tr g1 ws1 a g2 ws2, with_ids clk ids (world_new m h count tick) [] tr g1 ws1 -> step clk g1 ws1 a g2 ws2 ->
     Forall (valid_call (g_heap g2)) (tr ++ [a]) -> Forall (paced_call (g_heap g2) lo hi) (tr ++ [a]) ->
     valid_reach clk lo hi tr g1 ws1 /\ g_heap g2 = g_heap g1).
  { intros tr0 g1 ws1 a g2 ws2 X S Fv Fp. apply Forall_app in Fv. destruct Fv as [Fv Fv1]. apply Forall_app in Fp. destruct Fp as [Fp Fp1].
    pose proof (Rb _ _ _ X) as Rx. assert (W : inv g1 ws1) by (apply (reach_inv clk); eexists; exact Rx).
    destruct (step_settings clk _ _ _ _ _ W S) as ([Y|Y] & _); [inversion Fv1; subst; contradiction|].
    rewrite Y in Fv, Fp. split; [|exact Y]. split; [exact Rx|]. split; assumption. }
  induction Wi as [|tr g1 ws1 fuel q g2 Wi IH Hq E|tr g1 ws1 a g2 ws2 Wi IH S Hh]; intros Fv Fp F Nl c Rn.
  - destruct Rn as (cl & Ec & _). discriminate.
  - assert (S : step clk g1 ws1 (KHop q) g2 ws1) by (eapply st_hop; eauto).
    destruct (Go _ _ _ _ _ _ Wi S Fv Fp) as (V & Eh). pose proof V as (_ & Fv1 & Fp1).
    rewrite hops_app in F. assert (F1 : few_hops lo hi (hops tr)).
    { pose proof (hops_nonneg tr). pose proof (hops_nonneg [KHop q : @call XR]). eapply few_less; [exact HB| |exact F]; lia. }
    assert (Nl1 : ~ In (KLeave p) tr) by (intros X; apply Nl, in_app_iff; auto). specialize (IH Fv1 Fp1 F1 Nl1).
    destruct (Z.eq_dec q p) as [->|Nq].
    + split; [exact Hq|]. apply (own_running tr g1 ws1 fuel (ids p) p g2 c V F Hq E); [intros X; apply (IH c X)|exact Rn].
    + assert (M : meanwhile clk (ids p) p g1 ws1 (KHop q) g2 ws1) by (eapply mw_hop; eauto).
      assert (Hor : In p ws1 \/ ~ running g1 c (ids p)).
      { destruct (in_dec Z.eq_dec p ws1) as [X|X]; [left; exact X|]. right. intros Y. apply X, (IH c Y). }
      destruct (meanwhile_running tr g1 ws1 (ids p) p (KHop q) g2 ws1 c V Hor M Rn) as (Rn1 & Hp & Hh). split; [exact Hp|]. apply Hh, (IH c Rn1).
  - destruct (Go _ _ _ _ _ _ Wi S Fv Fp) as (V & Eh). pose proof V as (_ & Fv1 & Fp1).
    rewrite hops_app in F. assert (F1 : few_hops lo hi (hops tr)).
    { pose proof (hops_nonneg tr). pose proof (hops_nonneg [a]). eapply few_less; [exact HB| |exact F]; lia. }
    assert (Nl1 : ~ In (KLeave p) tr) by (intros X; apply Nl, in_app_iff; auto). specialize (IH Fv1 Fp1 F1 Nl1).
    assert (M : meanwhile clk (ids p) p g1 ws1 a g2 ws2).
    { apply mw_call; [exact S|exact Hh|]. intros ->. apply Nl, in_app_iff. right. left. reflexivity. }
    assert (Hor : In p ws1 \/ ~ running g1 c (ids p)).
    { destruct (in_dec Z.eq_dec p ws1) as [X|X]; [left; exact X|]. right. intros Y. apply X, (IH c Y). }
    destruct (meanwhile_running tr g1 ws1 (ids p) p a g2 ws2 c V Hor M Rn) as (Rn1 & Hp & Ho). split; [exact Hp|]. apply Ho, (IH c Rn1).
Qed.

(** ** A site outside of all clusters *)
Lemma reads_same h rates (a b : @site XR G) : s_prob b = s_prob a -> s_tau b = s_tau a -> s_neigh b = s_neigh a -> reads h rates a -> reads h rates b.
Proof.
  intros E1 E2 E3. unfold reads, s_getProbs, s_probTo, s_getTimeConstant, s_neighIds. rewrite E1, E2, E3. auto.
Qed.
Lemma hop_free tr g ws f w p g' k u v S : valid_reach clk lo hi tr g ws -> few_hops lo hi (hops tr) -> In p ws -> sys_hop clk f w p g = Ret tt g' ->
  walker_on g' p k -> cluster_of g k unassignedId -> site_draws g k u v -> exit_rate g k S ->
  0 < S /\ dwells g' p (- ln u / S) /\ (exists j r, site_rate g k j r /\ walker_to g' p j) /\
  forall j r, site_rate g k j r -> exists a, 0 <= a /\ a + r / S <= 1 /\ (walker_to g' p j <-> a <= v < a + r / S).
Proof.
  intros V F Hp E Ok Un (s & e & e' & Es & Eu & Ev) (sx & Esx & ->). assert (sx = s) by congruence. subst sx. pose proof (valid_inv clk lo hi _ _ _ V) as W.
  pose proof (valid_living clk lo hi HD HB _ _ _ V F) as Lv. destruct (a_site _ _ _ _ (i_alive _ _ _ _ _ Lv) k s Es) as ((Hg & Hr) & _ & _).
  destruct (hop_at clk f w p k g g' ws W Hp E Ok Un) as (s_ & s0 & d & s1 & n & s2 & Es_ & Ss & Ed & En & Ewp).
  assert (s_ = s) by congruence. subst s_. destruct Ss as (S1 & S2 & S3 & S4).
  destruct (HD (s_rng s)) as (u' & e1 & Eu' & Hu). assert (u' = u) by congruence. subst u'.
  destruct (HD e) as (v' & e2 & Ev' & Hv). assert (v' = v) by congruence. subst v'.
  assert (Hr0 : reads (g_heap g) (s_neigh s) s0) by (eapply reads_same; [exact S2|exact S3|exact S4|exact Hr]).
  assert (Eu0 : edraw (s_rng s0) = (Fin u, e)) by (rewrite S1; exact Eu).
  destruct (dwell_reads _ _ _ _ _ Hg Hr0 Eu0 Hu) as (sd & Ed' & Hpos). rewrite Ed in Ed'. injection Ed' as Ed1 Ed2.
  assert (Es1 : s1 = s_with_rng e s0).
  { unfold s_getDwellTime, bind, s_draw, gets, ret in Ed. rewrite Eu0 in Ed. injection Ed as _ Ed. symmetry. exact Ed. }
  assert (Hr1 : reads (g_heap g) (s_neigh s) s1) by (rewrite Es1; eapply reads_same; [| | |exact Hr0]; reflexivity).
  assert (Ev1 : edraw (s_rng s1) = (Fin v, e')) by (rewrite Es1; exact Ev).
  assert (To : forall j, walker_to g' p j <-> n = j).
  { intros j. split; [intros (wk & Ewk & <-); rewrite Ewp in Ewk; injection Ewk as <-; reflexivity|]. intros <-. eexists. split; [exact Ewp|reflexivity]. }
  split; [apply total_rate_pos; exact Hg|]. split.
  { eexists. split; [exact Ewp|]. unfold w_getDwellTime, gets. cbn [w_dwell]. rewrite Ed1. reflexivity. }
  split.
  - destruct (pick_reads _ _ _ _ _ Hg Hr1 Ev1 ltac:(lra)) as (j & sj & Ej & Hj). rewrite En in Ej. injection Ej as <- _.
    assert (Hj' : In n (ukeys (s_neigh s))) by (rewrite Es1 in Hj; unfold s_neighIds in Hj; cbn [s_neigh s_with_rng] in Hj; rewrite S4 in Hj; exact Hj).
    unfold ukeys in Hj'. apply in_map_iff in Hj'. destruct Hj' as ([n' a] & X & Ha). cbn [fst] in X. subst n'.
    destruct Hg as (_ & _ & Hpos'). destruct (Hpos' n a Ha) as (r & Er & _). exists n, r. split; [|apply To; reflexivity].
    exists s. split; [exact Es|]. exists a. auto.
  - intros j r (sj & Esj & Ur). assert (sj = s) by congruence. subst sj.
    destruct (pick_interval_reads _ _ _ Hg Hr1 j r Ur) as (a & A1 & A2 & A3). exists a. split; [exact A1|]. split; [exact A2|].
    rewrite To. apply (A3 s1 v e' eq_refl ltac:(lra) Ev1 n s2 En).
Qed.

(** ** More about stays *)
Lemma stay_some w p c g0 ws0 tr l g ws : stay clk w p c g0 ws0 tr l g ws -> l <> [].
Proof. induction 1; [discriminate|assumption|]. intros X. destruct l; discriminate. Qed.
(** the calls of a stay *)
Lemma stay_steps w p c g0 ws0 tr l g ws : inv g0 ws0 -> stay clk w p c g0 ws0 tr l g ws -> In p ws /\ steps clk g0 ws0 tr g ws.
Proof.
  intros V S. induction S as [fuel g k i d Hp Nr E Ok L Inc Dw|tr l g ws a g' ws' S [Hp Ss] M|tr l g ws fuel g' k i d S [Hp Ss] Rn E Ok L Inc Dw].
  - split; [exact Hp|]. eapply (sts_step _ _ _ []); [apply sts_refl|eapply st_hop; eauto].
  - split; [apply (meanwhile_walker _ _ _ _ _ _ _ (steps_inv clk _ _ _ _ _ V Ss) Hp M)|]. eapply sts_step; [exact Ss|eapply meanwhile_step; eauto].
  - split; [exact Hp|]. eapply sts_step; [exact Ss|eapply st_hop; eauto].
Qed.
Lemma step_back g ws a g' ws' c : inv g ws -> step clk g ws a g' ws' -> (c < g_count g)%Z -> is_cluster g' c -> is_cluster g c.
Proof.
  intros V S Hc H. pose proof (step_inv clk _ _ _ _ _ V S) as V'. rewrite is_cluster_known in * by (apply (v_shape _ _ V) || apply (v_shape _ _ V')).
  destruct (y_fresh _ _ (step_carried clk _ _ _ _ _ V S) c H) as [X|X]; [exact X|lia].
Qed.
Lemma steps_count g ws tr g' ws' : inv g ws -> steps clk g ws tr g' ws' -> (g_count g <= g_count g')%Z.
Proof.
  intros V S. induction S as [|tr g1 ws1 a g2 ws2 S IH St]; [lia|]. pose proof (y_count _ _ (step_carried clk _ _ _ _ _ (steps_inv clk _ _ _ _ _ V S) St)). lia.
Qed.
(** a cluster that gains no sites during the stay keeps its increment *)
Lemma stay_increments w p c g0 ws0 tr l g ws i : inv g0 ws0 -> stay clk w p c g0 ws0 tr l g ws -> is_cluster g c -> (forall k, listed g c k -> listed g0 c k) ->
  increment g0 c (Fin i) -> forall x, In x l -> fst x = i.
Proof.
  intros V S Hc Hs Hi.
  assert (C0 : is_cluster g0 c) by (destruct Hi as (m & h & E & Ex); apply is_cluster_known; [apply (v_shape _ _ V)|]; inversion E; subst;
    destruct (per_lookup c_getTimeIncrement _ _ _ (h_ndc _ _ _ (v_shape _ _ V)) Ex) as (cl & Ec & _); eapply ulookup_In_key; eauto).
  assert (Lt : (c < g_count g0)%Z) by (apply (small_ids _ _ _ V); apply is_cluster_known; [apply (v_shape _ _ V)|exact C0]).
  assert (Same : forall tr1 g1 ws1 j, steps clk g0 ws0 tr1 g1 ws1 -> is_cluster g1 c -> (forall k, listed g1 c k -> listed g0 c k) -> increment g1 c (Fin j) -> j = i).
  { intros tr1 g1 ws1 j S1 H1 L1 Hj. destruct (run_reports clk _ _ _ _ _ c V S1 C0 H1 L1) as (_ & _ & X). apply X in Hj.
    apply is_cluster_known in C0; [|apply (v_shape _ _ V)]. apply ukeys_In in C0. destruct C0 as [cl Ec].
    destruct (report_of _ _ _ _ V Ec) as (_ & _ & Y). apply Y in Hi. apply Y in Hj. congruence. }
  revert Hc Hs. induction S as [fuel g k j d Hp Nr E Ok L Inc Dw|tr l g ws a g' ws' S IH M|tr l g ws fuel g' k j d S IH Rn E Ok L Inc Dw]; intros Hc Hs x Hx.
  - destruct Hx as [<-|[]]. cbn [fst]. apply (Same [] g0 ws0); [apply sts_refl|exact C0|auto|exact Inc].
  - destruct (stay_steps _ _ _ _ _ _ _ _ _ V S) as [Hp Ss]. pose proof (steps_inv clk _ _ _ _ _ V Ss) as W. pose proof (meanwhile_step _ _ _ _ _ _ _ M) as St.
    pose proof (steps_count _ _ _ _ _ V Ss) as Cn. pose proof (step_inv clk _ _ _ _ _ W St) as W'.
    apply IH; [apply (step_back _ _ _ _ _ _ W St); [lia|exact Hc]| |exact Hx].
    intros y Ly. apply Hs. eapply keep_listed; [exact W|exact W'|exact St|exact Hc|exact Ly].
  - destruct (stay_steps _ _ _ _ _ _ _ _ _ V S) as [Hp Ss]. pose proof (steps_inv clk _ _ _ _ _ V Ss) as W.
    assert (St : step clk g ws (KHop p) g' ws) by (eapply st_hop; eauto).
    pose proof (steps_count _ _ _ _ _ V Ss) as Cn. pose proof (step_inv clk _ _ _ _ _ W St) as W'.
    assert (C1 : is_cluster g c) by (apply (step_back _ _ _ _ _ _ W St); [lia|exact Hc]).
    assert (H1 : forall k, listed g c k -> listed g0 c k) by (intros y Ly; apply Hs; eapply keep_listed; [exact W|exact W'|exact St|exact Hc|exact Ly]).
    apply in_app_iff in Hx. destruct Hx as [Hx|[<-|[]]]; [exact (IH C1 H1 x Hx)|]. cbn [fst]. apply (Same _ _ _ _ Ss C1 H1 Inc).
Qed.
Section Two.
Variables (w p c : Z) (tr : list (@call XR)) (g0 : @world XR G) (ws0 : list Z) (u tau : R).
Hypothesis (V0 : valid_reach clk lo hi tr g0 ws0) (Hu : cluster_draw g0 c u) (Ht : time_constant g0 c (Fin tau)).
Let T := - ln u * tau.
Variables (tr' : list (@call XR)) (l : list (R * R)) (g : @world XR G) (ws : list Z).
Hypothesis (St : stay clk w p c g0 ws0 tr' l g ws) (Fv : Forall (valid_call (g_heap g0)) tr') (Fp : Forall (paced_call (g_heap g0) lo hi) tr')
  (F : few_hops lo hi (hops (tr ++ tr'))).

Lemma stay_running : is_cluster g c -> (running g c w <-> spent l < T) /\ (~ running g c w <-> spent l = T).
Proof.
  destruct (stay_run w p c tr g0 ws0 u tau V0 Hu Ht tr' l g ws St Fv Fp F) as [[V Hp Cn Fa Le Lf Pl] Eh].
  intros Hc. apply is_cluster_known in Hc; [|apply (v_shape _ _ (valid_inv clk lo hi _ _ _ V))]. apply ukeys_In in Hc. destruct Hc as [cl Ec].
  fold T in Lf, Le. destruct (Lf cl Ec) as [[A B]|[A B]].
  - assert (Rn : running g c w).
    { exists cl. split; [exact Ec|]. intros X. apply entering_iff in X. congruence. }
    split; [tauto|]. split; [contradiction|lra].
  - assert (Rn : ~ running g c w) by (intros (cl' & Ec' & X); apply X; assert (cl' = cl) by congruence; subst; exact B).
    split; [|tauto]. split; [contradiction|lra].
Qed.
Lemma stay_home : running g c w -> at_home g p c.
Proof.
  destruct (stay_run w p c tr g0 ws0 u tau V0 Hu Ht tr' l g ws St Fv Fp F) as [[V Hp Cn Fa Le Lf Pl] Eh].
  intros Rn. pose proof Rn as (cl & Ec & _). assert (Hc : is_cluster g c) by (eapply cluster_there; [apply (valid_inv clk lo hi _ _ _ V)|exact Ec]).
  apply Pl; [|exact Hc]. apply (stay_running Hc), Rn.
Qed.
Lemma stay_next_hop fuel g' : few_hops lo hi (hops (tr ++ tr') + 1) -> running g c w -> sys_hop clk fuel w p g = Ret tt g' ->
  exists i d, stay clk w p c g0 ws0 (tr' ++ [KHop p]) (l ++ [(i, d)]) g' ws.
Proof.
  destruct (stay_run w p c tr g0 ws0 u tau V0 Hu Ht tr' l g ws St Fv Fp F) as [[V Hp Cn Fa Le Lf Pl] Eh].
  intros F1 Rn E. destruct (stay_home Rn) as (src & dst & Os & Od & Ls & Ld). pose proof (valid_inv clk lo hi _ _ _ V) as W.
  pose proof Rn as (cl & Ec & _). destruct (hop_facts clk _ _ _ _ _ _ _ _ W Hp Os Od E) as (On & _).
  pose proof (hop_reach clk lo hi _ _ _ _ _ _ _ V Hp E) as V'.
  destruct (valid_timed clk lo hi HD HB _ _ _ p V') as (wk & d & Ewk & Ed & _); [rewrite hops_app; exact F1|exact Hp|].
  destruct (budget_pos _ _ _ _ w _ V F Ec) as (B & i & _ & _ & Hi & _).
  exists i, d. eapply sy_hop; [exact St|exact Rn|exact E|exact On| | |exists wk; auto].
  - destruct (here g ws dst); assumption.
  - exists (per_cluster c_getTimeIncrement (g_clusters g)). eexists. split; [reflexivity|].
    unfold per_cluster. rewrite fold_uset_lookup; [|constructor|apply (v_shape _ _ W)]. rewrite Ec. unfold c_getTimeIncrement. rewrite Hi. reflexivity.
Qed.
(** the number of hops, if the increment does not change *)
Lemma stay_count i : (forall x, In x l -> fst x = i) ->
  (INR (length l) - 1) * i < T /\ (spent l < T -> INR (length l) * i < T) /\ (spent l = T -> T <= INR (length l) * i) /\
  (forall l1 x d y l2, l = l1 ++ (x, d) :: y :: l2 -> d = i).
Proof.
  destruct (stay_run w p c tr g0 ws0 u tau V0 Hu Ht tr' l g ws St Fv Fp F) as [[_ _ _ Fa _ _ _] _]. fold T in Fa.
  intros Hi.
  assert (One : forall l1 d l2, l = l1 ++ (i, d) :: l2 -> spent l1 + d < T -> d = i).
  { intros l1 d l2 El Hlt. destruct (Fa _ _ _ _ El) as (Hd & _). unfold Rmin in Hd. destruct (Rle_dec i (T - spent l1)); lra. }
  assert (Gen : forall l1 l2, l = l1 ++ l2 -> l2 <> [] -> spent l1 = INR (length l1) * i).
  { induction l1 as [|[j d] l1 IH] using rev_ind; intros l2 El Nl; [unfold spent; simpl; lra|].
    rewrite <- app_assoc in El. rewrite spent_snoc, app_length, plus_INR. simpl.
    assert (Hj : j = i) by (apply (Hi (j, d)); rewrite El; apply in_app_iff; right; left; reflexivity). subst j.
    destruct l2 as [|[j' d'] l2]; [contradiction|]. destruct (Fa (l1 ++ [(i, d)]) j' d' l2) as (_ & _ & _ & Hlt); [rewrite El, <- app_assoc; reflexivity|].
    rewrite spent_snoc in Hlt. rewrite (One _ _ _ El Hlt), (IH _ El) by discriminate. lra. }
  destruct (exists_last (stay_some _ _ _ _ _ _ _ _ _ St)) as (l0 & [j d] & El).
  assert (Hj : j = i) by (apply (Hi (j, d)); rewrite El; apply in_app_iff; right; left; reflexivity). subst j.
  pose proof (Gen l0 [(i, d)] El ltac:(discriminate)) as Hs. destruct (Fa l0 i d [] El) as (Hd & Hd0 & Hi0 & Hlt).
  pose proof (One l0 d [] El) as Hone. rewrite Hs in *. split; [|split; [|split]].
  - rewrite El, app_length, plus_INR. simpl. lra.
  - rewrite El, spent_snoc, app_length, plus_INR, Hs. simpl. intros X. rewrite (Hone X) in X. lra.
  - rewrite El, spent_snoc, app_length, plus_INR, Hs. simpl. intros He. pose proof (Rmin_l i (T - INR (length l0) * i)). lra.
  - intros l1 x d' [y e] l2 El'. assert (Hx : x = i) by (apply (Hi (x, d')); rewrite El'; apply in_app_iff; right; left; reflexivity). subst x.
    apply (One l1 d' ((y, e) :: l2) El'). destruct (Fa (l1 ++ [(i, d')]) y e l2) as (_ & _ & _ & X); [rewrite El', <- app_assoc; reflexivity|].
    rewrite spent_snoc in X. exact X.
Qed.
End Two.
End Stay.
