(** * Valid programs never hang, throw or run into undefined behaviour *)
From Coq Require Import ZArith List Bool Reals Lra Lia Permutation Relations.
From Verif Require Import Base BaseProofs Num RSum WalkerModel SiteModel SiteSpec SiteProofs ClusterModel ClusterSpec ClusterReal ClusterProofs ClusterFrame
  ClusterOps ClusterTables ClusterSome ClusterLive ContainerModel BasinModel BasinSpec BasinProofs CrossSpec CrossProofs SystemModel SystemSpec SystemShape SystemHop SystemCoarse SystemMerge
  SystemProofs SystemFacts SystemInit SystemControl ValidSpec SystemEffect SystemEquil Fuel SystemLive SystemGrow.
Import ListNotations.
Open Scope R_scope.

Section Total.
Context {I : Impl} {G : @Rng XR} {U : @Ugly XR}.
Variable clk : Z -> Z.
Variables (lo hi : R).
Hypothesis (Hlo : 0 < lo) (Hhi : hi < / dbl_min) (HF : @fair G).

Record living (T : Z) (g : @world XR G) (ws : list Z) : Prop := {
  i_alive : alive lo hi T g;
  i_rests : rests g;
  i_aims : aims g ws;
  i_loop : loopless g;
  i_named : forall k, place g k -> k <> unassignedId;
  i_perf : exists rho, g_perf g = Fin rho /\ 1 / 2 <= rho;
  i_res : forall t, g_res g = Some t -> exists r, t = Fin r /\ 0 < r;
  i_set : forall k, place g k -> g_res g <> None;
  i_iter : (0 <= g_iter g <= T)%Z;
  i_thr : (0 <= g_thr g)%Z;
  i_min : (0 <= g_thrmin g)%Z }.

Lemma chk_run z : in_int z = true -> chk z = Ok z.
Proof. intros E. unfold chk. rewrite E. reflexivity. Qed.

(** ** A hop *)
Lemma attempt_ends T g k : alive lo hi T g -> rests g -> fits (most_gain lo hi) T -> loopless g -> place g k ->
  (exists rho, g_perf g = Fin rho /\ 1 / 2 <= rho) -> (exists r, g_res g = Some (Fin r) /\ 0 < r) ->
  (0 <= g_iter g < T)%Z -> (0 <= g_thr g)%Z -> (T <= 2 ^ 30)%Z ->
  ends (fun f => hop_attempt clk f k) g (fun _ g' => alive lo hi T g' /\ rests g' /\ g_walkers g' = g_walkers g /\ ukeys (g_sites g') = ukeys (g_sites g) /\ loopless g' /\ forall a b, next_to g a b -> next_to g' a b).
Proof.
  intros A Rs Hf Ll Pk (rho & Ep & Hr) (tr & Er & Htr) Hi Ht HT. unfold hop_attempt.
  assert (Ei : in_int (g_iter g + 1) = true) by (apply in_int_iff; unfold INT_MIN, INT_MAX; lia).
  set (g1 := g_with_iter (g_iter g + 1) g).
  assert (St : still g g1) by (apply (still_same clk); reflexivity).
  assert (Sh1 : shape g1) by (destruct (a_shape _ _ _ _ A); constructor; assumption).
  assert (A1 : alive lo hi T g1).
  { apply (alive_still lo hi T g); [exact A|exact Sh1|exact St|reflexivity| |apply A]. intros j s E. exists s. split; [exact E|apply alike_refl]. }
  destruct (coarse_ends clk lo hi Hlo Hhi T g1 k rho tr A1 Rs Hf Ll Pk Ep Hr Er Htr) as (f & b & g2 & E & A2 & R2 & Y).
  assert (Keep : forall i (t : Z), let g3 := g_with_iter i (g_with_thr t g2) in alive lo hi T g3).
  { intros i t g3. assert (St3 : still g2 g3) by (apply (still_same clk); reflexivity).
    apply (alive_still lo hi T g2); [exact A2|destruct (a_shape _ _ _ _ A2); constructor; assumption|exact St3|reflexivity| |apply A2].
    intros j s Ej. exists s. split; [exact Ej|apply alike_refl]. }
  assert (L2 : loopless g2) by (apply (loopless_same g1); [apply Y|exact Ll]).
  assert (X2 : forall a b, next_to g1 a b -> next_to g2 a b) by (apply next_same; [apply (y_neigh _ _ Y)|apply (y_holds _ _ Y)]).
  exists f. cbv beta. unfold bind, gets, lift, modify, ret. rewrite chk_run by exact Ei. cbn [g_iter]. fold g1.
  destruct (g_thr g1 <? g_iter g + 1)%Z eqn:Lt.
  - assert (A1' : alive lo hi T (g_with_iter 0 g1)).
    { apply (alive_still lo hi T g1); [exact A1|destruct Sh1; constructor; assumption|apply (still_same clk); reflexivity|reflexivity| |apply A1].
      intros j s Ej. exists s. split; [exact Ej|apply alike_refl]. }
    destruct (negb (g_thrmin g1 =? inf_iterations)%Z) eqn:Em.
    + rewrite E. destruct b.
      * exists tt. eexists. split; [reflexivity|]. split; [apply Keep|]. split; [exact R2|]. split; [apply (y_walkers _ _ Y)|]. split; [apply (y_keys _ _ Y)|]. split; [exact L2|exact X2].
      * assert (Ei2 : in_int (g_thr g2 * 2) = true).
        { rewrite (y_thr _ _ Y). apply Z.ltb_lt in Lt. change (g_thr g1) with (g_thr g) in *. apply in_int_iff; unfold INT_MIN, INT_MAX. lia. }
        rewrite chk_run by exact Ei2. exists tt. eexists. split; [reflexivity|]. split; [apply Keep|]. split; [exact R2|]. split; [apply (y_walkers _ _ Y)|]. split; [apply (y_keys _ _ Y)|]. split; [exact L2|exact X2].
    + exists tt. eexists. split; [reflexivity|]. split; [exact A1'|]. split; [exact Rs|]. split; [reflexivity|]. split; [reflexivity|]. split; [exact Ll|auto].
  - exists tt. eexists. split; [reflexivity|]. split; [exact A1|]. split; [exact Rs|]. split; [reflexivity|]. split; [reflexivity|]. split; [exact Ll|auto].
Qed.

Lemma gain_pos T : fits (most_gain lo hi) T -> 0 <= most_gain lo hi.
Proof. intros X. apply X. Qed.

Lemma hop_ends T g ws id p : inv g ws -> living T g ws -> In p ws -> fits (most_gain lo hi) (T + 1) -> (T < 2 ^ 30)%Z ->
  ends (fun f => sys_hop clk f id p) g (fun _ g' => living (T + 1) g' ws).
Proof.
  intros V L Hp Hf HT. pose proof L as [A Rs Ai Ll Nm Pf Re Se It Th Mi]. pose proof (gain_pos _ Hf) as HM.
  destruct (Ai p Hp) as (w & Ew & Pd & _). destruct (v_on _ _ V p Hp) as (k & (w' & Ew' & <-) & Ps). assert (w' = w) by congruence. subst w'.
  assert (Hw : walker_on g p (w_cur w)) by (exists w; auto).
  pose proof (next_place lo hi T g _ _ A Pd) as Pd'. clear Pd. rename Pd' into Pd.
  destruct (move_live clk lo hi Hlo HF HM T g id p (w_cur w) (w_pot w) ws w A Rs Ai Ps Pd Ew eq_refl) as (g1 & E1 & A1 & R1 & Ai1).
  destruct (move_step clk _ _ _ _ _ _ _ V Hp Hw E1) as (V1 & D & _).
  assert (K : ukeys (g_sites g1) = ukeys (g_sites g)) by apply (same_keys _ _ _ (m_sites _ _ D)).
  pose proof (m_kept _ _ D) as Kp.
  assert (Pe : g_perf g1 = g_perf g) by (exact (k_perf _ _ Kp)). assert (Er : g_res g1 = g_res g) by (exact (k_res _ _ Kp)).
  assert (Ei : g_iter g1 = g_iter g) by (exact (k_iter _ _ Kp)). assert (Et : g_thr g1 = g_thr g) by (exact (k_thr _ _ Kp)).
  assert (L1 : loopless g1) by (apply (loopless_same g); [apply look_neigh, still_drift, D|exact Ll]).
  assert (exists r, g_res g1 = Some (Fin r) /\ 0 < r) as Hres.
  { rewrite Er. pose proof (Se _ Ps) as X. destruct (g_res g) as [t|]; [|contradiction]. destruct (Re t eq_refl) as (r & -> & Hr). eauto. }
  destruct (attempt_ends (T + 1) g1 (w_pot w) A1 R1 Hf L1) as (f & [] & g2 & E2 & A2 & R2 & W2 & K2 & L2 & X2).
  { unfold place. rewrite K. exact Pd. }
  { rewrite Pe. exact Pf. }
  { exact Hres. }
  { rewrite Ei. lia. }
  { rewrite Et. lia. }
  { lia. }
  assert (E : sys_hop clk f id p g = Ret tt g2).
  { unfold sys_hop, bind. rewrite (getSite_run p g w Ew (Nm _ Ps)), (ureplace_id _ _ _ Ew), eta_walkers.
    rewrite (getPot_run p g w Ew (Nm _ Pd)), (ureplace_id _ _ _ Ew), eta_walkers. rewrite E1. exact E2. }
  exists f, tt, g2. split; [exact E|].
  destruct (hop_kept clk _ _ _ _ _ _ V Hp E) as (_ & Kp2 & Kr2). destruct (hop_counts clk _ _ _ _ _ _ V Hp E) as (_ & Km & Kc).
  assert (K3 : ukeys (g_sites g2) = ukeys (g_sites g)) by congruence.
  constructor.
  - exact A2.
  - exact R2.
  - apply (aims_look g1); [intros q; rewrite W2; reflexivity|exact X2|exact Ai1].
  - exact L2.
  - intros x. unfold place. rewrite K3. apply Nm.
  - rewrite Kp2. exact Pf.
  - rewrite Kr2. exact Re.
  - intros x. unfold place. rewrite K3, Kr2. apply Se.
  - destruct Kc as [(_ & -> & _)|[(_ & _ & -> & _)|(_ & _ & -> & _)]]; lia.
  - destruct Kc as [(_ & _ & -> & _)|[(_ & _ & _ & -> & _)|(_ & _ & _ & [(-> & _)|(-> & _)])]]; lia.
  - rewrite Km. exact Mi.
Qed.

(** ** Registering sites *)
Lemma Rsum_perm {A} (f : A -> R) l l' : Permutation l l' -> Rsum f l = Rsum f l'.
Proof. induction 1; cbn [Rsum]; lra. Qed.
Lemma reads_perm h r r' (s : @site XR G) : Permutation r r' -> reads h r s -> reads h r' s.
Proof.
  intros P (R1 & R2 & R3 & R4 & R5 & R6 & R7). assert (Et : total_rate h r = total_rate h r') by (apply Rsum_perm, P).
  split.
  { intros n p. rewrite R1. split; intros (x & (a & Ha & Ex) & ->).
    - exists x. split; [exists a; split; [eapply Permutation_in; eauto|exact Ex]|]. rewrite Et. reflexivity.
    - exists x. split; [exists a; split; [eapply Permutation_in; [apply Permutation_sym|]; eauto|exact Ex]|]. rewrite Et. reflexivity. }
  rewrite <- Et. repeat (split; [assumption|]).
  intros n. rewrite R7. split; apply Permutation_in, Permutation_map; [exact P|apply Permutation_sym, P].
Qed.
Lemma keyed_ok h r k (s : @site XR G) : good_rates h r -> keyed h r k s -> site_ok h s.
Proof.
  intros Gr K. pose proof (keyed_neigh _ _ _ _ Gr K) as P. split.
  - destruct Gr as (Ne & ND & Po). split; [|split].
    + intros E. rewrite E in P. apply Permutation_nil in P. contradiction.
    + eapply Permutation_NoDup; [apply Permutation_map, Permutation_sym, P|exact ND].
    + intros n a Hin. apply (Po n a). eapply Permutation_in; eauto.
  - apply (reads_perm h r); [apply Permutation_sym, P|]. apply (keyed_reads h r k); assumption.
Qed.

Lemma init_living T rates g g' ws : inv g ws -> solid g' -> living T g ws -> NoDup (ukeys rates) ->
  mutual_map (g_heap g) rates -> paced_call (g_heap g) lo hi (KInit rates) ->
  sys_initializeSystem clk rates g = Ret tt g' -> living T g' ws.
Proof.
  intros V So' [A Rs Ai Ll Nm Pf Re Se It Th Mi] ND Mm Pc E. cbn [paced_call] in Pc.
  destruct (init_all clk _ _ _ _ V ND E) as (Z & A1 & _ & C).
  pose proof (inv_initSystem clk rates g g' ws V E) as V'. pose proof (h_nds _ _ _ (v_shape _ _ V')) as N2.
  assert (Cs : forall k s, ulookup k (g_sites g') = Some s ->
    (exists r, In (k, r) rates /\ keyed (g_heap g) r k s) \/ ulookup k (g_sites g) = Some s).
  { intros k s Es. destruct (in_dec Z.eq_dec k (ukeys rates)) as [X|X].
    - left. apply in_map_iff in X. destruct X as ([k' r] & E' & Hr). cbn [fst] in E'. subst k'. destruct (A1 k r Hr) as (_ & s' & Es' & Ks).
      assert (s' = s) by congruence. subst. eauto.
    - right. rewrite C in Es; [exact Es|]. intros Y. destruct (mutual_mentioned _ _ _ Mm Y) as [r Hr]. apply X. apply (in_map fst) in Hr. exact Hr. }
  assert (Old : forall k s, ulookup k (g_sites g) = Some s -> ulookup k (g_sites g') = Some s).
  { intros k s Es. rewrite C; [exact Es|]. intros X. destruct (mutual_mentioned _ _ _ Mm X) as [r Hr]. destruct (A1 k r Hr) as [Y _]. congruence. }
  assert (Pl : forall k, place g k -> place g' k).
  { intros k Hk. apply ukeys_In in Hk. destruct Hk as [s Es]. eapply ulookup_In_key. apply (Old _ _ Es). }
  assert (Nb : forall k s r, In (k, r) rates -> keyed (g_heap g) r k s -> forall n, In n (s_neighIds s) <-> In n (ukeys r)).
  { intros k s r Hr Ks n. pose proof (keyed_neigh _ _ _ _ (proj1 (Mm k r Hr)) Ks) as P. unfold s_neighIds.
    split; apply Permutation_in, Permutation_map; [exact P|apply Permutation_sym, P]. }
  destruct Z as [Zh Zr Zw Zc Zp Zt Zm Zi _].
  constructor; rewrite ?Zr, ?Zp, ?Zt, ?Zm, ?Zi; try assumption.
  - constructor; rewrite ?Zh, ?Zc.
    + apply V'.
    + exact So'.
    + intros k s Es. destruct (Cs k s Es) as [(r & Hr & Ks)|Es0].
      * destruct (Pc k r Hr) as (_ & _ & P1 & P2). destruct (Mm k r Hr) as [Gr Back].
        pose proof (keyed_neigh _ _ _ _ Gr Ks) as P. split; [apply (keyed_ok _ r k); assumption|]. split.
        -- split.
           ++ intros [n a] Hn. apply (P1 n a). eapply Permutation_in; eauto.
           ++ unfold total_rate. rewrite (Rsum_perm _ _ _ P). exact P2.
        -- intros n Hn. apply (Nb k s r Hr Ks) in Hn. destruct (Back n Hn) as (r' & Hr' & _). destruct (A1 n r' Hr') as (_ & s' & Es' & _).
           eapply ulookup_In_key; exact Es'.
      * destruct (a_site _ _ _ _ A k s Es0) as (X & Y & W). auto.
    + intros c cl Ec. destruct (a_cl _ _ _ _ A c cl Ec) as (X & Y). split; [eapply homely_more; eauto | exact Y].
  - intros c cl Ec. rewrite Zc in Ec. eapply Rs; exact Ec.
  - apply (aims_look g); [intros p; rewrite Zw; reflexivity| |exact Ai].
    assert (Tc : forall i n, touch g i n -> touch g' i n) by (intros i n (s & Es & Hn); exists s; auto).
    assert (Hd : forall c i, holds g c i -> holds g' c i).
    { intros c i (m & cl & Ec & Em). exists m, cl. rewrite Zc. auto. }
    intros k n [X|(c & i & Hk & Hi & X)]; [left; auto|right]. exists c, i. split; [auto|]. split; [auto|]. destruct X; auto.
  - intros k s Es. destruct (Cs k s Es) as [(r & Hr & Ks)|Es0]; [|apply (Ll k s Es0)].
    rewrite (Nb k s r Hr Ks). apply (Pc k r Hr).
  - intros k Hk. apply ukeys_In in Hk. destruct Hk as [s Es]. destruct (Cs k s Es) as [(r & Hr & _)|Es0]; [apply (Pc k r Hr)|].
    apply Nm. eapply ulookup_In_key; exact Es0.
  - intros k _ X. unfold sys_initializeSystem, bind, gets in E. rewrite X in E. discriminate.
Qed.

(** ** Walkers enter *)
Lemma enter_all T l : 0 <= most_gain lo hi -> forall g g' ws, alive lo hi T g -> rests g -> aims g ws -> NoDup (map snd l) -> (forall p, In p (map snd l) -> ~ In p ws) ->
  (forall p w, In p (map snd l) -> ulookup p (g_walkers g) = Some w -> forall s, ulookup (w_cur w) (g_sites g) = Some s -> s_cluster s = unassignedId) ->
  mfor l (fun w => init_walker (fst w) (snd w)) g = Ret tt g' ->
  alive lo hi T g' /\ rests g' /\ aims g' (map snd l ++ ws).
Proof.
  intros HM. induction l as [|[id p] l IH]; intros g g' ws A Rs Ai ND Nw Un E.
  - cbn [mfor] in E. injection E as <-. auto.
  - cbn [mfor fst snd map] in *. apply bind_ret_inv in E. destruct E as ([] & g1 & E1 & E).
    destruct (init_walker_put _ _ _ _ E1) as ([P1 P2] & w & Ew & Nu & Hf).
    apply umem_lookup in Hf. destruct Hf as [x Hx]. rewrite (h_feat _ _ _ (a_shape _ _ _ _ A)) in Hx.
    destruct (ulookup (w_cur w) (g_sites g)) as [s|] eqn:Es; [|discriminate].
    assert (Eu : s_cluster s = unassignedId) by (apply (Un p w (or_introl eq_refl) Ew s Es)).
    destruct (enter_live clk lo hi Hlo HF HM T g id p w s ws A Rs Ai Ew (Nw p (or_introl eq_refl)) Nu Es Eu) as (g1' & E1' & A1 & R1 & Ai1).
    assert (g1' = g1) by congruence. subst g1'. inversion ND as [|? ? Np ND']; subst.
    destruct (IH g1 g' (p :: ws) A1 R1 Ai1 ND') as (A2 & R2 & Ai2).
    + intros q Hq [<-|Hq']; [contradiction|]. apply (Nw q (or_intror Hq) Hq').
    + intros q y Hq Ey sy Esy. specialize (P2 q). rewrite Ey in P2. destruct (ulookup q (g_walkers g)) as [y0|] eqn:Ey0; [|discriminate]. injection P2 as P2.
      pose proof (h_feat _ _ _ (a_shape _ _ _ _ A1) (w_cur y)) as F1. rewrite Esy, P1 in F1.
      rewrite (h_feat _ _ _ (a_shape _ _ _ _ A)) in F1. destruct (ulookup (w_cur y) (g_sites g)) as [s0|] eqn:Es0; [|discriminate].
      rewrite P2 in Es0. rewrite (Un q y0 (or_intror Hq) Ey0 s0 Es0) in F1.
      destruct (Z.eqb_spec (s_cluster sy) unassignedId); [assumption|]. cbn in F1. discriminate.
    + exact E.
    + split; [exact A2|]. split; [exact R2|]. intros q Hq. apply Ai2. rewrite in_app_iff in *. cbn [In] in *. tauto.
Qed.

(** ** Reading the visits of a site *)
Lemma visits_run T g ws k : inv g ws -> alive lo hi T g -> rests g -> fits (most_gain lo hi) T -> place g k ->
  exists v g', sys_getVisits k g = Ret v g' /\ alive lo hi T g' /\ rests g' /\ g_walkers g' = g_walkers g.
Proof.
  intros V A Rs Hf Pk. apply ukeys_In in Pk. destruct Pk as [s Es].
  assert (Mk : umem k (g_sites g) = true) by (unfold umem; rewrite Es; reflexivity).
  assert (Ep : in_sites (sc_partOfCluster k) g = Ret (s_partOfCluster s) g) by (apply (sites_run k (fun s => Ok (s_partOfCluster s)) _ s g Es eq_refl)).
  assert (Ei : in_sites (sc_getClusterId k) g = Ret (s_cluster s) g) by (apply (sites_run k (fun s => Ok (s_getClusterId s)) _ s g Es eq_refl)).
  destruct (Z.eqb_spec (s_cluster s) unassignedId) as [Eu|Nu].
  - exists (s_getVisitFrequency s), g. split; [|auto]. unfold sys_getVisits, bind, gets. rewrite Mk, (site_run k s g Es), Ep.
    unfold s_partOfCluster. rewrite Eu. reflexivity.
  - destruct (o_label _ (a_solid _ _ _ _ A) k s Es Nu) as (x & cl & Ec & Em). destruct (a_cl _ _ _ _ A _ cl Ec) as (Ho & Lv).
    destruct (visits_live lo hi (near cl) T cl k Hf Lv) as (z & cl' & Ev & Lv' & Esites & Erem & _); [eapply ulookup_In_key; exact Em|].
    set (g' := g_with_clusters (ureplace (s_cluster s) cl' (g_clusters g)) g).
    assert (E : sys_getVisits k g = Ret (s_getVisitFrequency s + z)%Z g').
    { unfold sys_getVisits, bind, gets. rewrite Mk, (site_run k s g Es), Ep. assert (Hc : s_partOfCluster s = true).
      { unfold s_partOfCluster. destruct (proj2 (h_site _ _ _ (a_shape _ _ _ _ A) k s Es)) as [X|X]; [contradiction|]. apply Z.gtb_lt. lia. }
      rewrite Hc, Ei. unfold in_clusters, zoom, at_key. rewrite Ec, Ev. reflexivity. }
    exists (s_getVisitFrequency s + z)%Z, g'. split; [exact E|].
    assert (St : step clk g ws (KVisits k) g' ws) by (eapply st_visits; exact E).
    assert (Look : forall c y, ulookup c (g_clusters g') = Some y -> (c = s_cluster s /\ y = cl') \/ ulookup c (g_clusters g) = Some y).
    { intros c y Ey. cbn [g_clusters g_with_clusters g'] in Ey. rewrite (SystemShape.ureplace_lookup_some _ _ _ cl) in Ey by exact Ec.
      destruct (Z.eqb_spec c (s_cluster s)) as [->|]; [left; split; congruence | right; exact Ey]. }
    split; [|split; [|reflexivity]].
    + apply (alive_still lo hi T g); [exact A|apply (step_inv clk _ _ _ _ _ V St)|eapply step_still; eauto|reflexivity| |].
      * intros j y Ej. exists y. split; [exact Ej|apply alike_refl].
      * intros c y Ey. destruct (Look c y Ey) as [(-> & ->)|Ey']; [|apply (a_cl _ _ _ _ A c y Ey')]. split; [|apply (lively_more lo hi (near cl)); [apply near_sites, Esites|exact Lv']].
        destruct Ho as [Ho1 Ho2]. constructor; rewrite Esites; assumption.
    + intros c y Ey. destruct (Look c y Ey) as [(-> & ->)|Ey']; [|apply (Rs c y Ey')]. unfold rested. rewrite Erem. apply (Rs _ cl Ec).
Qed.

(** ** Every call *)
Lemma fits_less M T T' : (0 <= T <= T')%Z -> fits M T' -> fits M T.
Proof.
  intros HT (A & B & C). split; [exact A|]. split; [lia|]. apply Rle_trans with (IZR T' * (M + 1)); [|exact C].
  apply Rmult_le_compat_r; [lra|]. apply IZR_le. lia.
Qed.
Lemma alive_config T g g' : alive lo hi T g -> shape g' -> g_heap g' = g_heap g -> g_sites g' = g_sites g -> g_clusters g' = g_clusters g -> alive lo hi T g'.
Proof.
  intros A Sh Eh Es Ec. apply (alive_still lo hi T g); [exact A|exact Sh|apply (still_same clk); assumption|rewrite Es; reflexivity| |rewrite Ec; apply A].
  rewrite Es. intros j s E. exists s. split; [exact E|apply alike_refl].
Qed.

Lemma step_living T g ws c g' ws' : inv g ws -> living T g ws -> step clk g ws c g' ws' -> solid g' ->
  valid_call (g_heap g) c -> paced_call (g_heap g) lo hi c -> fits (most_gain lo hi) (T + hops [c]) -> (T + hops [c] <= 2 ^ 30)%Z ->
  living (T + hops [c]) g' ws'.
Proof.
  intros V L S So' Vc Pc Hf HT. pose proof S as S0. pose proof (step_inv clk _ _ _ _ _ V S) as V'. pose proof (gain_pos _ Hf) as HM.
  pose proof L as [A Rs Ai Ll Nm Pf Re Se It Th Mi].
  assert (T0 : (0 <= T)%Z) by lia.
  assert (Quiet : is_hop c = false -> hops [c] = 0%Z) by (unfold hops; cbn [filter]; intros ->; reflexivity).
  destruct (is_hop c) eqn:Eh.
  { destruct c; try discriminate. apply step_hop in S. destruct S as (fuel & id & Hp & -> & E).
    change (hops [KHop p]) with 1%Z in *.
    destruct (hop_ends T g ws id p V L Hp Hf ltac:(lia)) as (f & [] & g2 & E2 & L2).
    destruct (lasting_same (fun f => sys_hop clk f id p) _ _ _ _ _ _ _ (hop_lasting clk id p) E2 E) as [_ ->]. exact L2. }
  rewrite (Quiet eq_refl), Z.add_0_r in *. clear Quiet.
  destruct S as [p g' E|t g' E|t g' E|s g' E|rates g' ND _ E|h|m Hm Lk|n t Hn|l g' H1 H2 H3 H4 H5 E|fuel id p g' Hp E|id p g' Hp E|k v g' E]; try discriminate Eh.
  - injection E as <-. constructor; try assumption. apply (alive_config T g); try reflexivity; [exact A|apply V'].
  - unfold sys_setTimeResolution in E. destruct (nleb t n0) eqn:Et; [discriminate|]. injection E as <-. constructor; try assumption.
    + apply (alive_config T g); try reflexivity; [exact A|apply V'].
    + cbn [g_res g_with_res]. intros t' E'. injection E' as <-. destruct Vc as [r ->]. exists r. split; [reflexivity|].
      unfold n0 in Et. cbn [nleb XR nofZ] in Et. destruct (Rlt_dec 0 r) as [|X]; [assumption|]. exfalso.
      assert (xleb (Fin r) (Fin 0) = true); [|congruence]. unfold xleb. destruct (Req_dec r 0) as [->|Y].
      * apply orb_true_iff. right. cbn. unfold Reqb. destruct (Req_EM_T 0 0); [reflexivity|lra].
      * apply orb_true_iff. left. cbn. unfold Rltb. destruct (Rlt_dec r 0); [reflexivity|lra].
    + cbn [g_res g_with_res]. discriminate.
  - injection E as <-. constructor; try assumption. apply (alive_config T g); try reflexivity; [exact A|apply V'].
  - unfold sys_setRandomSeed in E. apply bind_ret_inv in E. destruct E as (f & g1 & E1 & E). injection E1 as <- <-.
    destruct (g_feats g) eqn:Ef; [|discriminate]. injection E as <-. constructor; try assumption. apply (alive_config T g); try reflexivity; [exact A|apply V'].
  - apply (init_living T rates g); assumption.
  - destruct Vc.
  - constructor; try assumption.
    + apply (alive_walkers clk). exact A.
    + intros q Hq. destruct (Ai q Hq) as (w & Ew & Pw). exists w. cbn [g_walkers g_with_walkers]. rewrite (Lk q Hq). auto.
  - constructor; try assumption. apply (alive_config T g); try reflexivity; [exact A|apply V'].
  - pose proof (enter_drift clk _ _ _ _ _ V S0) as D. pose proof (m_kept _ _ D) as Kp.
    assert (K : ukeys (g_sites g') = ukeys (g_sites g)) by apply (same_keys _ _ _ (m_sites _ _ D)).
    destruct (step_settings clk _ _ _ _ _ V S0) as (_ & Ep & Er).
    pose proof (drift_counters _ _ D) as C. injection C as C1 C2 C3.
    unfold sys_initializeWalkers in E. apply bind_ret_inv in E. destruct E as (f & g1 & E1 & E). injection E1 as <- <-.
    destruct (g_feats g) eqn:Ef; [discriminate|].
    destruct (enter_all T l HM g g' ws A Rs Ai H1 H2) as (A2 & R2 & Ai2); [|exact E|].
    { intros q w Hq Ew s Es. destruct (H5 q (w_cur w) Hq (ex_intro _ w (conj Ew eq_refl))) as [x X].
      apply (sites_read (w_cur w) (fun s => Ok (s_getClusterId s))) in X. destruct X as (_ & s' & Es' & X). assert (s' = s) by congruence. subst. injection X as X. exact X. }
    constructor; rewrite ?Ep, ?Er, ?C1, ?C2, ?C3; try assumption.
    + apply (loopless_same g); [apply look_neigh, still_drift, D|exact Ll].
    + intros x. unfold place. rewrite K. apply Nm.
    + intros x. unfold place. rewrite K. apply Se.
  - destruct (Ai p Hp) as (w & Ew & Pd & _). destruct (v_on _ _ V p Hp) as (k & (w' & Ew' & <-) & Ps). assert (w' = w) by congruence. subst w'.
    destruct (leave_live clk lo hi Hlo HM T g id p w ws A Rs Ai Ew Ps (Nm _ Ps)) as (g2 & E2 & A2 & R2 & Ai2).
    assert (g2 = g') by congruence. subst g2.
    destruct (step_settings clk _ _ _ _ _ V S0) as (_ & Ep & Er).
    pose proof (step_still clk _ _ _ _ _ V S0 eq_refl eq_refl eq_refl) as St.
    destruct (quiet_step clk _ _ _ _ _ V S0 eq_refl eq_refl) as (C & _). injection C as C1 C2 C3.
    assert (Pl : forall x, place g' x -> place g x).
    { intros x Hx. apply ukeys_In in Hx. destruct Hx as [s Es]. pose proof (l_look _ _ St x) as X. rewrite Es in X.
      destruct (ulookup x (g_sites g)) as [s0|] eqn:Es0; [|discriminate]. eapply ulookup_In_key; exact Es0. }
    constructor; rewrite ?Ep, ?Er, ?C1, ?C2, ?C3; try assumption.
    + intros q Hq. apply in_remove in Hq. apply Ai2, Hq.
    + apply (loopless_same g); [apply look_neigh, St|exact Ll].
    + intros x Hx. apply Nm, Pl, Hx.
    + intros x Hx. apply (Se x), Pl, Hx.
  - pose proof (visits_kept _ _ _ _ E) as (_ & Ep & Er & Es). 
    destruct (quiet_step clk _ _ _ _ _ V S0 eq_refl eq_refl) as (C & _). injection C as C1 C2 C3.
    assert (Pk : place g k).
    { unfold sys_getVisits, bind, gets in E. destruct (umem k (g_sites g)) eqn:Mk; [|discriminate]. apply umem_In, Mk. }
    destruct (visits_run T g ws k V A Rs Hf Pk) as (v2 & g2 & E2 & A2 & R2 & W2). assert (g2 = g') by congruence. subst g2.
    constructor; rewrite ?Ep, ?Er, ?C1, ?C2, ?C3; try assumption.
    + apply (aims_look g); [intros q; rewrite W2; reflexivity|apply next_still, (step_still clk _ _ _ _ _ V S0 eq_refl eq_refl eq_refl)|exact Ai].
    + intros x s Ex. rewrite Es in Ex. apply (Ll x s Ex).
    + intros x. unfold place. rewrite Es. apply Nm.
    + intros x. unfold place. rewrite Es. apply Se.
Qed.

Lemma hops_nonneg (tr : list (@call XR)) : (0 <= hops tr)%Z.
Proof. unfold hops. lia. Qed.
Lemma living_reach tr (g : @world XR G) ws : reach_by clk tr g ws -> Forall (valid_call (g_heap g)) tr -> Forall (paced_call (g_heap g) lo hi) tr ->
  fits (most_gain lo hi) (hops tr) -> (hops tr <= 2 ^ 30)%Z -> living (hops tr) g ws.
Proof.
  intros (m & h & count & tick & ND & Hc & S).
  assert (V0 : inv (world_new m h count tick) []).
  { apply (reach_inv clk). exists [], m, h, count, tick. split; [exact ND|]. split; [exact Hc|constructor]. }
  induction S as [|tr g1 ws1 c g2 ws2 S IH St]; intros Fv Fp Hf HT.
  - assert (So : solid (world_new m h count tick)).
    { apply (valid_solid clk [] _ []); [|constructor]. exists m, h, count, tick. split; [exact ND|]. split; [exact Hc|constructor]. }
    constructor.
    + constructor; [apply V0|exact So|intros k s X; discriminate|intros c cl X; discriminate].
    + intros c cl X; discriminate.
    + intros p [].
    + intros k s X; discriminate.
    + intros k [].
    + exists 1. split; [reflexivity|lra].
    + discriminate.
    + intros k [].
    + cbn. lia.
    + cbn. lia.
    + cbn. lia.
  - pose proof (steps_inv clk _ _ _ _ _ V0 S) as V1. rewrite hops_app in *. pose proof (hops_nonneg tr). pose proof (hops_nonneg [c]).
    assert (So2 : solid g2).
    { apply (valid_solid clk (tr ++ [c]) _ ws2); [|exact Fv]. exists m, h, count, tick. split; [exact ND|]. split; [exact Hc|]. eapply sts_step; eauto. }
    apply Forall_app in Fv, Fp. destruct Fv as [Fv Fvc], Fp as [Fp Fpc]. inversion Fvc as [|? ? Hv _]; subst. inversion Fpc as [|? ? Hp _]; subst.
    destruct (step_settings clk _ _ _ _ _ V1 St) as ([->|Kh] & _); [destruct Hv|]. rewrite Kh in *.
    assert (L1 : living (hops tr) g1 ws1) by (apply IH; try assumption; [apply (fits_less _ _ (hops tr + hops [c])); [lia|exact Hf]|lia]).
    apply (step_living (hops tr) g1 ws1); try assumption.
Qed.
End Total.
