(** * Walkers on sites without outgoing rates *)
From Coq Require Import ZArith List Bool Lia Permutation Relations Operators_Properties.
From Verif Require Import Base BaseProofs Num WalkerModel SiteModel ClusterModel ClusterFrame ContainerModel BasinModel BasinProofs
  SystemModel SystemSpec SystemShape SystemHop SystemCoarse SystemMerge SystemProofs SystemFacts SystemControl SystemInit SystemEffect DrainSpec.
Import ListNotations.
Open Scope Z_scope.

Section Drain.
Context {I : Impl} {N : Num} {G : Rng} {U : Ugly}.
Variable (clk : Z -> Z).
Implicit Types (g : world) (ws : list Z).

(** a site that picks nothing *)
Definition bare g k : Prop := exists s, ulookup k (g_sites g) = Some s /\ s_prob s = [] /\ s_neigh s = [].
Definition unlabelled g k : Prop := exists s, ulookup k (g_sites g) = Some s /\ s_cluster s = unassignedId.

Lemma bare_drift g g' k : drift g g' -> bare g k -> bare g' k.
Proof.
  intros D (s & Es & Ep & Et). destruct (calm_site _ _ k s D) as (s' & Es' & F); [exact Es|].
  destruct (frz_s_eq _ _ F) as (_ & _ & _ & Et' & Ep'). exists s'. split; [exact Es'|]. rewrite Ep', Et'. auto.
Qed.
Lemma unlabelled_drift g g' k : drift g g' -> unlabelled g k -> unlabelled g' k.
Proof.
  intros D (s & Es & Eu). destruct (calm_site _ _ k s D) as (s' & Es' & F); [exact Es|].
  destruct (frz_s_eq _ _ F) as (_ & Eu' & _). exists s'. split; [exact Es'|]. rewrite Eu'. auto.
Qed.
Lemma unlabelled_back g g' k : drift g g' -> unlabelled g' k -> unlabelled g k.
Proof.
  intros D (s & Es & Eu). destruct (calm_site _ _ k s (calm_sym _ _ D) Es) as (s' & Es' & F).
  destruct (frz_s_eq _ _ F) as (_ & Eu' & _). exists s'. split; [exact Es'|]. rewrite Eu'. auto.
Qed.

Lemma pick_bare k id g n g' : shape g -> bare g k -> unlabelled g k -> f_pick k id g = Ret n g' -> n = -1.
Proof.
  intros Sh (s & Es & Ep & _) (s' & Es' & Eu) E. assert (s' = s) by congruence. subst s'.
  unfold f_pick, on_feature in E. apply bind_ret_inv in E. destruct E as (f & g1 & E1 & E). inversion E1; subst f g1; clear E1.
  rewrite (h_feat _ _ _ Sh k), Es, Eu, Z.eqb_refl in E. apply in_sites_ret in E. destruct E as (m & E & _).
  apply at_key_ret in E. destruct E as [(X & _)|(v & v' & Ev & Em & _)]; [congruence|]. assert (v = s) by congruence. subst v.
  unfold s_pick, s_draw, bind, gets, ret in Em. destruct (edraw (s_rng s)). cbn [s_prob s_with_rng] in Em. rewrite Ep in Em.
  inversion Em. reflexivity.
Qed.
Lemma dwell_calm k id g t g' : shape g -> f_getDwellTime k id g = Ret t g' -> calm g g'.
Proof.
  intros Sh E. eapply (feature_calm k); [| |exact Sh|exact E].
  - intros s a s' X. apply dwell_s in X. rewrite X. reflexivity.
  - intros c a c' _ X. apply (rr_frz c c'), (rrs_dwell _ _ _ _ X).
Qed.
Lemma pick_calm k id g t g' : shape g -> f_pick k id g = Ret t g' -> calm g g'.
Proof.
  intros Sh E. eapply (feature_calm k); [| |exact Sh|exact E].
  - intros s a s' X. apply pick_s in X. rewrite X. reflexivity.
  - intros c a c' _ X. apply (rr_frz c c'), (rrs_pick _ _ _ _ X).
Qed.
Lemma finish_bare id p k g g' : shape g -> bare g k -> unlabelled g k ->
  (t <- f_getDwellTime k id ;; in_walker p (w_setDwellTime t) ;; n <- f_pick k id ;; in_walker p (w_setPotentialSite n)) g = Ret tt g' ->
  walker_to g' p (-1).
Proof.
  intros Sh B Hu E.
  apply bind_ret_inv in E. destruct E as (t & g1 & E1 & E). pose proof (dwell_calm _ _ _ _ _ Sh E1) as C1.
  apply bind_ret_inv in E. destruct E as (u & g2 & E2 & E). apply walker_set in E2. destruct E2 as (w & Ew & Eg2 & _ & _).
  assert (D2 : drift g g2) by (apply (drift_trans _ g1); [apply calm_drift, C1|rewrite Eg2; apply drift_walkers]).
  apply bind_ret_inv in E. destruct E as (n & g3 & E3 & E).
  apply pick_bare in E3; [|apply (drift_shape clk _ _ D2 Sh)|apply (bare_drift _ _ _ D2 B)|apply (unlabelled_drift _ _ _ D2 Hu)].
  subst n. apply walker_set in E. destruct E as (w' & _ & _ & _ & L4).
  eexists. rewrite L4, Z.eqb_refl. split; reflexivity.
Qed.
Lemma move_bare id p src dst g g' ws : inv g ws -> In p ws -> walker_on g p src -> hop_move clk id p src dst g = Ret tt g' ->
  let fin := if here g ws dst then src else dst in bare g fin -> unlabelled g fin -> walker_to g' p (-1).
Proof.
  intros V Hp Hw E fin Hb Hu. pose proof V as [Sh O NDw ND On Ex].
  unfold hop_move in E. apply bind_ret_inv in E. destruct E as (b & g0 & E0 & E).
  destruct (occupied_step _ _ _ _ _ Sh E0 O) as (-> & Kd & Eb).
  assert (Hs : here g ws src = true) by (apply here_true; eauto).
  assert (Eb' : b = here g ws dst) by (rewrite Eb; destruct (here g ws dst); reflexivity). clear Eb.
  assert (Main : forall k, k = fin -> (k = src \/ here g ws k = false) -> forall w, 
     (f_vacate clk src src ;; f_occupy k k ;;
      in_walker p (modify (fun x => w x)) ;;
      t <- f_getDwellTime k id ;; in_walker p (w_setDwellTime t) ;; n <- f_pick k id ;; in_walker p (w_setPotentialSite n)) g = Ret tt g' ->
     walker_to g' p (-1)).
  { clear E E0 Eb' b Kd. intros k Ek Hk w E.
    apply bind_ret_inv in E. destruct E as ([] & g1 & E1 & E).
    destruct (vacate_step clk _ _ _ _ Sh E1 O) as (C1 & O1 & V1 & Ks).
    assert (Sh1 : shape g1) by apply (calm_shape clk _ _ C1 Sh).
    apply bind_ret_inv in E. destruct E as ([] & g2 & E2 & E).
    assert (Zk : (fun j => if j =? src then Z.b2z (here g ws src) - 1 else Z.b2z (here g ws j)) k = 0).
    { cbn beta. destruct (Z.eqb_spec k src) as [->|Ne]; [rewrite Hs; reflexivity|]. destruct Hk as [|X0]; [congruence|rewrite X0; reflexivity]. }
    destruct (occupy_step _ _ _ _ Sh1 E2 O1 Zk) as (C2 & O2 & V2 & Kk).
    apply bind_ret_inv in E. destruct E as (u & g3 & E3 & E). apply walker_set in E3. destruct E3 as (w3 & _ & Eg3 & _ & _).
    assert (D3 : drift g g3).
    { apply (drift_trans _ g1); [apply calm_drift, C1|]. apply (drift_trans _ g2); [apply calm_drift, C2|]. rewrite Eg3; apply drift_walkers. }
    rewrite Ek in *. apply (finish_bare id p fin g3 g'); [apply (drift_shape clk _ _ D3 Sh)|apply (bare_drift _ _ _ D3 Hb)|apply (unlabelled_drift _ _ _ D3 Hu)|exact E]. }
  subst b. destruct (here g ws dst) eqn:Hd.
  - apply (Main src eq_refl (or_introl eq_refl) (fun w => w)).
    apply bind_ret_inv in E. destruct E as ([] & g1 & E1 & E). apply bind_ret_inv in E. destruct E as ([] & g2 & E2 & E).
    unfold bind at 1. rewrite E1. unfold bind at 1. rewrite E2. unfold bind at 1.
    assert (X : in_walker p (modify (fun x : walker => x)) g2 = Ret tt g2).
    { destruct (vacate_step clk _ _ _ _ Sh E1 O) as (C1 & O1 & _). assert (Sh1 : shape g1) by apply (calm_shape clk _ _ C1 Sh).
      assert (Zk : (fun j => if j =? src then Z.b2z (here g ws src) - 1 else Z.b2z (here g ws j)) src = 0) by (cbn beta; rewrite Z.eqb_refl, Hs; reflexivity).
      destruct (occupy_step _ _ _ _ Sh1 E2 O1 Zk) as (C2 & _).
      destruct Hw as (w & Ew & _). rewrite <- (k_walkers _ _ (m_kept _ _ C1)), <- (k_walkers _ _ (m_kept _ _ C2)) in Ew.
      unfold in_walker, zoom, at_key. rewrite Ew. cbn. rewrite ureplace_id by exact Ew. f_equal. destruct g2; reflexivity. }
    rewrite X. exact E.
  - apply (Main dst eq_refl (or_intror Hd) (fun x => mkWalker dst (w_pot x) (w_dwell x))). exact E.
Qed.
Lemma hop_bare fuel id p k g g' ws : inv g ws -> In p ws -> sys_hop clk fuel id p g = Ret tt g' -> walker_on g' p k -> bare g k -> unlabelled g' k ->
  walker_to g' p (-1).
Proof.
  intros V Hp E Hk Hb Hu. destruct (hop_on clk _ _ _ _ _ E) as (src & dst & Hs & Hd).
  destruct (hop_facts clk _ _ _ _ _ _ _ _ V Hp Hs Hd E) as (Hf & _ & Hl).
  destruct (hop_inv clk _ _ _ _ _ E) as (w & g1 & Ew & _ & _ & Em & Ea).
  destruct Hs as (w1 & Ew1 & E1). destruct Hd as (w2 & Ew2 & E2). assert (w1 = w) by congruence. assert (w2 = w) by congruence. subst w1 w2.
  rewrite E1, E2 in Em. pose proof (walker_on_fun _ _ _ _ Hf Hk) as Ek.
  destruct (move_step clk _ _ _ _ _ _ _ V Hp (ex_intro _ w (conj Ew E1)) Em) as (V1 & D1 & _).
  destruct (attempt_step clk _ _ _ _ _ V1 Ea) as (_ & Gr). pose proof (grain_walkers _ _ _ _ Gr) as Wg.
  destruct Hu as (s' & Es' & Eu). destruct (Hl k s' Es' Eu) as (s & Es & Eu0 & _).
  assert (X : walker_to g1 p (-1)).
  { apply (move_bare id p src dst g g1 ws V Hp (ex_intro _ w (conj Ew E1)) Em); cbn zeta; rewrite Ek; [exact Hb|exists s; auto]. }
  destruct X as (w' & Ew' & Ep'). exists w'. rewrite Wg. auto.
Qed.
Lemma enter_bare id p g g' ws k : inv g ws -> ~ In p ws -> walker_on g p k -> here g ws k = false ->
  cluster_of g k unassignedId -> bare g k -> init_walker id p g = Ret tt g' -> walker_to g' p (-1).
Proof.
  intros V Np Hw Nh Hc Hb E. pose proof V as [Sh O NDw ND On Ex]. unfold init_walker in E.
  apply bind_ret_inv in E. destruct E as (a & g1 & E1 & E). apply getSite_ret in E1. destruct E1 as (-> & _ & w & Ew & Ea).
  assert (Eak : a = k) by (destruct Hw as (w' & Ew' & <-); congruence). rewrite Eak in *. clear Eak a.
  apply bind_ret_inv in E. destruct E as (f & g1 & E1 & E). inversion E1; subst f g1; clear E1.
  destruct (umem k (g_feats g)); [|discriminate].
  apply cluster_of_iff in Hc. destruct Hc as (s & Es & Hu).
  apply bind_ret_inv in E. destruct E as ([] & g1 & E1 & E).
  assert (Zk : (fun j => Z.b2z (here g ws j)) k = 0) by (cbn beta; rewrite Nh; reflexivity).
  destruct (occupy0_step _ _ _ _ _ Sh E1 O Zk Es Hu) as (C1 & _).
  assert (Sh1 : shape g1) by apply (calm_shape clk _ _ C1 Sh).
  apply bind_ret_inv in E. destruct E as (t & g2 & E2 & E). pose proof (dwell_calm _ _ _ _ _ Sh1 E2) as C2.
  assert (D : drift g g2) by (apply calm_drift; eapply calm_trans; eauto).
  apply bind_ret_inv in E. destruct E as (n & g3 & E3 & E).
  apply pick_bare in E3; [|apply (drift_shape clk _ _ D Sh)|apply (bare_drift _ _ _ D Hb)|apply (unlabelled_drift _ _ _ D); exists s; auto]. subst n.
  apply bind_ret_inv in E. destruct E as (u & g4 & E4 & E). apply walker_set in E. destruct E as (w5 & _ & _ & _ & L5).
  eexists. rewrite L5, Z.eqb_refl. split; reflexivity.
Qed.
Lemma enter_others id p g g' ws k q : inv g ws -> ~ In p ws -> walker_on g p k -> here g ws k = false ->
  cluster_of g k unassignedId -> init_walker id p g = Ret tt g' -> q <> p -> ulookup q (g_walkers g') = ulookup q (g_walkers g).
Proof. intros V Np Hw Nh Hc E Nq. destruct (enter_step clk id p g g' ws k) as (_ & _ & L & _); auto. Qed.

(** walkers of a list enter; the others are not touched *)
Lemma enter_list l : forall g g' ws, inv g ws ->
  NoDup (map snd l) -> (forall p, In p (map snd l) -> ~ In p ws) ->
  (forall p q k, In p (map snd l) -> In q (map snd l) -> walker_on g p k -> walker_on g q k -> p = q) ->
  (forall p q k, In p (map snd l) -> In q ws -> walker_on g p k -> ~ walker_on g q k) ->
  (forall p k, In p (map snd l) -> walker_on g p k -> cluster_of g k unassignedId) ->
  mfor l (fun w => init_walker (fst w) (snd w)) g = Ret tt g' ->
  (forall q, ~ In q (map snd l) -> ulookup q (g_walkers g') = ulookup q (g_walkers g)) /\
  (forall p k, In p (map snd l) -> walker_on g' p k -> walker_on g p k /\ (bare g k -> walker_to g' p (-1))).
Proof.
  induction l as [|[id p] l IH]; intros g g' ws V ND Nw Dl Dw Cu E; cbn [mfor map snd fst] in *; [inversion E; subst; split; [auto|intros ? ? []]|].
  apply bind_ret_inv in E. destruct E as ([] & g1 & E1 & E). inversion ND as [|? ? Np ND']; subst.
  assert (Hw : exists k, walker_on g p k).
  { unfold init_walker in E1. apply bind_ret_inv in E1. destruct E1 as (k & g2 & E1 & _). apply getSite_ret in E1.
    destruct E1 as (_ & _ & w & Ew & Ec). exists k, w. auto. }
  destruct Hw as [k Hw].
  assert (Npw : ~ In p ws) by (apply Nw; left; reflexivity).
  assert (Nh : here g ws k = false) by (apply here_false; intros q Hq; apply (Dw p q k); auto; left; reflexivity).
  assert (Cp : cluster_of g k unassignedId) by (apply (Cu p k); auto; left; reflexivity).
  destruct (enter_step clk id p g g1 ws k) as (V1 & D1 & L1 & Onp); auto.
  assert (On1 : forall q j, q <> p -> walker_on g1 q j <-> walker_on g q j) by (intros q j Nq; apply (on_same clk); apply L1; exact Nq).
  assert (Nl : forall q, In q (map snd l) -> q <> p) by (intros q Hq ->; contradiction).
  assert (Ir : forall q, In q (map snd l) -> In q (p :: map snd l)) by (intros q Hq; right; exact Hq).
  assert (V2 : (forall q, ~ In q (map snd l) -> ulookup q (g_walkers g') = ulookup q (g_walkers g1)) /\
    (forall q j, In q (map snd l) -> walker_on g' q j -> walker_on g1 q j /\ (bare g1 j -> walker_to g' q (-1)))).
  { apply (IH g1 g' (p :: ws) V1 ND'); [| | | |exact E].
    - intros q Hq [X|X]; [apply (Nl q Hq); auto|]. apply (Nw q); auto.
    - intros q q' j Hq Hq' H1 H2. apply On1 in H1; [|apply Nl, Hq]. apply On1 in H2; [|apply Nl, Hq']. apply (Dl q q' j); auto.
    - intros q q' j Hq [<-|Hq'] H1 H2; apply (On1 _ _ (Nl _ Hq)) in H1.
      + assert (j = k) by (apply (walker_on_fun g1 p); assumption). subst j. apply (Nl q Hq). apply (Dl q p k); auto; left; reflexivity.
      + assert (Nq' : q' <> p) by (intros ->; contradiction). apply On1 in H2; [|exact Nq']. apply (Dw q q' j (Ir q Hq) Hq' H1 H2).
    - intros q j Hq H1. apply On1 in H1; [|apply Nl, Hq]. apply (cluster_of_drift g); [exact D1|]. apply (Cu q j); auto. }
  destruct V2 as [A B]. split.
  - intros q Hq. rewrite A by (intros X; apply Hq; right; exact X). apply L1. intros ->. apply Hq. left; reflexivity.
  - intros q j [<-|Hq] Hj.
    + assert (Eq : ulookup p (g_walkers g') = ulookup p (g_walkers g1)) by apply A, Np.
      apply (on_same clk _ _ _ _ Eq) in Hj. assert (j = k) by (eapply walker_on_fun; eauto). subst j. split; [exact Hw|].
      intros Hb. destruct (enter_bare id p g g1 ws k V Npw Hw Nh Cp Hb E1) as (w & Ew & Ep). exists w. rewrite Eq. auto.
    + destruct (B q j Hq Hj) as [X Y]. split; [apply (On1 q j (Nl q Hq)), X|]. intros Hb. apply Y, (bare_drift g), Hb. exact D1.
Qed.

(** ** Sites without rates stay out of clusters *)
Definition checked (c : cluster) : Prop := forall v m n mn, ulookup v (c_sites c) = Some m -> In n (s_neighIds m) ->
  ulookup n (c_sites c) = Some mn -> In v (s_neighIds mn).
Definition plain (c : cluster) : Prop := c_tol c = nlit 1 1000 /\ c_method c = ByTolerance.
Definition plains g : Prop := forall c cl, ulookup c (g_clusters g) = Some cl -> plain cl.

Lemma it_temp_links sites pon k s t : it_temp sites pon k s = Ok t ->
  forall n sn, In n (s_neighIds s) -> ulookup n sites = Some sn -> In k (s_neighIds sn).
Proof.
  unfold it_temp. generalize (s_neighIds s) at 1 2. intros l. generalize (@Ok num (uget n0 k pon)).
  induction l as [|n0' l IH]; intros acc E n sn Hn Es; [destruct Hn|]. cbn [fold_left] in E.
  destruct Hn as [->|Hn]; [|apply (IH _ E n sn Hn Es)].
  match type of E with fold_left ?f l ?x = _ => assert (X : exists y, x = Ok y) end.
  { clear IH. match type of E with fold_left ?f l ?x = _ => set (a := x) in *; set (F := f) in * end.
    assert (Bd : forall l a, (forall y, a <> Ok y) -> forall y, fold_left F l a <> Ok y).
    { clear. induction l as [|z l IH]; intros a Ha y; cbn [fold_left]; [apply Ha|]. apply IH. intros y'. subst F. cbn beta.
      destruct a as [v|e|b]; [destruct (Ha v eq_refl)|discriminate|discriminate]. }
    destruct a as [y|e|b] eqn:Ea; [eauto| |]; exfalso; apply (Bd l a) with (y := t); rewrite ?Ea; try discriminate; exact E. }
  destruct X as [y X]. destruct acc as [v|?|?]; try discriminate. cbn [rbind] in X. rewrite Es in X.
  destruct (s_probTo sn k) as [p|?|?] eqn:Ep; try discriminate. unfold s_probTo in Ep. destruct (umem k (s_neigh sn)) eqn:Em; [|discriminate].
  apply umem_In, Em.
Qed.
Lemma iterate_links sites pon pon' : iterate sites pon = Ok pon' ->
  forall v m n mn, ulookup v sites = Some m -> In n (s_neighIds m) -> ulookup n sites = Some mn -> In v (s_neighIds mn).
Proof.
  unfold iterate. intros E. apply rbind_ok_inv in E. destruct E as (ts & E & _).
  assert (X : forall l ts, it_temps sites pon l = Ok ts -> forall v m, ulookup v l = Some m -> exists t, it_temp sites pon v m = Ok t).
  { clear. induction l as [|[k s] l IH]; intros ts E v m Ev; [discriminate|]. cbn [it_temps fst snd] in E.
    apply rbind_ok_inv in E. destruct E as (t & Et & E). apply rbind_ok_inv in E. destruct E as (ts' & Ets & _).
    cbn [ulookup] in Ev. destruct (v =? k) eqn:Ek; [|apply (IH _ Ets v m Ev)]. apply Z.eqb_eq in Ek. inversion Ev; subst. eauto. }
  intros v m n mn Ev Hn En. destruct (X _ _ E v m Ev) as (t & Et). apply (it_temp_links _ _ _ _ _ Et n mn Hn En).
Qed.
Lemma update_checked fuel h c c' : fits -> plain c -> c_update fuel h c = Ret tt c' -> checked c'.
Proof.
  intros F [P1 P2] E. pose proof (keeps_update _ _ _ _ _ E) as K. unfold checked. rewrite (sc_sites _ _ K).
  unfold c_update in E. apply bind_ret_inv in E. destruct E as (ks & c1 & E1 & E). inversion E1; subst ks c1; clear E1.
  apply bind_ret_inv in E. destruct E as (sv & c1 & E1 & E). apply keeps_visitList in E1.
  apply bind_ret_inv in E. destruct E as (u & c2 & E2 & _). unfold c_solve in E2.
  apply bind_ret_inv in E2. destruct E2 as (x & c3 & E3 & E2). inversion E3; subst x c3; clear E3.
  apply bind_ret_inv in E2. destruct E2 as (pon & c3 & E3 & _). apply lift_ret in E3. destruct E3 as [E3 _].
  rewrite (sc_method _ _ E1), (sc_tol _ _ E1), (sc_sites _ _ E1), P1, P2 in E3. unfold solve_pon in E3.
  destruct fuel as [|f]; cbn [iterate_tol] in E3; rewrite F in E3; [discriminate|].
  apply rbind_ok_inv in E3. destruct E3 as (pon' & E3 & _). apply (iterate_links _ _ _ E3).
Qed.
Lemma checked_sites c c' : c_sites c' = c_sites c -> checked c -> checked c'.
Proof. unfold checked. intros ->. auto. Qed.
Lemma plain_core c c' : same_core c c' -> plain c -> plain c'.
Proof. intros K [A B]. split; [rewrite (sc_tol _ _ K); exact A|rewrite (sc_method _ _ K); exact B]. Qed.

Lemma migrate_checked fuel h a b p : fits -> plain a -> c_migrate fuel h (a, b) = Ret tt p -> plain (fst p) /\ checked (fst p).
Proof.
  intros F P E. unfold c_migrate in E.
  apply bind_ret_inv in E. destruct E as (i & p0 & E0 & E). apply gets_ret in E0. destruct E0; subst i p0. cbn [fst] in E.
  apply bind_ret_inv in E. destruct E as (u1 & p1 & E1 & E). unfold onSnd, zoom, modify in E1. inversion E1; subst u1 p1. clear E1.
  cbn [fst snd] in E.
  apply bind_ret_inv in E. destruct E as (ids & p2 & E2 & E). apply gets_ret in E2. destruct E2; subst ids p2.
  apply bind_ret_inv in E. destruct E as (vs & p3 & E3 & E). unfold onSnd, zoom in E3.
  destruct (c_visitList _ _) as [vs' b1|? ?|?] eqn:Ev; inversion E3; subst vs' p3. clear E3. cbn [fst snd] in *.
  apply bind_ret_inv in E. destruct E as (mv & p4 & E4 & E). apply gets_ret in E4. destruct E4; subst mv p4. cbn [fst snd] in E.
  apply bind_ret_inv in E. destruct E as (u5 & p5 & E5 & E). unfold onFst, zoom, modify in E5. inversion E5; subst u5 p5. clear E5.
  cbn [fst snd] in E.
  apply bind_ret_inv in E. destruct E as (u6 & p6 & E6 & E). unfold onSnd, zoom, modify in E6. inversion E6; subst u6 p6. clear E6.
  cbn [fst snd] in E.
  apply bind_ret_inv in E. destruct E as (u7 & p7 & E7 & E). unfold onFst, zoom in E7. cbn [fst snd] in E7.
  destruct (c_update _ _ _) as [u a1|? ?|?] eqn:Eu; inversion E7; subst u7 p7. clear E7. cbn [fst snd] in E.
  destruct u. set (c0 := c_with_sites _ a) in Eu. assert (P0 : plain c0) by exact P.
  pose proof (update_checked _ _ _ _ F P0 Eu) as C1. pose proof (plain_core _ _ (keeps_update _ _ _ _ _ Eu) P0) as P1.
  assert (K : same_core a1 (fst p)).
  { clear - E. revert E. set (q := (a1, c_clearMigrated b1)). change a1 with (fst q). generalize q. clear.
    induction vs as [|e vs IH]; intros q E; [inversion E; apply same_core_refl|].
    cbn [mfor] in E. apply bind_ret_inv in E. destruct E as (u & q1 & E1 & E).
    eapply same_core_trans; [|apply (IH q1 E)]. unfold onFst, zoom in E1.
    destruct (c_setVisits _ _ _) eqn:Es; inversion E1; subst. cbn [fst].
    eapply keeps_setVisits; eauto. }
  split; [apply (plain_core _ _ K P1)|apply (checked_sites a1); [apply (sc_sites _ _ K)|exact C1]].
Qed.
Lemma absorbs_checked fuel fav l : fits -> forall g g', ~ In fav l -> NoDup (ukeys (g_clusters g)) -> plains g ->
  mfor l (absorb fuel fav) g = Ret tt g' -> (l = [] -> forall cl, ulookup fav (g_clusters g) = Some cl -> checked cl) ->
  plains g' /\ (forall cl, ulookup fav (g_clusters g') = Some cl -> checked cl).
Proof.
  intros F. induction l as [|c l IH]; intros g g' Nf ND P E H0; cbn [mfor] in E; [inversion E; subst; split; [exact P|apply H0; reflexivity]|].
  apply bind_ret_inv in E. destruct E as ([] & g1 & E1 & E).
  assert (Ne : fav <> c) by (intros ->; apply Nf; left; reflexivity).
  destruct (absorb_inv _ _ _ _ _ Ne ND E1) as (a & b & p & Ea & Eb & Em & m & -> & NDm & Lm).
  destruct (migrate_checked _ _ _ _ _ F (P _ _ Ea) Em) as [P1 C1].
  apply (IH (g_with_clusters m g)); [intros X; apply Nf; right; exact X|exact NDm| |exact E|].
  - intros x cl Ex. cbn [g_clusters g_with_clusters] in Ex. rewrite Lm in Ex. destruct (x =? c); [discriminate|].
    destruct (x =? fav); [inversion Ex; subst; exact P1|apply (P _ _ Ex)].
  - intros _ cl Ex. cbn [g_clusters g_with_clusters] in Ex. rewrite Lm in Ex. destruct (fav =? c) eqn:X; [discriminate|].
    rewrite Z.eqb_refl in Ex. inversion Ex; subst. exact C1.
Qed.
Lemma addSites_plain l c c' : plain c -> c_addSites l c = Ret tt c' -> plain c'.
Proof. intros P E. destruct (addSites_inv _ _ _ E) as (m & -> & _). exact P. Qed.
Lemma merge_checked fuel sac fav g g' : fits -> plains g -> shape g -> NoDup (ukeys sac) ->
  (forall k c, ulookup k sac = Some c -> exists s, ulookup k (g_sites g) = Some s /\ c = s_cluster s) ->
  merge_clusters fuel sac fav g = Ret tt g' -> plains g' /\ (forall cl, ulookup fav (g_clusters g') = Some cl -> checked cl).
Proof.
  intros F P Sh NDs Hsac E. destruct (merge_mid clk _ _ _ _ _ Sh NDs Hsac E) as (iso & cids & g1 & g3 & a & a1 & a2 & _ & Rl & Ea & Ea1 & Ea2 & Eg3 & E3 & _ & _ & Hc & _).
  pose proof (addSites_plain _ _ _ (P _ _ Ea) Ea1) as P1. pose proof (update_checked _ _ _ _ F P1 Ea2) as C2.
  pose proof (plain_core _ _ (keeps_update _ _ _ _ _ Ea2) P1) as P2.
  assert (L3 : forall x, ulookup x (g_clusters g3) = if x =? fav then Some a2 else ulookup x (g_clusters g)).
  { intros x. rewrite Eg3. cbn [g_clusters g_with_clusters]. apply (ureplace_lookup_some _ _ _ a), Ea. }
  apply (absorbs_checked fuel fav (ukeys cids) F g3 g'); [| | |exact E3|].
  - intros X. apply Hc in X. destruct X as (_ & X & _). apply X; reflexivity.
  - rewrite Eg3. cbn [g_clusters g_with_clusters]. rewrite ureplace_keys. apply (h_ndc _ _ _ Sh).
  - intros x cl Ex. rewrite L3 in Ex. destruct (x =? fav); [inversion Ex; subst; exact P2|apply (P _ _ Ex)].
  - intros _ cl Ex. rewrite L3, Z.eqb_refl in Ex. inversion Ex; subst. exact C2.
Qed.
Lemma create_checked fuel ids limit g g' : fits -> plains g -> NoDup (ukeys (g_clusters g)) ->
  create_cluster clk fuel ids limit g = Ret tt g' -> plains g' /\ (forall cl, ulookup (g_count g) (g_clusters g') = Some cl -> checked cl).
Proof.
  intros F P ND E. apply create_inv in E.
  destruct E as (t & l & tres & c1 & c2 & e & g1 & El & Er & Ea & Eu & E). cbv zeta in E. set (cl := c_with_rng e _) in E.
  destruct E as (_ & Em & Ec1 & _ & _ & _ & _ & _ & _ & _ & _ & _ & _ & Lb).
  assert (P1 : plain c1) by (apply (fun X => addSites_plain _ _ _ X Ea); split; reflexivity).
  pose proof (update_checked _ _ _ _ F P1 Eu) as C2. pose proof (plain_core _ _ (keeps_update _ _ _ _ _ Eu) P1) as P2.
  assert (Lc : forall c, ulookup c (g_clusters g') = if c =? g_count g then Some cl else ulookup c (g_clusters g)).
  { intros c. rewrite (b_clusters _ _ _ _ Lb), Ec1. apply uset_lookup, ND. }
  split.
  - intros c cl0 Ex. rewrite Lc in Ex. destruct (c =? g_count g); [inversion Ex; subst; exact P2|apply (P _ _ Ex)].
  - intros cl0 Ex. rewrite Lc, Z.eqb_refl in Ex. inversion Ex; subst. exact C2.
Qed.
Lemma last_hop (R : Z -> Z -> Prop) k j : clos_refl_trans Z R k j -> k = j \/ exists v, R v j.
Proof. intros H. apply clos_rt_rtn1 in H. destruct H as [|v j X _]; [left; reflexivity|right; exists v; exact X]. Qed.
Lemma first_hop (R : Z -> Z -> Prop) k j : clos_refl_trans Z R k j -> k = j \/ exists v, R k v.
Proof. intros H. apply clos_rt_rt1n in H. destruct H as [|v j X _]; [left; reflexivity|right; exists v; exact X]. Qed.

(** coarse graining leaves a site without rates alone *)
Lemma made_spares g g' k B c j : shape g -> shape g' -> made g g' k B c -> (forall cl, ulookup c (g_clusters g') = Some cl -> checked cl) ->
  bare g j -> unlabelled g j -> unlabelled g' j.
Proof.
  intros Sh Sh' Md Hc (s & Es & _ & En) (s0 & Es0 & Eu). assert (s0 = s) by congruence. subst s0.
  pose proof (d_label _ _ _ _ _ Md j) as Lj. destruct (existsb (Z.eqb j) B) eqn:Ej; [|exists s; rewrite Lj; auto].
  exfalso. apply existsb_Zeqb in Ej.
  assert (In_c : forall i, In i B -> holds g' c i).
  { intros i Hi. apply (d_holds _ _ _ _ _ Md). split; [auto|]. right. auto. }
  assert (Nb : forall i m, member g' c i m -> exists si, ulookup i (g_sites g) = Some si /\ s_neigh m = s_neigh si).
  { intros i m Hm. destruct (h_mem _ _ _ Sh' _ _ _ Hm) as (s' & Es' & _ & Em).
    pose proof (d_label _ _ _ _ _ Md i) as Li. rewrite Es' in Li. destruct (existsb (Z.eqb i) B); [|exists s'; auto].
    destruct (ulookup i (g_sites g)) as [si|]; [|discriminate]. inversion Li; subst. exists si. auto. }
  destruct (last_hop _ _ _ (d_reach _ _ _ _ _ Md j Ej)) as [<-|(v & Hv & _ & sv & Ev & Hn)].
  - (* the basin is the site alone *)
    assert (One : forall i, In i B -> i = k).
    { intros i Hi. destruct (first_hop _ _ _ (d_reach _ _ _ _ _ Md i Hi)) as [X|(v & _ & _ & sv & Ev & Hn)]; [auto|]. apply (In_ulookup _ _ _ (h_nds _ _ _ Sh)) in Ev.
      assert (sv = s) by congruence. subst sv. unfold s_neighIds in Hn. rewrite En in Hn. destruct Hn. }
    destruct (d_which _ _ _ _ _ Md) as [(_ & Nt)|((i & Hi & m & Hm) & _)].
    + destruct (In_c k Ej) as (m & cl & Ec & _). destruct (h_cl _ _ _ Sh' c cl Ec) as (_ & _ & _ & x & y & Nxy & Hx & Hy).
      assert (Al : forall z, In z (ukeys (c_sites cl)) -> z = k).
      { intros z Hz. apply ukeys_In in Hz. destruct Hz as [mz Ez].
        assert (Hh : holds g' c z) by (exists mz, cl; auto). apply (d_holds _ _ _ _ _ Md) in Hh.
        destruct Hh as (_ & [(mz' & cl' & Ecl' & _)|(_ & [Hz|(x' & Hx' & _)])]); [|apply One, Hz|destruct (Nt _ Hx')].
        destruct (d_which _ _ _ _ _ Md) as [(Ecc & _)|(Tc & _)]; [|destruct (Nt _ Tc)].
        exfalso. destruct (h_cl _ _ _ Sh c cl' Ecl') as (_ & Lt & _). lia. }
      apply Nxy. rewrite (Al x Hx), (Al y Hy). reflexivity.
    + rewrite (One i Hi) in Hm. destruct (h_mem _ _ _ Sh _ _ _ Hm) as (s' & Es' & Hn & _). congruence.
  - apply (In_ulookup _ _ _ (h_nds _ _ _ Sh)) in Ev. destruct (In_c v Hv) as (mv & cl & Ec & Emv). destruct (In_c j Ej) as (mj & cl' & Ec' & Emj). assert (cl' = cl) by congruence. subst cl'.
    destruct (Nb v mv) as (sv' & Ev' & Nv); [exists cl; auto|]. assert (sv' = sv) by congruence. subst sv'.
    destruct (Nb j mj) as (sj & Esj & Nj); [exists cl; auto|]. assert (sj = s) by congruence. subst sj.
    assert (X : In v (s_neighIds mj)).
    { apply (Hc cl Ec v mv j mj Emv); [|exact Emj]. unfold s_neighIds in Hn |- *. rewrite Nv. exact Hn. }
    unfold s_neighIds in X. rewrite Nj, En in X. destruct X.
Qed.
Lemma hop_spares fuel id p g g' ws : fits -> inv g ws -> In p ws -> plains g -> sys_hop clk fuel id p g = Ret tt g' ->
  plains g' /\ forall j, bare g j -> unlabelled g j -> unlabelled g' j.
Proof.
  intros F V Hp P E. destruct (hop_made clk _ _ _ _ _ _ V Hp E) as (g1 & i & k & V1 & D & _ & H). cbv zeta in H.
  assert (P1 : plains g1).
  { intros c cl Ec. destruct (calm_cluster _ _ c cl (calm_sym _ _ D) Ec) as (cl0 & Ec0 & X). cbn [g_clusters g_with_walkers] in Ec0.
    destruct (P _ _ Ec0) as [A B]. unfold frz_c in X. inversion X. split; congruence. }
  destruct H as [(Es & Ec)|(g3 & B & c & -> & _ & Md & _ & H)].
  - split; [intros c cl; rewrite Ec; apply P1|]. intros j _ Hu. destruct (unlabelled_drift _ _ _ D Hu) as (s & X & Y). exists s. rewrite Es. auto.
  - set (g2 := g_with_tick _ _) in H.
    assert (Sh2 : shape g2) by (destruct (v_shape _ _ V1); constructor; assumption).
    assert (Pc : plains g3 /\ forall cl, ulookup c (g_clusters g3) = Some cl -> checked cl).
    { destruct H as [(-> & E3)|(sac & NDs & -> & _ & A1 & A2 & E3)].
      - apply (create_checked fuel B _ g2 g3 F P1 (h_ndc _ _ _ Sh2) E3).
      - apply (merge_checked fuel sac _ g2 g3 F P1 Sh2 NDs); [|exact E3].
        intros j x Ej. destruct (in_dec Z.eq_dec j B) as [Hj|Nj]; [|rewrite (A2 j Nj) in Ej; discriminate].
        destruct (A1 j Hj) as (s & Es & El). exists s. split; [exact Es|congruence]. }
    destruct Pc as [P3 C3]. split; [exact P3|]. intros j Hb Hu.
    pose proof (step_inv clk _ _ _ _ _ V (st_hop clk g ws fuel id p _ Hp E)) as V'.
    assert (Sh3 : shape g3) by (pose proof (v_shape _ _ V') as X; destruct X; constructor; assumption).
    destruct (made_spares g1 g3 k B c j (v_shape _ _ V1) Sh3 Md C3 (bare_drift _ _ _ D Hb) (unlabelled_drift _ _ _ D Hu)) as (s & X & Y).
    exists s. auto.
Qed.

(** ** Every program *)
Definition settles (tr : list call) g ws : Prop :=
  (forall k, drain tr k -> bare g k) /\
  (forall p k, In p ws -> walker_on g p k -> drain tr k -> cluster_of g k unassignedId -> walker_to g p (-1)).

Lemma drain_app tr c k : drain (tr ++ [c]) k -> drain tr k \/ exists rates, c = KInit rates /\ mentioned rates k /\ ~ In k (ukeys rates).
Proof.
  intros (r & Hr & M). apply in_app_iff in Hr. destruct Hr as [Hr|[->|[]]]; [left; exists r; auto|right; exists r; auto].
Qed.
Lemma to_same g g' p n : ulookup p (g_walkers g') = ulookup p (g_walkers g) -> walker_to g p n -> walker_to g' p n.
Proof. intros E (w & Ew & X). exists w. rewrite E. auto. Qed.

Lemma settles_step tr g ws c g' ws' : inv g ws -> settles tr g ws -> step clk g ws c g' ws' -> settles (tr ++ [c]) g' ws'.
Proof.
  intros V [Hb Ht] S. pose proof (step_inv clk _ _ _ _ _ V S) as V'. pose proof S as S0.
  assert (Same : (forall r, c <> KInit r) -> g_sites g' = g_sites g -> (forall p, In p ws' -> In p ws /\ ulookup p (g_walkers g') = ulookup p (g_walkers g)) -> settles (tr ++ [c]) g' ws').
  { intros Nr Es Ew. assert (Hd : forall k, drain (tr ++ [c]) k -> drain tr k).
    { intros k Hk. destruct (drain_app _ _ _ Hk) as [X|(r & X & _)]; [exact X|destruct (Nr r X)]. }
    split.
    - intros k Hk. destruct (Hb k (Hd k Hk)) as (s & X). exists s. rewrite Es. exact X.
    - intros p k Hp Hk Hdk Hc. destruct (Ew p Hp) as [Hp' Ep]. apply (to_same g); [exact Ep|]. apply (Ht p k Hp'); [apply (on_same clk _ _ _ _ Ep), Hk|apply Hd, Hdk|].
      apply cluster_of_iff in Hc. apply cluster_of_iff. rewrite Es in Hc. exact Hc. }
  assert (Drift : (forall r, c <> KInit r) -> drift g g' -> (forall p, In p ws' -> In p ws /\ ulookup p (g_walkers g') = ulookup p (g_walkers g)) -> settles (tr ++ [c]) g' ws').
  { intros Nr D Ew. assert (Hd : forall k, drain (tr ++ [c]) k -> drain tr k).
    { intros k Hk. destruct (drain_app _ _ _ Hk) as [X|(r & X & _)]; [exact X|destruct (Nr r X)]. }
    split.
    - intros k Hk. apply (bare_drift g); [exact D|apply Hb, Hd, Hk].
    - intros p k Hp Hk Hdk Hc. destruct (Ew p Hp) as [Hp' Ep]. apply (to_same g); [exact Ep|]. apply (Ht p k Hp'); [apply (on_same clk _ _ _ _ Ep), Hk|apply Hd, Hdk|].
      apply cluster_of_iff. apply (unlabelled_back _ _ _ D). apply cluster_of_iff in Hc. exact Hc. }
  destruct S as [p g' E|t g' E|t g' E|s g' E|rates g' ND NDr E|h|m Hm L|n t Hn|l g' H1 H2 H3 H4 H5 E|fuel id p g' Hp E|id p g' Hp E|k v g' E].
  - inversion E; subst. apply Same; [discriminate|reflexivity|auto].
  - unfold sys_setTimeResolution in E. destruct (nleb t n0); [discriminate|]. inversion E; subst. apply Same; [discriminate|reflexivity|auto].
  - inversion E; subst. apply Same; [discriminate|reflexivity|auto].
  - unfold sys_setRandomSeed in E. apply bind_ret_inv in E. destruct E as (f & g1 & E1 & E). inversion E1; subst f g1; clear E1.
    destruct (g_feats g); [|discriminate]. inversion E; subst. apply Same; [discriminate|reflexivity|auto].
  - destruct (init_all clk _ _ _ _ V ND E) as (Zs & A & B & C). pose proof (registers clk _ _ _ _ V ND E) as (_ & M & _).
    assert (Old : forall k, drain tr k -> ~ mentioned rates k).
    { intros k Hk Hm. destruct (M k Hm) as (Nk & _). apply Nk. destruct (Hb k Hk) as (s & Es & _). exists (s_cluster s). apply cluster_of_iff. eauto. }
    assert (Zw : forall p, ulookup p (g_walkers g') = ulookup p (g_walkers g)) by (intros p; destruct Zs; congruence).
    split.
    + intros k Hk. destruct (drain_app _ _ _ Hk) as [X|(r & X & Hm & Nk)].
      * destruct (Hb k X) as (s & Es). exists s. rewrite (C k (Old k X)). exact Es.
      * inversion X; subst r. destruct (B k Hm Nk) as (_ & t & Es). eexists. split; [exact Es|]. split; reflexivity.
    + intros p k Hp Hk Hdk Hc. apply (to_same g); [apply Zw|]. apply (on_same clk _ _ _ _ (Zw p)) in Hk.
      destruct (drain_app _ _ _ Hdk) as [X|(r & X & Hm & Nk)].
      * apply (Ht p k Hp Hk X). apply cluster_of_iff in Hc. apply cluster_of_iff. rewrite (C k (Old k X)) in Hc. exact Hc.
      * inversion X; subst r. exfalso. destruct (v_on _ _ V p Hp) as (j & Hj & Kj). assert (j = k) by (eapply walker_on_fun; eauto). subst j.
        destruct (M k Hm) as (Nkn & _). apply Nkn. destruct (proj1 (ukeys_In _ _) Kj) as [s Es]. exists (s_cluster s). apply cluster_of_iff. eauto.
  - apply Same; [discriminate|reflexivity|auto].
  - apply Same; [discriminate|reflexivity|]. intros p Hp. split; [exact Hp|apply L, Hp].
  - apply Same; [discriminate|reflexivity|auto].
  - pose proof (enter_drift clk _ _ _ _ _ V S0) as D.
    unfold sys_initializeWalkers in E. apply bind_ret_inv in E. destruct E as (f & g1 & E1 & E). inversion E1; subst f g1; clear E1.
    destruct (g_feats g) as [|f0 f1]; [discriminate|]. destruct (enter_list l g g' ws V H1 H2 H3 H4 H5 E) as [A B].
    assert (Hd : forall k, drain (tr ++ [KEnter l]) k -> drain tr k).
    { intros k Hk. destruct (drain_app _ _ _ Hk) as [X|(r & X & _)]; [exact X|discriminate]. }
    split; [intros k Hk; apply (bare_drift g); [exact D|apply Hb, Hd, Hk]|].
    intros p k Hp Hk Hdk Hc. destruct (in_dec Z.eq_dec p (map snd l)) as [Hl|Nl].
    + destruct (B p k Hl Hk) as [X Y]. apply Y, Hb, Hd, Hdk.
    + apply in_app_iff in Hp. destruct Hp as [Hp|Hp]; [contradiction|]. pose proof (A p Nl) as Ep. apply (to_same g); [exact Ep|].
      apply (Ht p k Hp); [apply (on_same clk _ _ _ _ Ep), Hk|apply Hd, Hdk|].
      apply cluster_of_iff. apply (unlabelled_back _ _ _ D). apply cluster_of_iff in Hc. exact Hc.
  - destruct (hop_on clk _ _ _ _ _ E) as (src & dst & Hs & Hdst). destruct (hop_facts clk _ _ _ _ _ _ _ _ V Hp Hs Hdst E) as (_ & Ho & Hl).
    assert (Hd : forall k, drain (tr ++ [KHop p]) k -> drain tr k).
    { intros k Hk. destruct (drain_app _ _ _ Hk) as [X|(r & X & _)]; [exact X|discriminate]. }
    split.
    + intros k Hk. destruct (Hb k (Hd k Hk)) as (s & Es & Ep & Et).
      destruct (hop_inv clk _ _ _ _ _ E) as (w & g1 & Ew & _ & _ & Em & Ea).
      destruct (move_step clk _ _ _ _ _ _ _ V Hp (ex_intro _ w (conj Ew eq_refl)) Em) as (V1 & D1 & _).
      destruct (bare_drift _ _ _ D1 (Hb k (Hd k Hk))) as (s1 & Es1 & Ep1 & Et1).
      destruct (attempt_step clk _ _ _ _ _ V1 Ea) as (_ & Gr).
      assert (Kk : In k (ukeys (g_sites g'))) by (rewrite (r_keys _ _ Gr); eapply ulookup_In_key; exact Es1).
      destruct (proj1 (ukeys_In _ _) Kk) as [s' Es']. destruct (r_sites _ _ Gr k s' Es') as (s2 & Es2 & X). cbn [g_sites g_with_iter g_with_thr] in Es2.
      assert (s2 = s1) by congruence. subst s2. exists s'. split; [exact Es'|]. rewrite X. auto.
    + intros q k Hq Hk Hdk Hc. apply cluster_of_iff in Hc. destruct (Z.eq_dec q p) as [->|Nq].
      * apply (hop_bare fuel id p k g g' ws V Hp E Hk); [apply Hb, Hd, Hdk|exact Hc].
      * pose proof (Ho q Nq) as Eq. apply (to_same g); [exact Eq|]. apply (Ht q k Hq); [apply (on_same clk _ _ _ _ Eq), Hk|apply Hd, Hdk|].
        apply cluster_of_iff. destruct Hc as (s' & Es' & Eu). destruct (Hl k s' Es' Eu) as (s & Es & Eu0 & _). eauto.
  - destruct (leave_step clk _ _ _ _ _ V Hp E) as (_ & C). apply Drift; [discriminate|apply calm_drift, C|].
    intros q Hq. apply in_remove in Hq. destruct Hq as [Hq _]. split; [exact Hq|]. rewrite (k_walkers _ _ (m_kept _ _ C)). reflexivity.
  - apply getVisits_inv in E. destruct E as (s & Es & [(_ & _ & ->)|(_ & cl & cl' & v' & Ec & E & _ & ->)]); apply Same; try discriminate; try reflexivity; auto.
Qed.
Lemma settles_reach tr g ws : reach_by clk tr g ws -> settles tr g ws.
Proof.
  intros (m & h & count & tick & ND & Hc & S).
  assert (V0 : inv (world_new m h count tick) []).
  { apply (reach_inv clk). exists [], m, h, count, tick. split; [exact ND|]. split; [exact Hc|constructor]. }
  induction S as [|tr g1 ws1 c g2 ws2 S IH St]; [split; [intros k (r & [] & _)|intros p k []]|].
  eapply settles_step; [apply (steps_inv clk _ _ _ _ _ V0 S)|exact IH|exact St].
Qed.
Lemma drain_aim tr g ws p k : reach_by clk tr g ws -> In p ws -> walker_on g p k -> drain tr k -> cluster_of g k unassignedId -> walker_to g p (-1).
Proof. intros R. apply (settles_reach _ _ _ R). Qed.

(** drains are never clustered *)
Definition apart (tr : list call) g : Prop := plains g /\ forall k, drain tr k -> unlabelled g k.
Lemma plains_drift g g' : drift g g' -> plains g -> plains g'.
Proof.
  intros D P c cl Ec. destruct (calm_cluster _ _ c cl (calm_sym _ _ D) Ec) as (cl0 & Ec0 & X). cbn [g_clusters g_with_walkers] in Ec0.
  destruct (P _ _ Ec0) as [A B]. unfold frz_c in X. inversion X. split; congruence.
Qed.
Lemma apart_step tr g ws c g' ws' : fits -> inv g ws -> settles tr g ws -> apart tr g -> step clk g ws c g' ws' -> apart (tr ++ [c]) g'.
Proof.
  intros F V [Hb _] [P A] S. pose proof S as S0.
  assert (Hd : (forall r, c <> KInit r) -> forall k, drain (tr ++ [c]) k -> drain tr k).
  { intros Nr k Hk. destruct (drain_app _ _ _ Hk) as [X|(r & X & _)]; [exact X|destruct (Nr r X)]. }
  assert (Same : (forall r, c <> KInit r) -> g_sites g' = g_sites g -> g_clusters g' = g_clusters g -> apart (tr ++ [c]) g').
  { intros Nr Es Ec. split; [intros x cl; rewrite Ec; apply P|]. intros k Hk. destruct (A k (Hd Nr k Hk)) as (s & X). exists s. rewrite Es. exact X. }
  assert (Drift : (forall r, c <> KInit r) -> drift g g' -> apart (tr ++ [c]) g').
  { intros Nr D. split; [apply (plains_drift _ _ D P)|]. intros k Hk. apply (unlabelled_drift _ _ _ D), A, Hd; assumption. }
  destruct S as [p g' E|t g' E|t g' E|s g' E|rates g' ND NDr E|h|m Hm L|n t Hn|l g' H1 H2 H3 H4 H5 E|fuel id p g' Hp E|id p g' Hp E|k v g' E].
  - inversion E; subst. apply Same; [discriminate|reflexivity|reflexivity].
  - unfold sys_setTimeResolution in E. destruct (nleb t n0); [discriminate|]. inversion E; subst. apply Same; [discriminate|reflexivity|reflexivity].
  - inversion E; subst. apply Same; [discriminate|reflexivity|reflexivity].
  - unfold sys_setRandomSeed in E. apply bind_ret_inv in E. destruct E as (f & g1 & E1 & E). inversion E1; subst f g1; clear E1.
    destruct (g_feats g); [|discriminate]. inversion E; subst. apply Same; [discriminate|reflexivity|reflexivity].
  - destruct (init_all clk _ _ _ _ V ND E) as (Zs & _ & B & C). pose proof (registers clk _ _ _ _ V ND E) as (_ & M & _).
    split; [intros x cl Ex; apply (P x); destruct Zs; congruence|].
    intros k Hk. destruct (drain_app _ _ _ Hk) as [X|(r & X & Hm & Nk)].
    + destruct (A k X) as (s & Es & Eu). exists s. split; [|exact Eu]. rewrite C; [exact Es|]. intros Hm. destruct (M k Hm) as (Nk & _).
      apply Nk. exists (s_cluster s). apply cluster_of_iff. eauto.
    + inversion X; subst r. destruct (B k Hm Nk) as (_ & t & Es). eexists. split; [exact Es|reflexivity].
  - apply Same; [discriminate|reflexivity|reflexivity].
  - apply Same; [discriminate|reflexivity|reflexivity].
  - apply Same; [discriminate|reflexivity|reflexivity].
  - apply Drift; [discriminate|]. apply (enter_drift clk _ _ _ _ _ V S0).
  - destruct (hop_spares fuel id p g g' ws F V Hp P E) as [P' H]. split; [exact P'|]. intros k Hk.
    assert (Hk' : drain tr k) by (apply Hd; [discriminate|exact Hk]). apply H; [apply Hb, Hk'|apply A, Hk'].
  - apply Drift; [discriminate|]. apply calm_drift, (leave_step clk _ _ _ _ _ V Hp E).
  - apply getVisits_inv in E. destruct E as (s & Es & [(_ & _ & ->)|(_ & cl & cl' & v' & Ec & E & _ & ->)]); [apply Same; [discriminate|reflexivity|reflexivity]|].
    split.
    + intros x cl0 Ex. cbn [g_clusters g_with_clusters] in Ex. rewrite (ureplace_lookup_some _ _ _ cl) in Ex by exact Ec.
      destruct (x =? s_cluster s); [|apply (P _ _ Ex)]. inversion Ex; subst cl0.
      apply (plain_core cl); [eapply keeps_getVisits; exact E|apply (P _ _ Ec)].
    + intros k0 Hk. apply (A k0), Hd; [discriminate|exact Hk].
Qed.
Lemma apart_reach tr g ws : fits -> reach_by clk tr g ws -> apart tr g.
Proof.
  intros F (m & h & count & tick & ND & Hc & S).
  assert (V0 : inv (world_new m h count tick) []).
  { apply (reach_inv clk). exists [], m, h, count, tick. split; [exact ND|]. split; [exact Hc|constructor]. }
  assert (Hs : forall tr g ws, steps clk (world_new m h count tick) [] tr g ws -> settles tr g ws).
  { intros tr0 g0 ws0 S0. apply settles_reach. exists m, h, count, tick. auto. }
  induction S as [|tr g1 ws1 c g2 ws2 S IH St]; [split; [intros c cl X; discriminate|intros k (r & [] & _)]|].
  eapply apart_step; [exact F|apply (steps_inv clk _ _ _ _ _ V0 S)|apply Hs, S|exact IH|exact St].
Qed.
Lemma drain_apart tr g ws k : fits -> reach_by clk tr g ws -> drain tr k -> cluster_of g k unassignedId.
Proof. intros F R Hk. destruct (apart_reach _ _ _ F R) as [_ A]. apply cluster_of_iff, A, Hk. Qed.

(** calls for other walkers *)
Lemma other_step g ws c g' ws' p : inv g ws -> In p ws -> step clk g ws c g' ws' -> ~ own p c ->
  In p ws' /\ ulookup p (g_walkers g') = ulookup p (g_walkers g).
Proof.
  intros V Hp S No. pose proof S as S0.
  destruct S as [r g' E|t g' E|t g' E|s g' E|rates g' ND NDr E|h|m Hm L|n t Hn|l g' H1 H2 H3 H4 H5 E|fuel id q g' Hq E|id q g' Hq E|k v g' E].
  - inversion E; subst. auto.
  - unfold sys_setTimeResolution in E. destruct (nleb t n0); [discriminate|]. inversion E; subst. auto.
  - inversion E; subst. auto.
  - unfold sys_setRandomSeed in E. apply bind_ret_inv in E. destruct E as (f & g1 & E1 & E). inversion E1; subst f g1; clear E1.
    destruct (g_feats g); [|discriminate]. inversion E; subst. auto.
  - destruct (init_all clk _ _ _ _ V ND E) as (Zs & _). split; [exact Hp|]. destruct Zs; congruence.
  - auto.
  - auto.
  - auto.
  - unfold sys_initializeWalkers in E. apply bind_ret_inv in E. destruct E as (f & g1 & E1 & E). inversion E1; subst f g1; clear E1.
    destruct (g_feats g) as [|f0 f1]; [discriminate|]. destruct (enter_list l g g' ws V H1 H2 H3 H4 H5 E) as [A B].
    split; [apply in_app_iff; auto|]. apply A. intros X. apply (H2 p X Hp).
  - split; [exact Hp|]. apply (hop_others clk _ _ _ _ _ _ V Hq E). intros ->. apply No. left; reflexivity.
  - destruct (leave_step clk _ _ _ _ _ V Hq E) as (_ & C). split; [|rewrite (k_walkers _ _ (m_kept _ _ C)); reflexivity].
    apply in_in_remove; [|exact Hp]. intros ->. apply No. right; reflexivity.
  - split; [exact Hp|]. apply getVisits_inv in E. destruct E as (s & Es & [(_ & _ & ->)|(_ & cl & cl' & v' & Ec & E & _ & ->)]); reflexivity.
Qed.
Lemma other_steps g ws tr g' ws' p : inv g ws -> In p ws -> steps clk g ws tr g' ws' -> (forall c, In c tr -> ~ own p c) ->
  In p ws' /\ ulookup p (g_walkers g') = ulookup p (g_walkers g).
Proof.
  intros V Hp S No. induction S as [|tr g1 ws1 c g2 ws2 S IH St]; [auto|].
  destruct IH as [A B]; [intros c' Hc; apply No, in_app_iff; auto|].
  destruct (other_step _ _ _ _ _ p (steps_inv clk _ _ _ _ _ V S) A St) as [A' B']; [apply No, in_app_iff; right; left; reflexivity|].
  split; [exact A'|congruence].
Qed.

(** a hop to a site that is not there *)
Lemma hop_nowhere fuel id p k n g ws : inv g ws -> In p ws -> walker_on g p k -> k <> unassignedId -> walker_to g p n -> n <> unassignedId -> ~ knows g n ->
  sys_hop clk fuel id p g = Halt Undefined.
Proof.
  intros V Hp (w & Ew & Ek) Nk (w' & Ew' & En) Nn Hn. assert (w' = w) by congruence. subst w'.
  assert (Eg : g_with_walkers (ureplace p w (g_walkers g)) g = g) by (rewrite ureplace_id by exact Ew; destruct g; reflexivity).
  assert (E1 : in_walker p w_getSite g = Ret k g).
  { unfold in_walker, zoom, at_key. rewrite Ew. unfold w_getSite, bind, gets. rewrite Ek. destruct (Z.eqb_spec k unassignedId) as [|_]; [contradiction|].
    cbn. rewrite Eg. reflexivity. }
  assert (E2 : in_walker p w_getPotentialSite g = Ret n g).
  { unfold in_walker, zoom, at_key. rewrite Ew. unfold w_getPotentialSite, bind, gets. rewrite En. destruct (Z.eqb_spec n unassignedId) as [|_]; [contradiction|].
    cbn. rewrite Eg. reflexivity. }
  assert (E3 : hop_move clk id p k n g = Halt Undefined).
  { unfold hop_move, bind. unfold f_isOccupied, on_feature, bind, gets. rewrite (h_feat _ _ _ (v_shape _ _ V) n).
    destruct (ulookup n (g_sites g)) as [s|] eqn:Es; [|reflexivity]. exfalso. apply Hn. exists (s_cluster s). apply cluster_of_iff. eauto. }
  unfold sys_hop, bind. rewrite E1, E2, E3. reflexivity.
Qed.
End Drain.
