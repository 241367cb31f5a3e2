(** * Every client action keeps the invariant, for every arithmetic *)
From Coq Require Import ZArith List Bool Lia Permutation.
From Verif Require Import Base BaseProofs Num WalkerModel SiteModel SiteProofs ClusterModel ClusterFrame
  ContainerModel BasinModel SystemModel SystemSpec SystemShape SystemHop SystemCoarse SystemMerge.
Import ListNotations.
Open Scope Z_scope.

Section Proofs.
Context {I : Impl} {N : Num} {G : Rng} {U : Ugly}.
Variable clk : Z -> Z.

Lemma ureplace_id {V} k (v : V) m : ulookup k m = Some v -> ureplace k v m = m.
Proof.
  induction m as [|[k' v'] l IH]; simpl; [reflexivity|].
  destruct (Z.eqb_spec k k') as [->|]; intros E; [inversion E; reflexivity|]. rewrite IH by exact E. reflexivity.
Qed.
Lemma occ_ext g oc oc' : occ_is g oc -> (forall k, oc k = oc' k) -> occ_is g oc'.
Proof. intros [A B] E. split; intros; rewrite <- E; eauto. Qed.
Lemma shape_walkers m g : shape g -> shape (g_with_walkers m g).
Proof. intros []. constructor; unfold member in *; assumption. Qed.
Lemma calm_walkers m g g' : calm g g' -> calm (g_with_walkers m g) (g_with_walkers m g').
Proof. intros [[] A B]. constructor; [constructor; first [assumption|reflexivity]|exact A|exact B]. Qed.

(** calm apart from walkers *)
Definition drift (g g' : world) : Prop := calm (g_with_walkers (g_walkers g') g) g'.
Lemma drift_refl g : drift g g.
Proof. unfold drift. rewrite eta_walkers. apply calm_refl. Qed.
Lemma calm_drift g g' : calm g g' -> drift g g'.
Proof.
  intros C. unfold drift. pose proof (k_walkers _ _ (m_kept _ _ C)) as Ew.
  rewrite Ew. rewrite eta_walkers. exact C.
Qed.
Lemma drift_trans a b c : drift a b -> drift b c -> drift a c.
Proof.
  unfold drift. intros H1 H2. eapply calm_trans; [|exact H2].
  apply (calm_walkers (g_walkers c)) in H1. exact H1.
Qed.
Lemma drift_walkers m g : drift g (g_with_walkers m g).
Proof. apply calm_refl. Qed.
Lemma drift_shape g g' : drift g g' -> shape g -> shape g'.
Proof. intros D Sh. apply (calm_shape clk _ _ D). apply shape_walkers, Sh. Qed.

(** ** Walkers *)
Lemma on_same g g' p k : (ulookup p (g_walkers g') = ulookup p (g_walkers g)) -> walker_on g' p k <-> walker_on g p k.
Proof. unfold walker_on. intros ->. tauto. Qed.
Lemma here_false g ws k : here g ws k = false <-> forall p, In p ws -> ~ walker_on g p k.
Proof.
  split.
  - intros E p Hp Hw. assert (X : here g ws k = true) by (apply here_true; eauto). congruence.
  - intros A. destruct (here g ws k) eqn:E; [|reflexivity]. apply here_true in E. destruct E as (p & Hp & Hw).
    exfalso. eapply A; eauto.
Qed.
Lemma here_eq g g' ws ws' k : ((exists p, In p ws /\ walker_on g p k) <-> (exists p, In p ws' /\ walker_on g' p k)) ->
  here g' ws' k = here g ws k.
Proof.
  intros E. destruct (here g ws k) eqn:E1.
  - apply here_true. apply E. apply here_true. exact E1.
  - destruct (here g' ws' k) eqn:E2; [|reflexivity]. apply here_true, E, here_true in E2. congruence.
Qed.

Lemma inv_same g g' ws : inv g ws -> shape g' -> (forall oc, occ_is g oc -> occ_is g' oc) ->
  ukeys (g_sites g') = ukeys (g_sites g) -> NoDup (ukeys (g_walkers g')) ->
  (forall p, In p ws -> ulookup p (g_walkers g') = ulookup p (g_walkers g)) -> inv g' ws.
Proof.
  intros [] Sh O K Nw L.
  assert (W : forall p k, In p ws -> walker_on g' p k <-> walker_on g p k) by (intros p k Hp; apply on_same, L, Hp).
  constructor; auto.
  - apply O in v_occ. eapply occ_ext; [exact v_occ|]. intros k. cbn beta. f_equal. symmetry. apply here_eq.
    split; intros (p & Hp & Hw); exists p; (split; [exact Hp|]); apply W; auto.
  - intros p Hp. destruct (v_on p Hp) as (k & H1 & H2). exists k. rewrite K. split; [apply W; auto|exact H2].
  - intros p q k Hp Hq H1 H2. apply W in H1, H2; auto. eauto.
Qed.
Lemma inv_perm g ws ws' : Permutation ws ws' -> inv g ws -> inv g ws'.
Proof.
  intros P []. assert (Q : forall p, In p ws' <-> In p ws).
  { intros p. split; [apply (Permutation_in _ (Permutation_sym P))|apply (Permutation_in _ P)]. }
  constructor; auto.
  - eapply occ_ext; [exact v_occ|]. intros k. cbn beta. f_equal. symmetry. apply here_eq.
    split; intros (p & Hp & Hw); exists p; (split; [apply Q; exact Hp|exact Hw]).
  - eapply Permutation_NoDup; eauto.
  - intros p Hp. apply v_on, Q, Hp.
  - intros p q k Hp Hq. apply v_excl; apply Q; assumption.
Qed.

(** ** hop: the move *)
Lemma getSite_ret p g a g' : in_walker p w_getSite g = Ret a g' ->
  g' = g /\ a <> unassignedId /\ exists w, ulookup p (g_walkers g) = Some w /\ w_cur w = a.
Proof.
  intros E. apply in_walker_ret in E. destruct E as (w & w' & E1 & E2 & ->). unfold w_getSite in E2.
  destruct (Z.eqb_spec (w_cur w) unassignedId); [discriminate|]. inversion E2; subst.
  rewrite ureplace_id by exact E1. rewrite eta_walkers. eauto.
Qed.
Lemma getPotential_ret p g a g' : in_walker p w_getPotentialSite g = Ret a g' ->
  g' = g /\ a <> unassignedId /\ exists w, ulookup p (g_walkers g) = Some w /\ w_pot w = a.
Proof.
  intros E. apply in_walker_ret in E. destruct E as (w & w' & E1 & E2 & ->). unfold w_getPotentialSite in E2.
  destruct (Z.eqb_spec (w_pot w) unassignedId); [discriminate|]. inversion E2; subst.
  rewrite ureplace_id by exact E1. rewrite eta_walkers. eauto.
Qed.
Lemma walker_set p f g a g' : in_walker p (modify f) g = Ret a g' ->
  exists w, ulookup p (g_walkers g) = Some w /\ g' = g_with_walkers (ureplace p (f w) (g_walkers g)) g /\
    ukeys (g_walkers g') = ukeys (g_walkers g) /\
    forall q, ulookup q (g_walkers g') = if q =? p then Some (f w) else ulookup q (g_walkers g).
Proof.
  intros E. apply in_walker_ret in E. destruct E as (w & w' & E1 & E2 & ->). inversion E2; subst.
  exists w. split; [exact E1|]. split; [reflexivity|]. split; [apply ureplace_keys|].
  intros q. apply (ureplace_lookup_some _ _ _ w), E1.
Qed.

(** dwell time and potential site of walker [p] at the end of a move *)
Lemma finish_step id p k g g' oc : shape g -> occ_is g oc ->
  (t <- f_getDwellTime k id ;; in_walker p (w_setDwellTime t) ;; n <- f_pick k id ;; in_walker p (w_setPotentialSite n)) g = Ret tt g' ->
  drift g g' /\ occ_is g' oc /\ (forall j, visits_of g' j = visits_of g j) /\ ukeys (g_walkers g') = ukeys (g_walkers g) /\
  exists w n t, ulookup p (g_walkers g) = Some w /\
    forall q, ulookup q (g_walkers g') = if q =? p then Some (mkWalker (w_cur w) n t) else ulookup q (g_walkers g).
Proof.
  intros Sh O E.
  apply bind_ret_inv in E. destruct E as (t & g1 & E1 & E).
  destruct (dwell_step _ _ _ _ _ _ Sh E1 O) as (C1 & O1 & V1).
  apply bind_ret_inv in E. destruct E as (u & g2 & E2 & E). apply walker_set in E2.
  destruct E2 as (w & Ew & Eg2 & K2 & L2).
  assert (Sh1 : shape g1) by apply (calm_shape clk _ _ C1 Sh).
  assert (Sh2 : shape g2) by (rewrite Eg2; apply shape_walkers, Sh1).
  assert (O2 : occ_is g2 oc) by (rewrite Eg2; exact O1).
  apply bind_ret_inv in E. destruct E as (n & g3 & E3 & E).
  destruct (pick_step _ _ _ _ _ _ Sh2 E3 O2) as (C3 & O3 & V3).
  apply walker_set in E. destruct E as (w' & Ew' & Eg4 & K4 & L4).
  assert (W1 : g_walkers g1 = g_walkers g) by apply C1.
  assert (W3 : g_walkers g3 = g_walkers g2) by apply C3.
  assert (w' = mkWalker (w_cur w) (w_pot w) t).
  { rewrite W3, L2, Z.eqb_refl in Ew'. inversion Ew'. reflexivity. } subst w'.
  split; [|split; [|split; [|split]]].
  - apply (drift_trans _ g1); [apply calm_drift, C1|]. apply (drift_trans _ g2); [rewrite Eg2; apply drift_walkers|].
    apply (drift_trans _ g3); [apply calm_drift, C3|]. rewrite Eg4. apply drift_walkers.
  - rewrite Eg4. exact O3.
  - intros j. transitivity (visits_of g3 j); [rewrite Eg4; reflexivity|]. rewrite V3.
    transitivity (visits_of g1 j); [rewrite Eg2; reflexivity|]. apply V1.
  - rewrite K4, W3, K2, W1. reflexivity.
  - exists w, n, t. split; [rewrite <- W1; exact Ew|]. intros q. rewrite L4, W3, L2, W1.
    cbn [w_cur w_dwell]. destruct (q =? p); reflexivity.
Qed.

Lemma move_step id p src dst g g' ws : inv g ws -> In p ws -> walker_on g p src ->
  hop_move clk id p src dst g = Ret tt g' ->
  let fin := if here g ws dst then src else dst in
  inv g' ws /\ drift g g' /\ In dst (ukeys (g_sites g)) /\
  (exists n t, forall q, ulookup q (g_walkers g') = if q =? p then Some (mkWalker fin n t) else ulookup q (g_walkers g)) /\
  ukeys (g_walkers g') = ukeys (g_walkers g) /\
  (forall j, visits_of g' j = option_map (Z.add (Z.b2z ((j =? fin) && free_in g fin))) (visits_of g j)).
Proof.
  intros V Hp Hw E fin. pose proof V as [Sh O NDw ND On Ex].
  unfold hop_move in E. apply bind_ret_inv in E. destruct E as (b & g0 & E0 & E).
  destruct (occupied_step _ _ _ _ _ Sh E0 O) as (-> & Kd & Eb).
  assert (Hs : here g ws src = true) by (apply here_true; eauto).
  assert (Eb' : b = here g ws dst) by (rewrite Eb; destruct (here g ws dst); reflexivity). clear Eb.
  assert (Free : forall k x, free_in (g_with_walkers x g) k = free_in g k) by reflexivity.
  assert (Main : forall k, k = fin -> (k = src \/ here g ws k = false) ->
     (f_vacate clk src src ;; f_occupy k k ;;
      in_walker p (modify (fun w => mkWalker k (w_pot w) (w_dwell w))) ;;
      t <- f_getDwellTime k id ;; in_walker p (w_setDwellTime t) ;; n <- f_pick k id ;; in_walker p (w_setPotentialSite n)) g = Ret tt g' ->
     inv g' ws /\ drift g g' /\
     (exists n t, forall q, ulookup q (g_walkers g') = if q =? p then Some (mkWalker k n t) else ulookup q (g_walkers g)) /\
     ukeys (g_walkers g') = ukeys (g_walkers g) /\
     (forall j, visits_of g' j = option_map (Z.add (Z.b2z ((j =? k) && free_in g k))) (visits_of g j))).
  { clear E E0 Eb' b Kd. intros k _ Hk E.
    apply bind_ret_inv in E. destruct E as ([] & g1 & E1 & E).
    destruct (vacate_step _ _ _ _ _ Sh E1 O) as (C1 & O1 & V1 & Ks).
    assert (Sh1 : shape g1) by apply (calm_shape clk _ _ C1 Sh).
    apply bind_ret_inv in E. destruct E as ([] & g2 & E2 & E).
    assert (Zk : (fun j => if j =? src then Z.b2z (here g ws src) - 1 else Z.b2z (here g ws j)) k = 0).
    { cbn beta. destruct (Z.eqb_spec k src) as [->|Ne]; [rewrite Hs; reflexivity|]. destruct Hk as [|X0]; [congruence|rewrite X0; reflexivity]. }
    destruct (occupy_step _ _ _ _ Sh1 E2 O1 Zk) as (C2 & O2 & V2 & Kk).
    assert (Sh2 : shape g2) by apply (calm_shape clk _ _ C2 Sh1).
    apply bind_ret_inv in E. destruct E as (u & g3 & E3 & E). apply walker_set in E3. destruct E3 as (w & Ew & Eg3 & K3 & L3).
    assert (Sh3 : shape g3) by (rewrite Eg3; apply shape_walkers, Sh2).
    eapply finish_step in E; [|exact Sh3|]. 2:{ rewrite Eg3. exact O2. }
    destruct E as (D4 & O4 & V4 & K4 & w' & n & t & Ew' & L4).
    assert (W1 : g_walkers g1 = g_walkers g) by apply C1.
    assert (W2 : g_walkers g2 = g_walkers g1) by apply C2.
    rewrite L3, Z.eqb_refl in Ew'. inversion Ew'; subst w'; clear Ew'. cbn [w_cur] in L4.
    assert (L : forall q, ulookup q (g_walkers g') = if q =? p then Some (mkWalker k n t) else ulookup q (g_walkers g)).
    { intros q. rewrite L4. destruct (q =? p) eqn:Eq; [reflexivity|]. rewrite L3, Eq, W2, W1. reflexivity. }
    assert (D : drift g g').
    { apply (drift_trans _ g1); [apply calm_drift, C1|]. apply (drift_trans _ g2); [apply calm_drift, C2|].
      apply (drift_trans _ g3); [rewrite Eg3; apply drift_walkers|exact D4]. }
    assert (K : ukeys (g_walkers g') = ukeys (g_walkers g)) by (rewrite K4, K3, W2, W1; reflexivity).
    assert (Onp : walker_on g' p k) by (exists (mkWalker k n t); rewrite L, Z.eqb_refl; auto).
    assert (Onq : forall q j, q <> p -> walker_on g' q j <-> walker_on g q j).
    { intros q j Nq. apply on_same. rewrite L. apply Z.eqb_neq in Nq. rewrite Nq. reflexivity. }
    assert (Ks' : ukeys (g_sites g') = ukeys (g_sites g)) by apply (same_keys _ _ _ (m_sites _ _ D)).
    assert (Other : forall q, In q ws -> q <> p -> ~ walker_on g q k).
    { intros q Hq Nq Hqk. destruct Hk as [->|Hk]; [apply Nq; eapply Ex; eauto|]. rewrite here_false in Hk. eapply Hk; eauto. }
    split; [|split; [exact D|split; [exists n, t; exact L|split; [exact K|]]]].
    - constructor.
      + apply (drift_shape _ _ D Sh).
      + eapply occ_ext; [exact O4|]. intros j. cbn beta.
        destruct (Z.eqb_spec j k) as [->|Nk].
        * assert (X : here g' ws k = true) by (apply here_true; eauto). rewrite X. reflexivity.
        * destruct (Z.eqb_spec j src) as [->|Ns].
          -- rewrite Hs. assert (X : here g' ws src = false).
             { apply here_false. intros q Hq Hqs. destruct (Z.eq_dec q p) as [->|Nq].
               - apply Nk. eapply walker_on_fun; eauto.
               - apply (proj1 (Onq _ _ Nq)) in Hqs. apply Nq. eapply Ex; eauto. }
             rewrite X. reflexivity.
          -- f_equal. symmetry. apply here_eq. split; intros (q & Hq & Hqj).
             ++ exists q. split; [exact Hq|]. destruct (Z.eq_dec q p) as [->|Nq].
                ** exfalso. apply Ns. eapply walker_on_fun; eauto.
                ** apply (Onq _ _ Nq), Hqj.
             ++ exists q. split; [exact Hq|]. destruct (Z.eq_dec q p) as [->|Nq].
                ** exfalso. apply Nk. eapply walker_on_fun; eauto.
                ** apply (Onq _ _ Nq), Hqj.
      + rewrite K. exact NDw.
      + exact ND.
      + intros q Hq. rewrite Ks'. destruct (Z.eq_dec q p) as [->|Nq].
        * exists k. split; [exact Onp|]. rewrite <- (same_keys _ _ _ (m_sites _ _ C1)). exact Kk.
        * destruct (On q Hq) as (j & H1 & H2). exists j. split; [apply (Onq _ _ Nq), H1|exact H2].
      + intros q q' j Hq Hq' H1 H2. destruct (Z.eq_dec q p) as [->|Nq], (Z.eq_dec q' p) as [->|Nq']; auto.
        * exfalso. assert (j = k) by (apply (walker_on_fun g' p); assumption). subst j. apply (Other q' Hq' Nq'). apply (Onq _ _ Nq'), H2.
        * exfalso. assert (j = k) by (apply (walker_on_fun g' p); assumption). subst j. apply (Other q Hq Nq). apply (Onq _ _ Nq), H1.
        * apply (Onq _ _ Nq) in H1. apply (Onq _ _ Nq') in H2. eauto.
    - intros j. rewrite V4. transitivity (visits_of g2 j); [rewrite Eg3; reflexivity|]. rewrite V2, V1.
      assert (Fk : free_in g1 k = free_in g k); [|rewrite Fk; reflexivity]. unfold free_in.
      pose proof (same_lookup _ _ _ (m_sites _ _ C1) k) as X.
      destruct (ulookup k (g_sites g)) as [s|], (ulookup k (g_sites g1)) as [s'|]; simpl in X; try discriminate; [|reflexivity].
      assert (F : frz_s s' = frz_s s) by congruence. destruct (frz_s_eq _ _ F) as (_ & Fc & _). rewrite Fc. reflexivity. }
  rewrite Eb' in E. destruct (here g ws dst) eqn:Ed.
  - destruct (Main src eq_refl (or_introl eq_refl)) as (A1 & A2 & A3 & A4 & A5).
    + apply bind_ret_inv in E. destruct E as ([] & g1 & E1 & E).
      apply bind_ret_inv in E. destruct E as ([] & g2 & E2 & E).
      unfold bind at 1. rewrite E1. unfold bind at 1. rewrite E2.
      (* writing the current site again changes nothing *)
      assert (W2 : g_walkers g2 = g_walkers g).
      { destruct (vacate_step _ _ _ _ _ Sh E1 O) as (C1 & O1 & _).
        assert (Sh1 : shape g1) by apply (calm_shape clk _ _ C1 Sh).
        assert (Zk : (fun j => if j =? src then Z.b2z (here g ws src) - 1 else Z.b2z (here g ws j)) src = 0)
          by (cbn beta; rewrite Z.eqb_refl, Hs; reflexivity).
        destruct (occupy_step _ _ _ _ Sh1 E2 O1 Zk) as (C2 & _).
        rewrite (k_walkers _ _ (m_kept _ _ C2)). apply C1. }
      destruct Hw as (w & Ew & Ec).
      assert (X : in_walker p (modify (fun w => mkWalker src (w_pot w) (w_dwell w))) g2 = Ret tt g2).
      { unfold in_walker, zoom, at_key. rewrite W2, Ew. cbn. rewrite ureplace_id.
        - rewrite <- W2. rewrite eta_walkers. reflexivity.
        - rewrite Ew. f_equal. rewrite <- Ec. destruct w; reflexivity. }
      unfold bind at 1. rewrite X. exact E.
    + split; [exact A1|]. split; [exact A2|]. split; [exact Kd|]. split; [exact A3|]. split; [exact A4|exact A5].
  - destruct (Main dst eq_refl (or_intror Ed) E) as (A1 & A2 & A3 & A4 & A5).
    split; [exact A1|]. split; [exact A2|]. split; [exact Kd|]. split; [exact A3|]. split; [exact A4|exact A5].
Qed.

(** ** hop: the attempt *)
Lemma attempt_inv fuel dst g g' : hop_attempt clk fuel dst g = Ret tt g' ->
  in_int (g_iter g + 1) = true /\
  ((g_iter g < g_thr g /\ g' = g_with_iter (g_iter g + 1) g) \/
   (g_thr g <= g_iter g /\ g_thrmin g = inf_iterations /\ g' = g_with_iter 0 g) \/
   (g_thr g <= g_iter g /\ g_thrmin g <> inf_iterations /\
    exists b g1, coarse_grain clk fuel dst (g_with_iter (g_iter g + 1) g) = Ret b g1 /\
      (b = false -> in_int (g_thr g1 * 2) = true) /\
      g' = g_with_iter 0 (g_with_thr (if b then g_thrmin g else g_thr g1 * 2) g1))).
Proof.
  unfold hop_attempt. intros E.
  apply bind_ret_inv in E. destruct E as (i & g1 & E1 & E). inversion E1; subst i g1; clear E1.
  apply bind_ret_inv in E. destruct E as (i & g1 & E1 & E). apply lift_ret in E1. destruct E1 as [E1 ->].
  apply chk_inv in E1. destruct E1 as [E1 Ei]; subst i. split; [exact Ei|].
  apply bind_ret_inv in E. destruct E as (u & g1 & E1 & E). inversion E1; subst u g1; clear E1.
  apply bind_ret_inv in E. destruct E as (t & g1 & E1 & E). inversion E1; subst t g1; clear E1.
  cbn [g_thr g_with_iter] in E. destruct (Z.ltb_spec (g_thr g) (g_iter g + 1)) as [Lt|Ge].
  2:{ left. inversion E. split; [lia|reflexivity]. }
  right. apply bind_ret_inv in E. destruct E as (m & g1 & E1 & E). inversion E1; subst m g1; clear E1.
  cbn [g_thrmin g_with_iter] in E. destruct (Z.eqb_spec (g_thrmin g) inf_iterations) as [Ef|Nf]; cbn [negb] in E.
  - left. apply bind_ret_inv in E. destruct E as (u & g1 & E1 & E). inversion E1; subst u g1; clear E1. inversion E.
    split; [lia|]. split; [exact Ef|reflexivity].
  - right. split; [lia|]. split; [exact Nf|]. apply bind_ret_inv in E. destruct E as (u & g1 & E1 & E). inversion E; subst g'; clear E.
    apply bind_ret_inv in E1. destruct E1 as (b & g2 & E2 & E). exists b, g2. split; [exact E2|]. destruct b.
    + inversion E. split; [discriminate|reflexivity].
    + apply bind_ret_inv in E. destruct E as (t & g3 & E3 & E). inversion E3; subst t g3; clear E3.
      apply bind_ret_inv in E. destruct E as (t & g3 & E3 & E). apply lift_ret in E3. destruct E3 as [E3 ->].
      apply chk_inv in E3. destruct E3 as [E3 Ei']; subst t. inversion E. split; [auto|reflexivity].
Qed.

(** apart from the hop counters, an attempt is a coarse graining *)
Lemma attempt_step fuel dst g g' ws : inv g ws -> hop_attempt clk fuel dst g = Ret tt g' ->
  inv g' ws /\ grain (g_with_iter (g_iter g') (g_with_thr (g_thr g') g)) g'.
Proof.
  intros V E. apply attempt_inv in E. destruct E as (_ & E).
  assert (Shi : forall i t, shape (g_with_iter i (g_with_thr t g))) by (intros i t; destruct (v_shape _ _ V); constructor; assumption).
  assert (Gi : forall i t x, shape x -> shape (g_with_iter i (g_with_thr t x))) by (intros i t x []; constructor; assumption).
  destruct E as [(_ & ->)|[(_ & _ & ->)|(_ & _ & b & g1 & E & _ & ->)]].
  - split; [|apply (grain_refl 0 []), (Shi (g_iter g + 1) (g_thr g))]. eapply inv_same; [exact V|apply (Shi (g_iter g + 1) (g_thr g))|auto|reflexivity|apply V|reflexivity].
  - split; [|apply (grain_refl 0 []), (Shi 0 (g_thr g))]. eapply inv_same; [exact V|apply (Shi 0 (g_thr g))|auto|reflexivity|apply V|reflexivity].
  - destruct (coarse_shape clk _ _ _ _ _ (Shi (g_iter g + 1) (g_thr g)) E) as [Sh1 G1].
    set (t := if b then g_thrmin g else g_thr g1 * 2).
    assert (G2 : grain (g_with_iter 0 (g_with_thr t g)) (g_with_iter 0 (g_with_thr t g1))).
    { destruct G1. constructor; auto. }
    split; [|exact G2]. eapply inv_same; [exact V|apply Gi, Sh1| | | |].
    + intros oc O. apply (grain_occ _ _ _ G1). exact O.
    + apply G2.
    + rewrite (r_walkers _ _ G2). apply V.
    + intros p _. rewrite (r_walkers _ _ G2). reflexivity.
Qed.

Lemma hop_inv fuel id p g g' : sys_hop clk fuel id p g = Ret tt g' ->
  exists w g1, ulookup p (g_walkers g) = Some w /\ w_cur w <> unassignedId /\ w_pot w <> unassignedId /\
    hop_move clk id p (w_cur w) (w_pot w) g = Ret tt g1 /\ hop_attempt clk fuel (w_pot w) g1 = Ret tt g'.
Proof.
  unfold sys_hop. intros E.
  apply bind_ret_inv in E. destruct E as (a & g1 & E1 & E). apply getSite_ret in E1. destruct E1 as (-> & N1 & w & Ew & <-).
  apply bind_ret_inv in E. destruct E as (d & g1 & E1 & E). apply getPotential_ret in E1. destruct E1 as (-> & N2 & w' & Ew' & <-).
  assert (w' = w) by congruence. subst w'.
  apply bind_ret_inv in E. destruct E as ([] & g1 & E1 & E). exists w, g1. auto.
Qed.

(** ** The other calls *)
Lemma inv_config g ws g' : g_sites g' = g_sites g -> g_clusters g' = g_clusters g -> g_feats g' = g_feats g ->
  g_count g <= g_count g' -> NoDup (ukeys (g_walkers g')) ->
  (forall p, In p ws -> ulookup p (g_walkers g') = ulookup p (g_walkers g)) ->
  inv g ws -> inv g' ws.
Proof.
  intros Es Ec Ef En Nw L V. eapply inv_same; [exact V| | |rewrite Es; reflexivity|exact Nw|exact L].
  - destruct (v_shape _ _ V). constructor; unfold member in *; rewrite ?Es, ?Ec, ?Ef; auto; try lia.
    + intros k s E. destruct (h_site k s E) as [A [B|B]]; split; auto. right; lia.
    + intros c cl E. destruct (h_cl c cl E) as (A & B & X). split; [exact A|]. split; [lia|exact X].
  - unfold occ_is, member. rewrite Es, Ec. auto.
Qed.

(** a new site *)
Lemma inv_new_site g ws k s f : inv g ws -> umem k (g_sites g) = false ->
  s_id s = Some k -> s_cluster s = unassignedId -> s_occ s = 0 ->
  f = uset (g_feats g) k (PSite k) ->
  inv (g_with_feats f (g_with_sites (uset (g_sites g) k s) g)) ws.
Proof.
  intros [] Nk Ei Eu Eo ->. destruct v_shape.
  assert (Ls : forall j, ulookup j (uset (g_sites g) k s) = if j =? k then Some s else ulookup j (g_sites g))
    by (intros j; apply uset_lookup; exact h_nds).
  apply umem_false_lookup in Nk.
  assert (Nh : here g ws k = false).
  { apply here_false. intros p Hp Hw. destruct (v_on p Hp) as (j & Hj & Kj).
    assert (j = k) by (eapply walker_on_fun; eauto). subst j. apply ukeys_In in Kj. destruct Kj. congruence. }
  constructor; auto.
  - constructor; cbn [g_sites g_clusters g_feats g_count g_with_feats g_with_sites]; auto.
    + apply uset_NoDup, h_nds.
    + apply uset_NoDup, h_ndf.
    + intros j s'. rewrite Ls. destruct (Z.eqb_spec j k) as [->|]; [|apply h_site]. intros E; inversion E; subst. auto.
    + intros j. rewrite Ls, uset_lookup by exact h_ndf. destruct (Z.eqb_spec j k) as [->|]; [|apply h_feat].
      rewrite Eu, Z.eqb_refl. reflexivity.
    + intros c j m Hm. rewrite Ls. destruct (h_mem c j m Hm) as (s' & Es & X). destruct (Z.eqb_spec j k) as [->|]; [congruence|eauto].
    + intros j s' cl. rewrite Ls. destruct (Z.eqb_spec j k) as [->|].
      * intros E; inversion E; subst s'. rewrite Eu. intros Ec. destruct (h_cl _ _ Ec) as (_ & X & _). unfold unassignedId, INT_MIN in X. lia.
      * apply h_own.
  - destruct v_occ as [O1 O2]. split; [|exact O2]. intros j s'. cbn [g_sites g_with_feats g_with_sites]. rewrite Ls.
    destruct (Z.eqb_spec j k) as [->|].
    + intros E _; inversion E; subst s'. rewrite Eo. change (here (g_with_feats _ _) ws k) with (here g ws k). rewrite Nh. reflexivity.
    + apply O1.
  - intros p Hp. destruct (v_on p Hp) as (j & Hj & Kj). exists j. split; [exact Hj|].
    cbn [g_sites g_with_feats g_with_sites]. apply uset_keys_In. auto.
Qed.

Definition blank (s : site) : Prop := s_cluster s = unassignedId /\ s_occ s = 0 /\ s_visits s = 0.

(** everything but neighbours, probabilities, time constant and engine is kept *)
Definition sfix (s s' : site) : Prop :=
  s_id s' = s_id s /\ s_cluster s' = s_cluster s /\ s_occ s' = s_occ s /\ s_visits s' = s_visits s.
Definition sfixes {A} (m : M site A) : Prop := forall s a s', m s = Ret a s' -> sfix s s'.
Lemma sfix_refl s : sfix s s. Proof. repeat split. Qed.
Lemma sfixes_bind {A B} (m : M site A) (f : A -> M site B) : sfixes m -> (forall a, sfixes (f a)) -> sfixes (bind m f).
Proof.
  intros Hm Hf s b s'' E. apply bind_ret_inv in E. destruct E as (a & s' & E1 & E2).
  destruct (Hm _ _ _ E1) as (A1 & A2 & A3 & A4), (Hf _ _ _ _ E2) as (B1 & B2 & B3 & B4).
  repeat split; congruence.
Qed.
Lemma sfixes_assert b : sfixes (cassert b).
Proof. unfold cassert. destruct b; intros s a s' E; inversion E; apply sfix_refl. Qed.
Lemma sfixes_modify f : (forall s, sfix s (f s)) -> sfixes (modify f).
Proof. intros Hf s a s' E. inversion E; subst; apply Hf. Qed.
Lemma sfixes_gets {A} (f : site -> A) : sfixes (gets f).
Proof. intros s a s' E. inversion E; subst; apply sfix_refl. Qed.
Lemma sfixes_ret {A} (a : A) : sfixes (ret a).
Proof. intros s b s' E. inversion E; subst; apply sfix_refl. Qed.
Lemma sfixes_mfor {A} (l : list A) (body : A -> M site unit) : (forall x, sfixes (body x)) -> sfixes (mfor l body).
Proof. intros Hb. induction l; cbn [mfor]; [apply sfixes_ret|apply sfixes_bind; auto]. Qed.
Lemma sfixes_setRates h rates : sfixes (s_setRates h rates).
Proof.
  unfold s_setRates. apply sfixes_bind; [apply sfixes_assert|intros _]. apply sfixes_bind; [|intros _].
  - apply sfixes_mfor. intros e. apply sfixes_bind; [apply sfixes_assert|intros _]. apply sfixes_modify. intros s; repeat split.
  - apply sfixes_bind; [unfold s_calcTau; apply sfixes_modify; intros s; repeat split|intros _].
    intros s a s' E. unfold s_calcProb in E. destruct (prob_loop _ _ _ _); inversion E. repeat split.
Qed.

Lemma addSite_ret s k g g' : s_id s = Some k -> in_sites (sc_addSite s) g = Ret tt g' ->
  umem k (g_sites g) = false /\ g' = g_with_sites (uset (g_sites g) k s) g.
Proof.
  intros Ei E. apply in_sites_ret in E. destruct E as (m & E & ->). unfold sc_addSite in E.
  apply bind_ret_inv in E. destruct E as (i & m1 & E1 & E). apply lift_ret in E1. destruct E1 as [E1 ->].
  unfold s_getId in E1. rewrite Ei in E1. inversion E1; subst i.
  apply bind_ret_inv in E. destruct E as (x & m1 & E2 & E). inversion E2; subst x m1.
  destruct (umem k (g_sites g)); [discriminate|]. inversion E. auto.
Qed.

Lemma init_site_inv k rates g g' : init_site clk k rates g = Ret tt g' ->
  exists s sd, umem k (g_sites g) = false /\ s_id s = Some k /\ blank s /\
    (exists t e s0, s_setRates (g_heap g) rates (s_with_id (Some k) (site_new t)) = Ret tt s0 /\ s = s_with_rng e s0) /\
    g' = g_with_feats (uset (g_feats g) k (PSite k)) (g_with_sites (uset (g_sites g) k s) (g_with_seed sd (g_with_tick (g_tick g + 1) g))).
Proof.
  unfold init_site. intros E.
  apply bind_ret_inv in E. destruct E as (t & g1 & E1 & E). apply read_clock_ret in E1. subst g1.
  apply bind_ret_inv in E. destruct E as (h & g1 & E1 & E). inversion E1; subst h g1; clear E1.
  apply bind_ret_inv in E. destruct E as ([u s0] & g1 & E1 & E). apply local_ret in E1. destruct E1 as [-> E1]. cbn [fst snd] in *.
  apply bind_ret_inv in E1. destruct E1 as (u1 & s1 & E1 & E2). inversion E1; subst u1 s1; clear E1. destruct u.
  apply bind_ret_inv in E. destruct E as (sd & g1 & E1 & E).
  assert (Hsd : exists x, g1 = g_with_seed x (g_with_tick (g_tick g + 1) g)).
  { unfold use_seed in E1. cbn [g_seed g_with_tick] in E1. destruct (g_seed g) eqn:Es; inversion E1; eauto.
    exists None. unfold g_with_seed, g_with_tick. cbn. rewrite Es. reflexivity. }
  destruct Hsd as [x ->]. clear E1.
  apply bind_ret_inv in E. destruct E as ([u s1] & g1 & E1 & E). apply local_ret in E1. destruct E1 as [-> E1]. cbn [fst snd] in *.
  assert (Hs : exists e, s1 = s_with_rng e s0).
  { destruct sd; inversion E1; eauto. exists (s_rng s1). destruct s1; reflexivity. }
  destruct Hs as [e ->]. clear E1.
  destruct (sfixes_setRates _ _ _ _ _ E2) as (A1 & A2 & A3 & A4).
  apply bind_ret_inv in E. destruct E as ([] & g1 & E1 & E). apply (addSite_ret _ k) in E1; [|exact A1].
  destruct E1 as (Nk & ->). inversion E; subst g'; clear E.
  exists (s_with_rng e s0), x. split; [exact Nk|]. split; [exact A1|]. split; [split; [exact A2|split; [exact A3|exact A4]]|].
  split; [|reflexivity]. exists t, e, s0. auto.
Qed.
Lemma init_drain_inv k g g' : init_drain clk k g = Ret tt g' ->
  exists t, umem k (g_sites g) = false /\
    g' = g_with_feats (uset (g_feats g) k (PSite k)) (g_with_sites (uset (g_sites g) k (s_with_id (Some k) (site_new t))) (g_with_tick (g_tick g + 1) g)).
Proof.
  unfold init_drain. intros E.
  apply bind_ret_inv in E. destruct E as (t & g1 & E1 & E). apply read_clock_ret in E1. subst g1.
  apply bind_ret_inv in E. destruct E as ([u s0] & g1 & E1 & E). apply local_ret in E1. destruct E1 as [-> E1]. cbn [fst snd] in *.
  inversion E1; subst u s0; clear E1.
  apply bind_ret_inv in E. destruct E as ([] & g1 & E1 & E). apply (addSite_ret _ k) in E1; [|reflexivity].
  destruct E1 as (Nk & ->). inversion E; subst g'; clear E. exists t. auto.
Qed.

Lemma inv_init_site k rates g g' ws : inv g ws -> init_site clk k rates g = Ret tt g' -> inv g' ws.
Proof.
  intros V E. apply init_site_inv in E. destruct E as (s & sd & Nk & Ei & (B1 & B2 & B3) & _ & ->).
  apply (inv_new_site (g_with_seed sd (g_with_tick (g_tick g + 1) g)) ws k s); auto.
  eapply inv_config; [| | | | | |exact V]; try reflexivity; apply V.
Qed.
Lemma inv_init_drain k g g' ws : inv g ws -> init_drain clk k g = Ret tt g' -> inv g' ws.
Proof.
  intros V E. apply init_drain_inv in E. destruct E as (t & Nk & ->).
  apply (inv_new_site (g_with_tick (g_tick g + 1) g) ws k); auto.
  eapply inv_config; [| | | | | |exact V]; try reflexivity; apply V.
Qed.
Lemma inv_mfor {A} (l : list A) body ws : (forall x g g', inv g ws -> body x g = Ret tt g' -> inv g' ws) ->
  forall g g', inv g ws -> mfor l body g = Ret tt g' -> inv g' ws.
Proof.
  intros Hb. induction l as [|x l IH]; cbn [mfor]; intros g g' V E; [inversion E; subst; exact V|].
  apply bind_ret_inv in E. destruct E as ([] & g1 & E1 & E). eauto.
Qed.
Lemma inv_initSystem rates g g' ws : inv g ws -> sys_initializeSystem clk rates g = Ret tt g' -> inv g' ws.
Proof.
  intros V E. unfold sys_initializeSystem in E.
  apply bind_ret_inv in E. destruct E as (r & g1 & E1 & E). inversion E1; subst r g1; clear E1.
  destruct (g_res g); [|discriminate]. apply bind_ret_inv in E. destruct E as ([] & g1 & E1 & E).
  eapply inv_mfor in E; [exact E| |].
  - intros x a b. apply inv_init_drain.
  - eapply inv_mfor in E1; [exact E1| |exact V]. intros [k r] a b. apply inv_init_site.
Qed.

(** walkers enter *)
Lemma enter_step id p g g' ws k : inv g ws -> ~ In p ws -> walker_on g p k -> here g ws k = false ->
  cluster_of g k unassignedId -> init_walker id p g = Ret tt g' ->
  inv g' (p :: ws) /\ drift g g' /\ (forall q, q <> p -> ulookup q (g_walkers g') = ulookup q (g_walkers g)) /\ walker_on g' p k.
Proof.
  intros V Np Hw Nh [gx Hc] E. pose proof V as [Sh O NDw ND On Ex]. unfold init_walker in E.
  apply bind_ret_inv in E. destruct E as (a & g1 & E1 & E). apply getSite_ret in E1. destruct E1 as (-> & _ & w & Ew & Ea).
  assert (Eak : a = k) by (destruct Hw as (w' & Ew' & <-); congruence). rewrite Eak in *. clear Eak a.
  apply bind_ret_inv in E. destruct E as (f & g1 & E1 & E). inversion E1; subst f g1; clear E1.
  destruct (umem k (g_feats g)); [|discriminate].
  unfold sys_getClusterId in Hc. apply sites_read in Hc. destruct Hc as (_ & s & Es & Hc). inversion Hc as [Hu]; clear Hc.
  apply bind_ret_inv in E. destruct E as ([] & g1 & E1 & E).
  assert (Zk : (fun j => Z.b2z (here g ws j)) k = 0) by (cbn beta; rewrite Nh; reflexivity).
  destruct (occupy0_step _ _ _ _ _ Sh E1 O Zk Es Hu) as (C1 & O1).
  assert (Sh1 : shape g1) by apply (calm_shape clk _ _ C1 Sh).
  apply bind_ret_inv in E. destruct E as (t & g2 & E2 & E).
  destruct (dwell_step _ _ _ _ _ _ Sh1 E2 O1) as (C2 & O2 & _).
  assert (Sh2 : shape g2) by apply (calm_shape clk _ _ C2 Sh1).
  apply bind_ret_inv in E. destruct E as (n & g3 & E3 & E).
  destruct (pick_step _ _ _ _ _ _ Sh2 E3 O2) as (C3 & O3 & _).
  apply bind_ret_inv in E. destruct E as (u & g4 & E4 & E). apply walker_set in E4. destruct E4 as (w4 & Ew4 & Eg4 & K4 & L4).
  apply walker_set in E. destruct E as (w5 & Ew5 & Eg5 & K5 & L5).
  assert (C : calm g g3) by (eapply calm_trans; [exact C1|eapply calm_trans; eauto]).
  assert (W : g_walkers g3 = g_walkers g) by apply C.
  assert (D : drift g g').
  { apply (drift_trans _ g3); [apply calm_drift, C|]. apply (drift_trans _ g4); [rewrite Eg4; apply drift_walkers|rewrite Eg5; apply drift_walkers]. }
  assert (Cu : w_cur w4 = k) by (rewrite W in Ew4; congruence).
  rewrite L4, Z.eqb_refl in Ew5. inversion Ew5; subst w5; clear Ew5.
  assert (Lq : forall q, q <> p -> ulookup q (g_walkers g') = ulookup q (g_walkers g)).
  { intros q Nq. rewrite L5, L4, W. apply Z.eqb_neq in Nq. rewrite Nq. reflexivity. }
  assert (Onp : walker_on g' p k). { eexists. rewrite L5, Z.eqb_refl. split; [reflexivity|exact Cu]. }
  assert (Onq : forall q j, In q ws -> walker_on g' q j <-> walker_on g q j).
  { intros q j Hq. apply on_same, Lq. intros ->. contradiction. }
  assert (Ks : ukeys (g_sites g') = ukeys (g_sites g)) by apply (same_keys _ _ _ (m_sites _ _ D)).
  assert (Nk : forall q, In q ws -> ~ walker_on g q k) by (apply here_false; exact Nh).
  split; [|split; [exact D|split; [exact Lq|exact Onp]]]. constructor.
  - apply (drift_shape _ _ D Sh).
  - assert (O5 : occ_is g' (fun j => if j =? k then 1 else Z.b2z (here g ws j))).
    { rewrite Eg5. change (occ_is g4 (fun j => if j =? k then 1 else Z.b2z (here g ws j))). rewrite Eg4. exact O3. }
    eapply occ_ext; [exact O5|]. intros j. cbn beta. destruct (Z.eqb_spec j k) as [->|Nj].
    + assert (X : here g' (p :: ws) k = true) by (apply here_true; exists p; split; [left; reflexivity|exact Onp]). rewrite X. reflexivity.
    + f_equal. symmetry. apply here_eq. split.
      * intros (q & Hq & Hqj). exists q. split; [right; exact Hq|apply Onq; assumption].
      * intros (q & [<-|Hq] & Hqj); [exfalso; apply Nj; eapply walker_on_fun; eauto|].
        exists q. split; [exact Hq|apply Onq; assumption].
  - rewrite K5, K4, W. exact NDw.
  - constructor; assumption.
  - intros q [<-|Hq]; rewrite Ks; [exists k; split; [exact Onp|eapply ulookup_In_key; eauto]|].
    destruct (On q Hq) as (j & H1 & H2). exists j. split; [apply Onq; assumption|exact H2].
  - intros q q' j [<-|Hq] [<-|Hq'] H1 H2; auto.
    + exfalso. assert (j = k) by (apply (walker_on_fun g' p); assumption). subst j. apply (Nk q' Hq'). apply Onq; assumption.
    + exfalso. assert (j = k) by (apply (walker_on_fun g' p); assumption). subst j. apply (Nk q Hq). apply Onq; assumption.
    + apply Onq in H1, H2; auto. eauto.
Qed.

Lemma cluster_of_iff g k c : cluster_of g k c <-> exists s, ulookup k (g_sites g) = Some s /\ s_cluster s = c.
Proof.
  unfold cluster_of, sys_getClusterId. split.
  - intros [g' E]. apply sites_read in E. destruct E as (_ & s & Es & E). inversion E. eauto.
  - intros (s & Es & <-). exists g. unfold in_sites, zoom, sc_getClusterId, read_key. rewrite Es. cbn. rewrite eta_sites. reflexivity.
Qed.
Lemma cluster_of_drift g g' k c : drift g g' -> cluster_of g k c -> cluster_of g' k c.
Proof.
  rewrite !cluster_of_iff. intros D (s & Es & Ec). destruct (calm_site _ _ k s D Es) as (s' & Es' & F).
  exists s'. split; [exact Es'|]. destruct (frz_s_eq _ _ F) as (_ & -> & _). exact Ec.
Qed.

Lemma enter_all l : forall g g' ws, inv g ws ->
  NoDup (map snd l) -> (forall p, In p (map snd l) -> ~ In p ws) ->
  (forall p q k, In p (map snd l) -> In q (map snd l) -> walker_on g p k -> walker_on g q k -> p = q) ->
  (forall p q k, In p (map snd l) -> In q ws -> walker_on g p k -> ~ walker_on g q k) ->
  (forall p k, In p (map snd l) -> walker_on g p k -> cluster_of g k unassignedId) ->
  mfor l (fun w => init_walker (fst w) (snd w)) g = Ret tt g' -> inv g' (map snd l ++ ws) /\ drift g g'.
Proof.
  induction l as [|[id p] l IH]; intros g g' ws V ND Nw Dl Dw Cu E; cbn [mfor map snd fst] in *; [inversion E; subst; split; [exact V|apply drift_refl]|].
  apply bind_ret_inv in E. destruct E as ([] & g1 & E1 & E). inversion ND as [|? ? Np ND']; subst.
  assert (Hw : exists k, walker_on g p k).
  { unfold init_walker in E1. apply bind_ret_inv in E1. destruct E1 as (k & g2 & E1 & _). apply getSite_ret in E1.
    destruct E1 as (_ & _ & w & Ew & Ec). exists k, w. auto. }
  destruct Hw as [k Hw].
  destruct (enter_step id p g g1 ws k) as (V1 & D1 & L1 & Onp); auto.
  { apply Nw. left; reflexivity. }
  { apply here_false. intros q Hq. apply (Dw p q k); auto. left; reflexivity. }
  { apply (Cu p k); auto. left; reflexivity. }
  assert (On1 : forall q j, q <> p -> walker_on g1 q j <-> walker_on g q j) by (intros q j Nq; apply on_same, L1, Nq).
  assert (Nl : forall q, In q (map snd l) -> q <> p) by (intros q Hq ->; contradiction).
  assert (V2 : inv g' (map snd l ++ p :: ws) /\ drift g1 g').
  { assert (Ir : forall q, In q (map snd l) -> In q (p :: map snd l)) by (intros q Hq; right; exact Hq).
    apply (IH g1 g' (p :: ws) V1 ND'); [| | | |exact E].
    - intros q Hq [X|X]; [apply (Nl q Hq); auto|]. apply (Nw q); auto.
    - intros q q' j Hq Hq' H1 H2. apply On1 in H1; [|apply Nl, Hq]. apply On1 in H2; [|apply Nl, Hq']. apply (Dl q q' j); auto.
    - intros q q' j Hq [<-|Hq'] H1 H2; apply (On1 _ _ (Nl _ Hq)) in H1.
      + assert (j = k) by (apply (walker_on_fun g1 p); assumption). subst j. apply (Nl q Hq). apply (Dl q p k); auto. left; reflexivity.
      + assert (Nq' : q' <> p) by (intros ->; apply (Nw p); [left; reflexivity|exact Hq']). apply On1 in H2; [|exact Nq']. apply (Dw q q' j (Ir q Hq) Hq' H1 H2).
    - intros q j Hq H1. apply On1 in H1; [|apply Nl, Hq]. apply (cluster_of_drift g); [exact D1|]. apply (Cu q j); auto. }
  destruct V2 as [V2 D2]. split; [|eapply drift_trans; eauto].
  eapply inv_perm; [|exact V2]. symmetry. apply Permutation_middle.
Qed.

(** a walker leaves *)
Lemma leave_step id p g g' ws : inv g ws -> In p ws -> sys_removeWalker clk id p g = Ret tt g' ->
  inv g' (remove Z.eq_dec p ws) /\ calm g g'.
Proof.
  intros V Hp E. pose proof V as [Sh O NDw ND On Ex]. unfold sys_removeWalker in E.
  apply bind_ret_inv in E. destruct E as (k & g1 & E1 & E). apply getSite_ret in E1. destruct E1 as (-> & _ & w & Ew & Ek).
  assert (Hw : walker_on g p k) by (exists w; auto).
  destruct (remove_step clk _ _ _ _ _ Sh E O) as (C & O1 & _ & _).
  assert (W : g_walkers g' = g_walkers g) by apply C.
  assert (Hh : here g ws k = true) by (apply here_true; eauto).
  assert (Wo : forall q j, walker_on g' q j <-> walker_on g q j) by (intros; apply on_same; rewrite W; reflexivity).
  split; [|exact C]. constructor.
  - apply (calm_shape clk _ _ C Sh).
  - eapply occ_ext; [exact O1|]. intros j. cbn beta. destruct (Z.eqb_spec j k) as [->|Nj].
    + rewrite Hh. assert (X : here g' (remove Z.eq_dec p ws) k = false).
      { apply here_false. intros q Hq Hqk. apply in_remove in Hq. destruct Hq as [Hq Nq]. apply Nq. apply (Ex q p k); auto. apply Wo, Hqk. }
      rewrite X. reflexivity.
    + f_equal. symmetry. apply here_eq. split; intros (q & Hq & Hqj); exists q.
      * split; [|apply Wo, Hqj]. apply in_in_remove; [|exact Hq]. intros ->. apply Nj. eapply walker_on_fun; eauto.
      * apply in_remove in Hq. split; [tauto|apply Wo, Hqj].
  - rewrite W. exact NDw.
  - clear - ND. induction ws as [|x ws IH]; cbn [remove]; [constructor|]. inversion ND; subst.
    destruct (Z.eq_dec p x); [auto|]. constructor; [|auto]. intros Hx. apply in_remove in Hx. tauto.
  - intros q Hq. apply in_remove in Hq. destruct (On q (proj1 Hq)) as (j & H1 & H2). exists j.
    rewrite (same_keys _ _ _ (m_sites _ _ C)). split; [apply Wo, H1|exact H2].
  - intros q q' j Hq Hq' H1 H2. apply in_remove in Hq, Hq'. apply Wo in H1, H2. apply (Ex q q' j); tauto.
Qed.

(** asking for visits only changes what clusters remember about visits *)
Lemma getVisits_inv k v g g' : sys_getVisits k g = Ret v g' ->
  exists s, ulookup k (g_sites g) = Some s /\
  ((s_cluster s < 0 /\ v = s_visits s /\ g' = g) \/
   (0 <= s_cluster s /\ exists cl cl' v', ulookup (s_cluster s) (g_clusters g) = Some cl /\
      c_getVisits k cl = Ret v' cl' /\ v = s_visits s + v' /\
      g' = g_with_clusters (ureplace (s_cluster s) cl' (g_clusters g)) g)).
Proof.
  unfold sys_getVisits. intros E.
  apply bind_ret_inv in E. destruct E as (m & g1 & E1 & E). inversion E1; subst m g1; clear E1.
  destruct (umem k (g_sites g)); [|discriminate].
  apply bind_ret_inv in E. destruct E as (s & g1 & E1 & E). apply sites_read in E1. destruct E1 as (-> & s0 & Es & E1). inversion E1; subst s0; clear E1.
  exists s. split; [exact Es|].
  apply bind_ret_inv in E. destruct E as (b & g1 & E1 & E). apply sites_read in E1. destruct E1 as (-> & s0 & Es0 & E1).
  assert (s0 = s) by congruence. subst s0. inversion E1 as [Eb]; clear E1 Es0.
  unfold s_partOfCluster in *. destruct (Z.gtb_spec (s_cluster s) (-1)) as [Nu|Eu]; subst b.
  2:{ left. inversion E. split; [lia|auto]. }
  - right. split; [lia|]. apply bind_ret_inv in E. destruct E as (c & g1 & E1 & E). apply sites_read in E1. destruct E1 as (-> & s0 & Es0 & E1).
    assert (s0 = s) by congruence. subst s0. inversion E1; subst c; clear E1 Es0.
    apply bind_ret_inv in E. destruct E as (v' & g1 & E1 & E). apply in_clusters_ret in E1. destruct E1 as (m & E1 & ->).
    apply at_key_ret in E1. destruct E1 as [[_ E1]|(cl & cl' & Ec & E1 & ->)]; [discriminate|].
    inversion E; subst. exists cl, cl', v'. auto.
Qed.

Lemma visits_step k v g g' ws : inv g ws -> sys_getVisits k g = Ret v g' -> inv g' ws.
Proof.
  intros V E. apply getVisits_inv in E.
  destruct E as (s & Es & [(_ & _ & ->)|(_ & cl & cl' & v' & Ec & E & _ & ->)]); [exact V|].
  pose proof (keeps_getVisits _ _ _ _ E) as K.
  eapply inv_same; [exact V| | |reflexivity|apply V|reflexivity].
  - apply (shape_cluster 0 [] g _ cl cl'); [apply V|exact Ec|apply same_core_like, K].
  - intros oc [O1 O2]. split; [exact O1|]. intros c j m Hm. apply (member_replace g _ cl cl') in Hm; [|exact Ec].
    destruct Hm as [[-> Hm]|[_ Hm]]; [|eapply O2; eauto].
    rewrite (sc_sites _ _ K) in Hm. eapply O2. exists cl. eauto.
Qed.

(** ** Every action *)
Theorem step_inv g ws c g' ws' : inv g ws -> step clk g ws c g' ws' -> inv g' ws'.
Proof.
  intros V S. destruct S as [p g' E|t g' E|t g' E|s g' E|rates g' _ _ E|h|m Hm L|n t Hn|l g' H1 H2 H3 H4 H5 E|fuel id p g' Hp E|id p g' Hp E|k v g' E].
  - inversion E; subst. eapply inv_config; [| | | | | |exact V]; try reflexivity; apply V.
  - unfold sys_setTimeResolution in E. destruct (nleb t n0); [discriminate|]. inversion E; subst.
    eapply inv_config; [| | | | | |exact V]; try reflexivity; apply V.
  - inversion E; subst. eapply inv_config; [| | | | | |exact V]; try reflexivity; apply V.
  - unfold sys_setRandomSeed in E. apply bind_ret_inv in E. destruct E as (f & g1 & E1 & E). inversion E1; subst f g1; clear E1.
    destruct (g_feats g); [|discriminate]. inversion E; subst. eapply inv_config; [| | | | | |exact V]; try reflexivity; apply V.
  - eapply inv_initSystem; eauto.
  - eapply inv_config; [| | | | | |exact V]; try reflexivity; apply V.
  - eapply inv_config; [| | | | | |exact V]; try reflexivity; assumption.
  - eapply inv_config; [| | | | | |exact V]; try reflexivity; [exact Hn|apply V].
  - unfold sys_initializeWalkers in E. apply bind_ret_inv in E. destruct E as (f & g1 & E1 & E). inversion E1; subst f g1; clear E1.
    destruct (g_feats g); [discriminate|]. eapply enter_all; eauto.
  - apply hop_inv in E. destruct E as (w & g1 & Ew & _ & _ & E1 & E2).
    destruct (move_step _ _ _ _ _ _ _ V Hp (ex_intro _ w (conj Ew eq_refl)) E1) as (V1 & _).
    apply (attempt_step _ _ _ _ _ V1 E2).
  - eapply leave_step; eauto.
  - eapply visits_step; eauto.
Qed.
Theorem steps_inv g ws tr g' ws' : inv g ws -> steps clk g ws tr g' ws' -> inv g' ws'.
Proof. intros V S. induction S; [exact V|eapply step_inv; eauto]. Qed.
Theorem reach_inv g ws : reach clk g ws -> inv g ws.
Proof.
  intros (tr & walkers & h & count & tick & ND & Hc & S). eapply steps_inv; [|exact S].
  constructor; cbn; try constructor; cbn; try discriminate; auto; try constructor; try tauto; try discriminate.
  - intros c k m (cl & E & _). discriminate.
  - intros c c' k m m' (cl & E & _). discriminate.
  - intros c k m (cl & E & _). discriminate.
Qed.
End Proofs.
