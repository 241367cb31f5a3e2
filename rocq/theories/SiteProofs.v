(** * Proofs about sites *)
From Coq Require Import ZArith List Bool Reals Lra Lia Permutation Sorted.
From Verif Require Import Base Num BaseProofs OrdLaws RSum LatticeReal SiteModel SiteSpec.
Import ListNotations.
Open Scope R_scope.

(** ** The ordered set *)
Definition below_one (x : Z * @num XR) : Prop := exists p, snd x = Fin p /\ 0 <= p < 1.

Lemma trunc_below_one x : below_one x -> @ntrunc XR (snd x) = Some 0%Z.
Proof.
  intros (p & E & Hp). rewrite E. cbn [ntrunc XR xtrunc].
  assert (T : Rtrunc p = 0%Z).
  { unfold Rtrunc. destruct (Rle_dec 0 p); [|lra].
    apply (Rfloor_unique p 0). simpl; lra. }
  rewrite T. reflexivity.
Qed.

Lemma set_cmp_below x y : below_one x -> below_one y -> fst x <> fst y ->
  @set_cmp XR x y = Ok (fst x <? fst y)%Z.
Proof.
  intros Hx Hy Hn. unfold set_cmp. rewrite !trunc_below_one by assumption.
  rewrite (proj2 (Z.eqb_neq _ _) Hn). reflexivity.
Qed.

Definition id_lt (x y : Z * @num XR) : Prop := (fst x < fst y)%Z.

Lemma set_insert_spec x l :
  below_one x -> Forall below_one l -> ~ In (fst x) (map fst l) -> StronglySorted id_lt l ->
  exists l', @set_insert XR x l = Ok l' /\ Permutation l' (x :: l) /\ StronglySorted id_lt l'.
Proof.
  intros Bx. induction l as [|y l IH]; intros Bl Nx Sl.
  - exists [x]; repeat split; auto. repeat constructor.
  - inversion Bl as [|? ? By Bl']; subst. simpl in Nx.
    inversion Sl as [|? ? Sl' Fl]; subst.
    cbn [set_insert].
    rewrite set_cmp_below by (auto; intros E; apply Nx; auto). cbn [rbind].
    destruct (Z.ltb_spec (fst x) (fst y)) as [Hlt|Hge].
    + exists (x :: y :: l). split; [reflexivity|]. split; [reflexivity|].
      constructor; [exact Sl|]. constructor; [exact Hlt|].
      rewrite Forall_forall in *. intros z Hz. specialize (Fl z Hz). unfold id_lt in *; lia.
    + rewrite set_cmp_below by (auto; intros E; apply Nx; auto). cbn [rbind].
      assert (Hlt : (fst y < fst x)%Z) by (assert (fst x <> fst y) by (intros E; apply Nx; auto); lia).
      rewrite (proj2 (Z.ltb_lt _ _) Hlt).
      destruct (IH Bl') as (l' & El & Pl & Sl2); [tauto | exact Sl' |].
      rewrite El. cbn [rbind]. exists (y :: l'). split; [reflexivity|]. split.
      * rewrite Pl. apply perm_swap.
      * constructor; [exact Sl2|]. rewrite Forall_forall in *. intros z Hz.
        apply (Permutation_in _ Pl) in Hz. destruct Hz as [<-|Hz]; [exact Hlt | auto].
Qed.

Definition prob_entry (h : @heap XR) (sum : @num XR) (e : Z * Z) : Z * @num XR :=
  (fst e, @ndiv XR (h (snd e)) sum).

Lemma prob_loop_spec h sum neigh acc :
  Forall below_one (map (prob_entry h sum) neigh) -> Forall below_one acc ->
  NoDup (ukeys neigh) -> (forall n, In n (ukeys neigh) -> ~ In n (map fst acc)) ->
  StronglySorted id_lt acc ->
  exists l, @prob_loop XR h sum neigh acc = Ok l /\
    Permutation l (map (prob_entry h sum) neigh ++ acc) /\ StronglySorted id_lt l.
Proof.
  revert acc; induction neigh as [|e neigh IH]; intros acc Bn Ba ND Dis Sa.
  - exists acc; simpl; auto.
  - cbn [prob_loop map] in *. inversion Bn as [|? ? Be Bn']; subst.
    simpl in ND; inversion ND as [|? ? Hni ND']; subst.
    change (fst e, ndiv (h (snd e)) sum) with (prob_entry h sum e).
    destruct (set_insert_spec (prob_entry h sum e) acc) as (a' & Ea & Pa & Sa'); auto.
    { simpl. apply Dis. simpl; auto. }
    rewrite Ea. cbn [rbind].
    destruct (IH a') as (l & El & Pl & Sl); auto.
    + rewrite Forall_forall in *. intros z Hz. apply (Permutation_in _ Pa) in Hz.
      destruct Hz as [<-|Hz]; auto.
    + intros n Hn Hin. apply (Permutation_in _ (Permutation_map fst Pa)) in Hin.
      simpl in Hin. destruct Hin as [E|Hin].
      * subst n. contradiction.
      * revert Hin. apply Dis. simpl; auto.
    + exists l. split; [exact El|]. split; [|exact Sl].
      rewrite Pl, Pa. simpl. symmetry. apply Permutation_middle.
Qed.

(** ** setRatesToNeighbors *)
Lemma total_rate_pos h rates : good_rates h rates -> 0 < total_rate h rates.
Proof.
  intros (Hne & _ & Hp). apply Rsum_pos; [exact Hne|].
  intros [n a] Hin. destruct (Hp n a Hin) as (r & E & Hr). simpl. rewrite E. exact Hr.
Qed.

Lemma good_value h rates e : good_rates h rates -> In e rates ->
  h (snd e) = Fin (realv (h (snd e))) /\ 0 < realv (h (snd e)).
Proof.
  intros (_ & _ & Hp) Hin. destruct e as [n a]. destruct (Hp n a Hin) as (r & E & Hr).
  simpl. rewrite E. simpl. auto.
Qed.

Lemma sum_rates_XR h rates : good_rates h rates ->
  @sum_rates XR h rates = Fin (total_rate h rates).
Proof.
  intros Hg. unfold sum_rates, total_rate. rewrite n0_XR.
  rewrite (fold_nadd (fun e : Z * Z => h (snd e)) (fun e => realv (h (snd e)))).
  - f_equal; lra.
  - intros e He. apply (good_value h rates e Hg He).
Qed.

Lemma good_perm h rates rates' : Permutation rates rates' -> good_rates h rates -> good_rates h rates'.
Proof.
  intros P (Hne & ND & Hp). split; [|split].
  - intros ->. apply Hne. apply Permutation_nil. symmetry; exact P.
  - eapply Permutation_NoDup; [apply Permutation_map; exact P | exact ND].
  - intros n a Hin. apply (Hp n a). eapply Permutation_in; [symmetry; exact P | exact Hin].
Qed.

Lemma prob_calc h rates : good_rates h rates ->
  exists l, @prob_loop XR h (@sum_rates XR h rates) rates [] = Ok l /\
    Permutation l (map (fun e => (fst e, Fin (realv (h (snd e)) / total_rate h rates))) rates) /\
    StronglySorted id_lt l.
Proof.
  intros Hg. pose proof (total_rate_pos h rates Hg) as Ht.
  assert (E : map (prob_entry h (@sum_rates XR h rates)) rates =
              map (fun e => (fst e, Fin (realv (h (snd e)) / total_rate h rates))) rates).
  { apply map_ext_in. intros e He. unfold prob_entry. rewrite sum_rates_XR by assumption.
    destruct (good_value h rates e Hg He) as [E _]. rewrite E at 1.
    rewrite xdiv_Fin by lra. reflexivity. }
  destruct rates as [|e1 [|e2 rates]].
  - destruct Hg as (Hne & _); congruence.
  - cbn [prob_loop set_insert rbind]. eexists. split; [reflexivity|].
    change [(fst e1, ndiv (h (snd e1)) (sum_rates h [e1]))]
      with (map (prob_entry h (@sum_rates XR h [e1])) [e1]).
    rewrite E. split; [reflexivity | repeat constructor].
  - remember (e1 :: e2 :: rates) as L eqn:EL.
    destruct (prob_loop_spec h (@sum_rates XR h L) L []) as (l & El & Pl & Sl).
    + rewrite E. rewrite Forall_forall. intros x Hx. apply in_map_iff in Hx.
      destruct Hx as (e & <- & He). unfold below_one. simpl.
      eexists; split; [reflexivity|].
      destruct (good_value h L e Hg He) as [_ Hr].
      split; [apply Rlt_le, Rdiv_lt_0_compat; assumption|].
      apply (Rmult_lt_reg_r (total_rate h L)); [assumption|].
      unfold Rdiv. rewrite Rmult_assoc, Rinv_l, Rmult_1_r, Rmult_1_l by lra.
      (* strictly less: another positive rate exists *)
      unfold total_rate.
      apply in_split in He. destruct He as (la & lb & Es). rewrite Es.
      rewrite (Rsum_perm _ (la ++ e :: lb) (e :: la ++ lb)) by (symmetry; apply Permutation_middle).
      simpl. assert (0 < Rsum (fun e0 : Z * Z => realv (h (snd e0))) (la ++ lb)); [|lra].
      apply Rsum_pos.
      * intros Hnil. assert (length L = 1)%nat.
        { rewrite Es, app_length. simpl. apply app_eq_nil in Hnil. destruct Hnil; subst. reflexivity. }
        rewrite EL in H; simpl in H; lia.
      * intros x Hx. apply (good_value h L x Hg). rewrite Es.
        apply in_app_or in Hx. apply in_or_app. simpl. tauto.
    + constructor.
    + apply Hg.
    + intros n _ [].
    + constructor.
    + rewrite app_nil_r, E in Pl. eauto.
Qed.

Section SetRates.
Context {I : Impl} {G : @Rng XR}.

Definition add_all (rates m : umap Z) : umap Z :=
  fold_left (fun m e => uset m (fst e) (snd e)) rates m.

Lemma set_loop h rates (s : @site XR G) :
  (forall n a, In (n, a) rates -> exists r, h a = Fin r /\ 0 < r) ->
  mfor rates (fun e =>
    cassert (negb (@neqb XR (h (snd e)) n0)) ;;
    modify (fun s : @site XR G => s_with_neigh (uset (s_neigh s) (fst e) (snd e)) s)) s
  = Ret tt (s_with_neigh (add_all rates (s_neigh s)) s).
Proof.
  revert s; induction rates as [|[n a] rates IH]; intros s Hp.
  - simpl. destruct s; reflexivity.
  - cbn [mfor]. unfold bind at 1. unfold bind at 1. cbn [fst snd].
    destruct (Hp n a) as (r & E & Hr); [simpl; auto|]. rewrite E.
    assert (En : @neqb XR (Fin r) n0 = false)
      by (cbn [neqb XR n0 nofZ xeqb]; apply Reqb_false; simpl; lra).
    rewrite En. cbn [negb cassert ret modify].
    rewrite IH; [|intros; apply (Hp n0 a0); simpl; auto].
    f_equal.
Qed.

Lemma add_all_fresh rates m :
  NoDup (ukeys rates) -> (forall n, In n (ukeys rates) -> ~ In n (ukeys m)) ->
  Permutation (add_all rates m) (rates ++ m).
Proof.
  revert m; induction rates as [|[n a] rates IH]; intros m ND Dis; [reflexivity|].
  simpl in ND; inversion ND as [|? ? Hni ND']; subst.
  cbn [add_all fold_left fst snd]. fold (add_all rates (uset m n a)).
  rewrite IH; [| exact ND' |].
  - rewrite (uset_perm_new m n a).
    + simpl. symmetry. apply Permutation_middle.
    + apply umem_false. apply Dis. simpl; auto.
  - intros k Hk Hin. apply uset_keys_In in Hin. destruct Hin as [->|Hin]; [contradiction|].
    revert Hin. apply Dis. simpl; auto.
Qed.

(** the state after recomputing, for an arbitrary neighbour map *)
Lemma calc_spec h (s : @site XR G) : good_rates h (s_neigh s) ->
  exists l, (s_calcTau h ;; s_calcProb h) s =
    Ret tt (s_with_prob l (s_with_tau (Fin (1 / total_rate h (s_neigh s))) s)) /\
    Permutation l (map (fun e => (fst e, Fin (realv (h (snd e)) / total_rate h (s_neigh s)))) (s_neigh s)) /\
    StronglySorted id_lt l.
Proof.
  intros Hg. pose proof (total_rate_pos _ _ Hg) as Ht.
  destruct (prob_calc h _ Hg) as (l & El & Pl & Sl).
  exists l. split; [|auto].
  unfold bind, s_calcTau, modify, s_calcProb.
  cbn [s_with_tau s_neigh]. rewrite El, sum_rates_XR by assumption.
  rewrite n1_XR, xdiv_Fin by lra. reflexivity.
Qed.

Lemma setRates_fresh h rates (s : @site XR G) :
  s_neigh s = [] -> good_rates h rates ->
  exists nb l, s_setRates h rates s =
    Ret tt (s_with_prob l (s_with_tau (Fin (1 / total_rate h rates)) (s_with_neigh nb s))) /\
    Permutation nb rates /\
    Permutation l (map (fun e => (fst e, Fin (realv (h (snd e)) / total_rate h rates))) rates) /\
    StronglySorted id_lt l.
Proof.
  intros Hs Hg.
  assert (P : Permutation (add_all rates (s_neigh s)) rates).
  { rewrite Hs. rewrite add_all_fresh; [rewrite app_nil_r; reflexivity | apply Hg | intros n _ []]. }
  pose proof (good_perm h _ _ (Permutation_sym P) Hg) as Hg'.
  assert (T : total_rate h (add_all rates (s_neigh s)) = total_rate h rates)
    by (apply Rsum_perm; exact P).
  destruct (calc_spec h (s_with_neigh (add_all rates (s_neigh s)) s) Hg') as (l & E & Pl & Sl).
  cbn [s_neigh s_with_neigh] in E, Pl. rewrite T in E, Pl.
  exists (add_all rates (s_neigh s)), l. split; [|split; [exact P|split; [|exact Sl]]].
  - unfold s_setRates. unfold bind at 1.
    replace (negb (Nat.eqb (length rates) 0)) with true
      by (destruct Hg as (Hne & _); destruct rates; [congruence | reflexivity]).
    cbn [cassert ret]. unfold bind at 1. rewrite set_loop by apply Hg.
    exact E.
  - rewrite Pl. apply Permutation_map. exact P.
Qed.
End SetRates.

(** ** Consequences: the distribution *)
Lemma sorted_id_NoDup l : StronglySorted id_lt l -> NoDup (map fst l).
Proof.
  induction 1 as [|x l Sl IH F]; simpl; constructor; [|exact IH].
  intros Hin. apply in_map_iff in Hin. destruct Hin as (y & E & Hy).
  rewrite Forall_forall in F. specialize (F y Hy).
  apply (Z.lt_irrefl (fst x)). rewrite <- E at 2. exact F.
Qed.

Lemma sorted_id_unique l l' :
  StronglySorted id_lt l -> StronglySorted id_lt l' -> Permutation l l' -> l = l'.
Proof.
  revert l'; induction l as [|x l IH]; intros l' S1 S2 P.
  - apply Permutation_nil in P. auto.
  - destruct l' as [|y l']; [symmetry in P; apply Permutation_nil in P; discriminate|].
    inversion S1 as [|? ? S1' F1]; inversion S2 as [|? ? S2' F2]; subst.
    rewrite Forall_forall in F1, F2.
    assert (x = y).
    { assert (Hx : In x (y :: l')) by (eapply Permutation_in; [exact P | simpl; auto]).
      assert (Hy : In y (x :: l)) by (eapply Permutation_in; [symmetry; exact P | simpl; auto]).
      destruct Hx as [->|Hx]; [reflexivity|]. destruct Hy as [->|Hy]; [reflexivity|].
      specialize (F1 y Hy). specialize (F2 x Hx). unfold id_lt in *. lia. }
    subst y. f_equal. apply IH; auto. eapply Permutation_cons_inv; exact P.
Qed.

(** ** Picking *)
Definition psum (l : list (Z * xr)) : R := Rsum (fun e => realv (snd e)) l.
Lemma psum_cons n q l : psum ((n, Fin q) :: l) = q + psum l.
Proof. reflexivity. Qed.
Lemma psum_nil : psum [] = 0.
Proof. reflexivity. Qed.

Lemma pick_scan_interval (l : list (Z * xr)) t u j p :
  (forall e, In e l -> exists q, snd e = Fin q /\ 0 <= q) ->
  NoDup (map fst l) -> In (j, Fin p) l -> t <= u < t + psum l ->
  exists lo, 0 <= lo /\ lo + p <= psum l /\
    forall v, t <= v < t + psum l ->
      (@pick_scan XR (Fin v) (Fin t) l = j <-> t + lo <= v < t + lo + p).
Proof.
  revert t u; induction l as [|[n q0] l IH]; intros t u Hq ND Hin Hu; [destruct Hin|].
  destruct (Hq (n, q0)) as (q & Eq & Hqp); [simpl; auto|]. simpl in Eq; subst q0.
  simpl in ND; inversion ND as [|? ? Hni ND']; subst.
  assert (Hq' : forall e, In e l -> exists q, snd e = Fin q /\ 0 <= q) by (intros; apply Hq; simpl; auto).
  assert (PS : psum ((n, Fin q) :: l) = q + psum l) by reflexivity.
  assert (Pl : 0 <= psum l).
  { apply Rsum_nonneg. intros e He. destruct (Hq' e He) as (z & E & Hz). cbn [num XR] in *. rewrite E. exact Hz. }
  rewrite PS in *.
  cbn [pick_scan fst snd nadd XR xadd nltb xltb].
  destruct Hin as [E|Hin].
  - inversion E; subst n q. exists 0. split; [lra|]. split; [lra|].
    intros v Hv. destruct (Rltb v (t + p)) eqn:E1.
    + apply Rltb_true in E1. split; [lra | reflexivity].
    + apply Rltb_false in E1. split; [|lra].
      (* later entries have other ids *)
      intros Hj. exfalso.
      assert (K : forall (l' : list (Z * xr)) t', t' <= v < t' + psum l' -> (forall e, In e l' -> exists q, snd e = Fin q /\ 0 <= q) ->
                In (@pick_scan XR (Fin v) (Fin t') l') (map fst l')).
      { clear. induction l' as [|[n q0] l' IH]; intros t' Hv Hq.
        - rewrite psum_nil in Hv; lra.
        - destruct (Hq (n, q0)) as (q & Eq & Hqp); [simpl; auto|]. simpl in Eq; subst q0.
          cbn [pick_scan fst snd nadd XR xadd nltb xltb map].
          destruct (Rltb v (t' + q)) eqn:E; [simpl; auto|]. right.
          apply Rltb_false in E. apply IH; [|intros; apply Hq; simpl; auto].
          rewrite psum_cons in Hv. lra. }
      specialize (K l (t + p)). rewrite Hj in K. apply Hni. apply K; [lra | exact Hq'].
  - assert (Hj : j <> n) by (intros ->; apply Hni; apply (in_map fst) in Hin; exact Hin).
    assert (Hp : 0 <= p) by (destruct (Hq' _ Hin) as (z & E & Hz); simpl in E; inversion E; subst; exact Hz).
    destruct (Rlt_le_dec 0 (psum l)) as [Hpos|Hz].
    + destruct (IH (t + q) (t + q)) as (lo & Hlo & Hlp & Hiff); auto; [lra|].
      exists (q + lo). split; [lra|]. split; [lra|].
      intros v Hv. destruct (Rltb v (t + q)) eqn:E1.
      * apply Rltb_true in E1. split; [intros; congruence | lra].
      * apply Rltb_false in E1. rewrite Hiff by lra. split; lra.
    + (* all remaining probabilities are zero *)
      exists q. split; [lra|].
      assert (p <= psum l).
      { apply (Rsum_ge_elem (fun e : Z * @num XR => realv (snd e)) l (j, Fin p)); [|exact Hin].
        intros e He. destruct (Hq' e He) as (z & E & Hz'). cbn [num XR] in *. rewrite E. exact Hz'. }
      split; [lra|]. intros v Hv. destruct (Rltb v (t + q)) eqn:E1.
      * split; [intros; congruence | lra].
      * apply Rltb_false in E1. lra.
Qed.

Lemma pick_scan_member (l : list (Z * xr)) t u :
  (forall e, In e l -> exists q, snd e = Fin q /\ 0 <= q) -> t <= u < t + psum l ->
  In (@pick_scan XR (Fin u) (Fin t) l) (map fst l).
Proof.
  revert t; induction l as [|[n q0] l IH]; intros t Hq Hv.
  - rewrite psum_nil in Hv; lra.
  - destruct (Hq (n, q0)) as (q & Eq & Hqp); [simpl; auto|]. simpl in Eq; subst q0.
    cbn [pick_scan fst snd nadd XR xadd nltb xltb map].
    destruct (Rltb u (t + q)) eqn:E; [simpl; auto|]. right.
    apply Rltb_false in E. apply IH; [intros; apply Hq; simpl; auto|].
    rewrite psum_cons in Hv. lra.
Qed.

(** the table left by a recomputation *)
Definition is_table (h : @heap XR) (rates : umap Z) (l : list (Z * @num XR)) : Prop :=
  Permutation l (map (fun e => (fst e, Fin (realv (h (snd e)) / total_rate h rates))) rates) /\
  StronglySorted id_lt l.

(** a sorted table is scanned in the order of the ids *)
Lemma pick_scan_sorted (l : list (Z * xr)) : forall t v j p,
  (forall e, In e l -> exists q, snd e = Fin q /\ 0 <= q) ->
  StronglySorted id_lt l -> In (j, Fin p) l -> t <= v < t + psum l ->
  (@pick_scan XR (Fin v) (Fin t) l = j <->
   t + psum (filter (fun e => (fst e <? j)%Z) l) <= v < t + psum (filter (fun e => (fst e <? j)%Z) l) + p).
Proof.
  induction l as [|[n q0] l IH]; intros t v j p Hq Sl Hin Hv; [destruct Hin|].
  destruct (Hq (n, q0)) as (q & Eq & Hqp); [simpl; auto|]. simpl in Eq; subst q0.
  inversion Sl as [|? ? Sl' Fl]; subst. rewrite Forall_forall in Fl.
  assert (Hq' : forall e, In e l -> exists q, snd e = Fin q /\ 0 <= q) by (intros; apply Hq; simpl; auto).
  assert (Pl : forall m : list (Z * xr), incl m l -> 0 <= psum m).
  { intros m Hm. apply Rsum_nonneg. intros e He. destruct (Hq' e (Hm e He)) as (z & E & Hz). cbn [num XR] in *. rewrite E. exact Hz. }
  cbn [pick_scan fst snd nadd XR xadd nltb xltb filter]. rewrite psum_cons in Hv.
  destruct Hin as [E|Hin].
  - inversion E; subst n q. rewrite Z.ltb_irrefl.
    assert (Z0 : filter (fun e : Z * xr => (fst e <? j)%Z) l = []).
    { clear - Fl. induction l as [|e l IH]; [reflexivity|]. cbn [filter].
      assert (X : (j < fst e)%Z) by (apply (Fl e); simpl; auto).
      destruct (Z.ltb_spec (fst e) j); [lia|]. apply IH. intros x Hx. apply Fl. simpl; auto. }
    rewrite Z0, psum_nil. destruct (Rltb v (t + p)) eqn:E1.
    + apply Rltb_true in E1. split; [lra | reflexivity].
    + apply Rltb_false in E1. split; [|lra]. intros Hj. exfalso.
      assert (M : In (@pick_scan XR (Fin v) (Fin (t + p)) l) (map fst l)) by (apply pick_scan_member; [exact Hq'|lra]).
      rewrite Hj in M. apply in_map_iff in M. destruct M as (e & Ee & He). assert (X : (j < fst e)%Z) by exact (Fl e He). lia.
  - assert (Hn : (n < j)%Z) by (apply (Fl _ Hin)).
    rewrite (proj2 (Z.ltb_lt n j) Hn), psum_cons.
    destruct (Rltb v (t + q)) eqn:E1.
    + apply Rltb_true in E1. pose proof (Pl (filter (fun e => (fst e <? j)%Z) l) (incl_filter _ _)). split; [intros; lia | lra].
    + apply Rltb_false in E1. rewrite (IH (t + q) v j p Hq' Sl' Hin) by lra. split; lra.
Qed.

Lemma table_sum h rates l : good_rates h rates -> is_table h rates l -> psum l = 1.
Proof.
  intros Hg (P & _). unfold psum. rewrite (Rsum_perm _ _ _ P), Rsum_map. simpl.
  pose proof (total_rate_pos h rates Hg).
  rewrite (Rsum_ext _ (fun e => realv (h (snd e)) * / total_rate h rates)) by reflexivity.
  rewrite Rsum_scal_r. fold (total_rate h rates). field. lra.
Qed.

Lemma table_entries h rates l : good_rates h rates -> is_table h rates l ->
  forall n p, In (n, p) l <-> exists r, user_rate h rates n r /\ p = Fin (r / total_rate h rates).
Proof.
  intros Hg (P & _) n p. split.
  - intros Hin. apply (Permutation_in _ P) in Hin. apply in_map_iff in Hin.
    destruct Hin as ([m a] & E & Hin). simpl in E. inversion E; subst.
    destruct (good_value h rates (n, a) Hg Hin) as [Ev _]. simpl in Ev.
    exists (realv (h a)). split; [exists a; auto | reflexivity].
  - intros (r & (a & Hin & Ea) & ->). apply (Permutation_in _ (Permutation_sym P)).
    apply in_map_iff. exists (n, a). simpl. rewrite Ea. auto.
Qed.

Lemma table_fin h rates l : good_rates h rates -> is_table h rates l ->
  forall e, In e l -> exists q, snd e = Fin q /\ 0 <= q.
Proof.
  intros Hg Ht [n p] Hin. apply (table_entries h rates l Hg Ht) in Hin.
  destruct Hin as (r & (a & Ha & Er) & ->). simpl. eexists; split; [reflexivity|].
  pose proof (total_rate_pos h rates Hg).
  destruct (good_value h rates (n, a) Hg Ha) as [_ Hr]. simpl in Hr. rewrite Er in Hr. simpl in Hr.
  apply Rlt_le, Rdiv_lt_0_compat; lra.
Qed.

Lemma table_keys h rates l : is_table h rates l -> forall n, In n (map fst l) <-> In n (ukeys rates).
Proof.
  intros (P & _) n. unfold ukeys.
  assert (Q : Permutation (map fst l) (map fst rates)).
  { rewrite P, map_map. simpl. reflexivity. }
  split; apply Permutation_in; [exact Q | symmetry; exact Q].
Qed.

(** ** The statements used by PropSite *)
Section Final.
Context {I : Impl} {G : @Rng XR}.
Implicit Types (s : @site XR G).

Lemma neighIds_nil s : s_neighIds s = [] -> s_neigh s = [].
Proof. unfold s_neighIds, ukeys. destruct (s_neigh s); [auto | discriminate]. Qed.

Lemma table_reads h rates s l t :
  good_rates h rates -> Permutation (s_neigh s) rates -> is_table h rates l ->
  t = Fin (1 / total_rate h rates) ->
  reads h rates (s_with_prob l (s_with_tau t s)).
Proof.
  intros Hg Pn Ht ->. unfold reads, s_getProbs, s_getTimeConstant, s_neighIds.
  cbn [s_prob s_with_prob s_tau s_with_tau s_neigh].
  assert (ND : NoDup (map fst l)) by (apply sorted_id_NoDup; apply Ht).
  split; [exact (table_entries h rates l Hg Ht)|].
  split; [exact ND|]. split.
  { intros n p Hin. pose proof Hin as Hin2. apply (table_entries h rates l Hg Ht) in Hin.
    destruct Hin as (r & (a & Ha & Er) & ->). eexists; split; [reflexivity|].
    pose proof (total_rate_pos h rates Hg).
    destruct (good_value h rates (n, a) Hg Ha) as [_ Hr]. simpl in Hr. rewrite Er in Hr.
    simpl in Hr. apply Rdiv_lt_0_compat; lra. }
  split; [exact (table_sum h rates l Hg Ht)|]. split.
  { intros n p. unfold s_probTo. cbn [s_neigh s_prob s_with_prob s_with_tau].
    assert (K : umem n (s_neigh s) = true <-> In n (map fst l)).
    { rewrite umem_In. rewrite (table_keys h rates l Ht n). unfold ukeys.
      split; apply Permutation_in; apply Permutation_map; [exact Pn | symmetry; exact Pn]. }
    split.
    - destruct (umem n (s_neigh s)); [|discriminate].
      destruct (ulookup n l) eqn:E; [|discriminate]. intros Hx; inversion Hx; subst.
      apply ulookup_In; exact E.
    - intros Hin. replace (umem n (s_neigh s)) with true
        by (symmetry; apply K; apply (in_map fst) in Hin; exact Hin).
      erewrite In_ulookup; [reflexivity | exact ND | exact Hin]. }
  split; [reflexivity|].
  intros n. unfold ukeys. split; apply Permutation_in; apply Permutation_map; [exact Pn | symmetry; exact Pn].
Qed.

Lemma setRates_reads h rates s0 :
  s_neighIds s0 = [] -> good_rates h rates ->
  exists s, s_setRates h rates s0 = Ret tt s /\ reads h rates s.
Proof.
  intros Hs Hg. apply neighIds_nil in Hs.
  destruct (setRates_fresh h rates s0 Hs Hg) as (nb & l & E & Pn & Pl & Sl).
  eexists; split; [exact E|]. eapply table_reads; eauto. split; assumption.
Qed.

(** adding a neighbour, and resetting a rate *)
Lemma recalc_reads h s : good_rates h (s_neigh s) ->
  exists s', (s_calcTau h ;; s_calcProb h) s = Ret tt s' /\ reads h (s_neigh s) s'.
Proof.
  intros Hg. destruct (calc_spec h s Hg) as (l & E & Pl & Sl).
  eexists; split; [exact E|]. apply table_reads; auto. split; assumption.
Qed.

Lemma addNeigh_reads h s n a :
  ~ In n (s_neighIds s) -> good_rates h ((n, a) :: s_neigh s) ->
  exists s', s_addNeighRate h n a s = Ret tt s' /\ reads h ((n, a) :: s_neigh s) s'.
Proof.
  intros Hn Hg. unfold s_addNeighRate, bind at 1, gets.
  assert (F : umem n (s_neigh s) = false) by (apply umem_false; exact Hn).
  rewrite F. cbn [negb cassert]. unfold bind at 1, ret. unfold bind at 1, modify.
  assert (P : Permutation (uset (s_neigh s) n a) ((n, a) :: s_neigh s)) by (apply uset_perm_new; exact F).
  pose proof (good_perm h _ _ (Permutation_sym P) Hg) as Hg'.
  destruct (calc_spec h (s_with_neigh (uset (s_neigh s) n a) s) Hg') as (l & E & Pl & Sl).
  cbn [s_neigh s_with_neigh] in E, Pl.
  assert (T : total_rate h (uset (s_neigh s) n a) = total_rate h ((n, a) :: s_neigh s))
    by (apply Rsum_perm; exact P).
  rewrite T in *.
  eexists; split; [exact E|]. apply table_reads; auto.
  split; [|exact Sl]. rewrite Pl. apply Permutation_map. exact P.
Qed.

Lemma resetNeigh_reads h s n a :
  NoDup (s_neighIds s) -> good_rates h (uset (s_neigh s) n a) ->
  exists s', s_resetNeighRate h n a s = Ret tt s' /\ reads h (s_neigh s') s' /\
    (forall m, ulookup m (s_neigh s') = if (m =? n)%Z then Some a else ulookup m (s_neigh s)).
Proof.
  intros ND Hg. unfold s_resetNeighRate. unfold bind at 1, modify.
  destruct (recalc_reads h (s_with_neigh (uset (s_neigh s) n a) s) Hg) as (s' & E & R).
  cbn [s_neigh s_with_neigh] in R.
  exists s'. split; [exact E|].
  assert (En : s_neigh s' = uset (s_neigh s) n a).
  { destruct (calc_spec h (s_with_neigh (uset (s_neigh s) n a) s) Hg) as (l & E' & _).
    rewrite E' in E. inversion E; reflexivity. }
  rewrite En. split; [exact R|]. intros m. apply uset_lookup. exact ND.
Qed.

(** picking *)
Lemma pick_reads h rates s u e :
  good_rates h rates -> reads h rates s -> edraw (s_rng s) = (Fin u, e) -> 0 <= u < 1 ->
  exists j s', s_pick s = Ret j s' /\ In j (s_neighIds s).
Proof.
  intros Hg (He & ND & Hp & Hs & _ & _ & Hk) Hd Hu.
  unfold s_pick, bind, s_draw, gets, ret. rewrite Hd. cbn [s_prob s_with_rng].
  eexists; eexists; split; [reflexivity|]. apply Hk.
  assert (M : In (@pick_scan XR (Fin u) (Fin 0) (s_prob s)) (map fst (s_prob s))).
  { apply pick_scan_member.
    - intros [n p] Hin. destruct (Hp n p Hin) as (q & -> & Hq). exists q; simpl; split; [reflexivity | lra].
    - unfold psum. unfold s_getProbs in Hs. rewrite Hs. lra. }
  apply in_map_iff in M. destruct M as ([n p] & E & Hin). simpl in E.
  apply He in Hin. destruct Hin as (r & (a & Ha & _) & _). rewrite n0_XR, <- E.
  apply (in_map fst) in Ha. exact Ha.
Qed.

Lemma pick_interval_reads h rates s :
  good_rates h rates -> reads h rates s ->
  forall j r, user_rate h rates j r ->
  exists lo, 0 <= lo /\ lo + r / total_rate h rates <= 1 /\
    forall s1 u e, s_getProbs s1 = s_getProbs s -> 0 <= u < 1 -> edraw (s_rng s1) = (Fin u, e) ->
      forall k s', s_pick s1 = Ret k s' ->
        (k = j <-> lo <= u < lo + r / total_rate h rates).
Proof.
  intros Hg (He & ND & Hp & Hs & _ & _ & Hk) j r Hr.
  assert (Hin : In (j, Fin (r / total_rate h rates)) (s_prob s)) by (apply He; eauto).
  unfold s_getProbs in *.
  destruct (pick_scan_interval (s_prob s) 0 0 j (r / total_rate h rates)) as (lo & Hlo & Hl & Hiff).
  - intros [n p] Hn. destruct (Hp n p Hn) as (q & -> & Hq). exists q; simpl; split; [reflexivity | lra].
  - exact ND.
  - exact Hin.
  - unfold psum. rewrite Hs. lra.
  - unfold psum in *. rewrite Hs in *. exists lo. split; [exact Hlo|]. split; [exact Hl|].
    intros s1 u e Ep Hu Hd k s' Ek. unfold s_getProbs in Ep.
    unfold s_pick, bind, s_draw, gets, ret in Ek. rewrite Hd in Ek.
    cbn [s_prob s_with_rng] in Ek. rewrite Ep in Ek. inversion Ek; subst k.
    specialize (Hiff u). rewrite Hiff by lra. rewrite !Rplus_0_l. tauto.
Qed.

(** dwell times *)
Lemma dwell_reads h rates s u e :
  good_rates h rates -> reads h rates s -> edraw (s_rng s) = (Fin u, e) -> 0 < u < 1 ->
  exists s', s_getDwellTime s = Ret (Fin (- ln u / total_rate h rates)) s' /\
    0 < - ln u / total_rate h rates.
Proof.
  intros Hg (_ & _ & _ & _ & _ & Ht & _) Hd Hu.
  unfold s_getDwellTime, bind, s_draw, gets, ret. rewrite Hd.
  unfold s_getTimeConstant in Ht. cbn [s_tau s_with_rng]. rewrite Ht.
  pose proof (total_rate_pos h rates Hg).
  eexists; split.
  - f_equal. unfold dwell_of. cbn [nmul XR nlog nofZ xlog].
    replace (Rltb u 0) with false by (symmetry; apply Rltb_false; lra).
    replace (Reqb u 0) with false by (symmetry; apply Reqb_false; lra).
    cbn [xmul]. f_equal. unfold Rdiv. lra.
  - assert (ln u < 0) by (rewrite <- ln_1; apply ln_increasing; lra).
    apply Rdiv_lt_0_compat; lra.
Qed.
End Final.

Lemma order_independent (I1 I2 : Impl) (G : @Rng XR) h rates1 rates2 (s1 s2 : @site XR G) :
  s_neighIds s1 = [] -> s_neighIds s2 = [] -> good_rates h rates1 -> Permutation rates1 rates2 ->
  exists t1 t2, @s_setRates I1 XR G h rates1 s1 = Ret tt t1 /\ @s_setRates I2 XR G h rates2 s2 = Ret tt t2 /\
    s_getProbs t1 = s_getProbs t2 /\ s_getTimeConstant t1 = s_getTimeConstant t2.
Proof.
  intros H1 H2 Hg P. apply neighIds_nil in H1. apply neighIds_nil in H2.
  destruct (@setRates_fresh I1 G h rates1 s1 H1 Hg) as (n1 & l1 & E1 & _ & P1 & S1).
  destruct (@setRates_fresh I2 G h rates2 s2 H2 (good_perm h _ _ P Hg)) as (n2 & l2 & E2 & _ & P2 & S2).
  assert (T : total_rate h rates2 = total_rate h rates1) by (apply Rsum_perm; symmetry; exact P).
  rewrite T in *.
  eexists; eexists. split; [exact E1|]. split; [exact E2|].
  unfold s_getProbs, s_getTimeConstant. cbn [s_prob s_with_prob s_tau s_with_tau]. split; [|reflexivity].
  apply sorted_id_unique; auto. rewrite P1, P2. apply Permutation_map. exact P.
Qed.

(** doubling all rates halves the dwell time, etc. *)
Lemma total_scale (h h' : @heap XR) rates c :
  good_rates h rates ->
  (forall n a, In (n, a) rates -> h' a = Fin (c * realv (h a))) ->
  total_rate h' rates = c * total_rate h rates.
Proof.
  intros Hg E. unfold total_rate. rewrite <- Rsum_scal. apply Rsum_ext.
  intros [n a] Hin. simpl. rewrite (E n a Hin). reflexivity.
Qed.

Lemma dwell_antitone t u v : 0 < t -> 0 < u -> u < v -> - ln v / t < - ln u / t.
Proof.
  intros Ht Hu Huv. unfold Rdiv. apply Rmult_lt_compat_r; [apply Rinv_0_lt_compat; exact Ht|].
  apply Ropp_lt_contravar. apply ln_increasing; assumption.
Qed.

(** the rate query always follows the memory; the table does not *)
Lemma rate_query_follows (I : Impl) (G : @Rng XR) h h' rates (s0 : @site XR G) n r :
  s_neighIds s0 = [] -> good_rates h rates ->
  user_rate h' rates n r ->
  exists s, s_setRates h rates s0 = Ret tt s /\ s_getRateTo h' s n = Ok (Fin r).
Proof.
  intros Hs Hg (a & Ha & Er). apply neighIds_nil in Hs.
  destruct (setRates_fresh h rates s0 Hs Hg) as (nb & l & E & Pn & _).
  eexists; split; [exact E|]. unfold s_getRateTo. cbn [s_neigh s_with_prob s_with_tau s_with_neigh].
  erewrite In_ulookup; [rewrite Er; reflexivity | |].
  - eapply Permutation_NoDup; [apply Permutation_map; symmetry; exact Pn | apply Hg].
  - eapply Permutation_in; [symmetry; exact Pn | exact Ha].
Qed.

Section Wrap.
Context {I : Impl} {G : @Rng XR}.

Lemma pick_all h rates (s0 : @site XR G) :
    s_neighIds s0 = [] -> good_rates h rates ->
    exists s, s_setRates h rates s0 = Ret tt s /\
      (forall s1 u e, s_getProbs s1 = s_getProbs s -> edraw (s_rng s1) = (Fin u, e) -> 0 <= u < 1 ->
         exists j s2, s_pick s1 = Ret j s2 /\ In j (ukeys rates)) /\
      (forall j r, user_rate h rates j r ->
         exists lo, 0 <= lo /\ lo + r / total_rate h rates <= 1 /\
           forall s1 u e, s_getProbs s1 = s_getProbs s -> 0 <= u < 1 -> edraw (s_rng s1) = (Fin u, e) ->
             forall k s2, s_pick s1 = Ret k s2 -> (k = j <-> lo <= u < lo + r / total_rate h rates)).
Proof.
  intros Hs Hg. destruct (setRates_reads h rates s0 Hs Hg) as (s & E & R).
  exists s. split; [exact E|]. split; [|intros j r Hr; apply (pick_interval_reads h rates s Hg R j r Hr)].
  intros s1 u e Ep Hd Hu.
  (* only the table matters *)
  set (s1' := s_with_rng (s_rng s1) s).
  assert (R' : reads h rates s1') by exact R.
  destruct (pick_reads h rates s1' u e Hg R' Hd Hu) as (j & t & Ej & Hj).
  exists j. unfold s_pick, bind, s_draw, gets, ret in *. cbn [s_rng s_with_rng s1'] in *.
  rewrite Hd in *. unfold s_getProbs in Ep. cbn [s_prob s_with_rng] in *. rewrite Ep.
  inversion Ej; subst. eexists; split; [reflexivity|]. apply R'. exact Hj.
Qed.

Lemma dwell_all h rates (s0 : @site XR G) :
    s_neighIds s0 = [] -> good_rates h rates ->
    exists s, s_setRates h rates s0 = Ret tt s /\
      forall s1 u e, s_getTimeConstant s1 = s_getTimeConstant s ->
        edraw (s_rng s1) = (Fin u, e) -> 0 < u < 1 ->
        exists s2, s_getDwellTime s1 = Ret (Fin (- ln u / total_rate h rates)) s2 /\
          0 < - ln u / total_rate h rates /\
          (forall v, u < v -> - ln v / total_rate h rates < - ln u / total_rate h rates).
Proof.
  intros Hs Hg. destruct (setRates_reads h rates s0 Hs Hg) as (s & E & R).
  exists s. split; [exact E|]. intros s1 u e Et Hd Hu.
  set (s1' := s_with_rng (s_rng s1) s).
  assert (R' : reads h rates s1') by exact R.
  destruct (dwell_reads h rates s1' u e Hg R' Hd Hu) as (t & Ed & Hp).
  unfold s_getDwellTime, bind, s_draw, gets, ret in *. cbn [s_rng s_with_rng s1'] in *.
  rewrite Hd in *. unfold s_getTimeConstant in Et. cbn [s_tau s_with_rng] in *. rewrite Et.
  pose proof (f_equal (fun o => match o with Ret a _ => a | _ => (Fin 0 : @num XR) end) Ed) as E1.
  cbv beta iota in E1. change (s_tau s1') with (s_tau s) in E1.
  rewrite E1. eexists; split; [reflexivity|]. split; [exact Hp|].
  intros v Hv. apply dwell_antitone; [apply (total_rate_pos h rates Hg) | lra | exact Hv].
Qed.

Lemma dwell_scales h h' rates c (s0 : @site XR G) :
    s_neighIds s0 = [] -> good_rates h rates -> 0 < c ->
    (forall n r, user_rate h rates n r -> user_rate h' rates n (c * r)) ->
    exists s s', s_setRates h rates s0 = Ret tt s /\ s_setRates h' rates s0 = Ret tt s' /\
      forall u e, edraw (s_rng s0) = (Fin u, e) -> 0 < u < 1 ->
        exists t t2 t3, s_getDwellTime s = Ret (Fin t) t2 /\ s_getDwellTime s' = Ret (Fin (t / c)) t3.
Proof.
  intros Hs Hg Hc Hh.
  assert (Hv : forall n a, In (n, a) rates -> h' a = Fin (c * realv (h a))).
  { intros n a Ha. destruct (good_value h rates (n, a) Hg Ha) as [Ev _]. simpl in Ev.
    destruct (Hh n (realv (h a))) as (b & Hb & Eb); [exists a; auto|].
    assert (a = b).
    { destruct Hg as (_ & ND & _). pose proof (In_ulookup n a rates ND Ha) as E1.
      pose proof (In_ulookup n b rates ND Hb) as E2. congruence. }
    subst b. exact Eb. }
  assert (Hg' : good_rates h' rates).
  { destruct Hg as (A & B & C). split; [exact A|]. split; [exact B|].
    intros n a Ha. exists (c * realv (h a)). split; [eauto|].
    destruct (C n a Ha) as (r & E & Hr). rewrite E. simpl. apply Rmult_lt_0_compat; assumption. }
  assert (T : total_rate h' rates = c * total_rate h rates) by (apply total_scale; eauto).
  pose proof Hs as Hs2. apply neighIds_nil in Hs2.
  destruct (setRates_fresh h rates s0 Hs2 Hg) as (nb & l & E & Pn & Pl & Sl).
  destruct (setRates_fresh h' rates s0 Hs2 Hg') as (nb' & l' & E' & Pn' & Pl' & Sl').
  eexists; eexists. split; [exact E|]. split; [exact E'|].
  intros u e Hd Hu.
  pose proof (total_rate_pos h rates Hg) as Tp.
  assert (R1 := table_reads h rates (s_with_neigh nb s0) l _ Hg Pn (conj Pl Sl) eq_refl).
  assert (R2 := table_reads h' rates (s_with_neigh nb' s0) l' _ Hg' Pn' (conj Pl' Sl') eq_refl).
  destruct (dwell_reads h rates _ u e Hg R1 Hd Hu) as (t2 & D1 & _).
  destruct (dwell_reads h' rates _ u e Hg' R2 Hd Hu) as (t3 & D2 & _).
  exists (- ln u / total_rate h rates), t2, t3. split; [exact D1|]. rewrite D2. f_equal. f_equal.
  rewrite T. field. lra.
Qed.

Lemma frozen (clock : Z) :
  exists (h h' : heap) (rates : umap Z) (s : @site XR G) (n : Z) (r p : R),
    s_setRates h rates (site_new clock) = Ret tt s /\ good_rates h' rates /\
    user_rate h' rates n r /\ s_getRateTo h' s n = Ok (Fin r) /\
    s_probTo s n = Ok (Fin p) /\ p <> r / total_rate h' rates /\
    s_getTimeConstant s <> Fin (1 / total_rate h' rates).
Proof.
  set (h := fun a : Z => if (a =? 10)%Z then (Fin 1 : @num XR) else Fin 3).
  set (h' := fun a : Z => (Fin 1 : @num XR)).
  set (rates := [(5, 10); (7, 11)]%Z : umap Z).
  assert (ND : NoDup (ukeys rates)) by (repeat constructor; simpl; intuition discriminate).
  assert (Hg : good_rates h rates).
  { split; [discriminate|]. split; [exact ND|].
    intros n a [E|[E|[]]]; inversion E; subst; [exists 1 | exists 3]; simpl; split; auto; lra. }
  assert (Hg' : good_rates h' rates).
  { split; [discriminate|]. split; [exact ND|]. intros n a _. exists 1. split; [reflexivity | lra]. }
  assert (T : total_rate h rates = 4) by (unfold total_rate, rates, h; simpl; lra).
  assert (T' : total_rate h' rates = 2) by (unfold total_rate, rates, h'; simpl; lra).
  destruct (rate_query_follows I G h h' rates (site_new clock) 7 1 eq_refl Hg) as (s & E & Q).
  { exists 11%Z. split; [simpl; auto | reflexivity]. }
  destruct (setRates_reads h rates (site_new clock) eq_refl Hg) as (s2 & E2 & (Re & _ & _ & _ & Rp & Rt & _)).
  rewrite E in E2. inversion E2; subst s2.
  exists h, h', rates, s, 7%Z, 1, (3 / 4).
  split; [exact E|]. split; [exact Hg'|]. split; [exists 11%Z; simpl; auto|]. split; [exact Q|].
  split.
  - apply Rp. apply Re. exists 3. split; [exists 11%Z; simpl; auto|]. rewrite T. reflexivity.
  - rewrite T'. split; [lra|]. rewrite Rt, T. intros Hx; inversion Hx. lra.
Qed.
End Wrap.
