(** * Updating a cluster over exact arithmetic *)
From Coq Require Import ZArith List Bool Reals Lra Lia Permutation Relations.
From Verif Require Import Base BaseProofs Num OrdLaws RSum SiteModel SiteSpec SiteProofs
  ClusterModel ClusterSpec ClusterFrame ClusterHist ClusterOps MasterEq ClusterReal ClusterTables.
Import ListNotations.
Open Scope R_scope.

(** ** Saved visit counts, for every arithmetic *)
Section Visits.
Context {I : Impl} {N : Num} {G : Rng}.

(** getVisitFrequency changes only the spread counts *)
Lemma getVisits_shape k c z c' : c_getVisits k c = Ret z c' ->
  exists sv, c' = c_with_prev (c_visits c) (c_with_svisits sv c) /\
    ntrunc (nround (uget n0 k sv)) = Some z /\
    umem k (c_svisits c) = true /\ neqb (c_tau c) unassigned_value = false /\
    ((c_visits c = c_prev c /\ sv = c_svisits c) \/
     (c_visits c <> c_prev c /\ spread_visits c (nofZ (c_visits c - c_prev c)) (c_svisits c) (c_svisits c) = Ok sv)).
Proof.
  unfold c_getVisits. intros E. apply bind_ret_inv in E. destruct E as (c1 & s1 & E1 & E). inversion E1; subst c1 s1; clear E1.
  unfold cassert in E. destruct (umem k (c_svisits c)) eqn:Em; [|discriminate].
  apply bind_ret_inv in E. destruct E as (u & s1 & E1 & E). inversion E1; subst u s1; clear E1.
  destruct (neqb (c_tau c) unassigned_value) eqn:Et; [discriminate|]. cbn [negb] in E.
  apply bind_ret_inv in E. destruct E as (u & s1 & E1 & E). inversion E1; subst u s1; clear E1.
  apply bind_ret_inv in E. destruct E as (u & s1 & E1 & E).
  apply bind_ret_inv in E. destruct E as (sv & s2 & E2 & E). inversion E2; subst sv s2; clear E2.
  destruct (c_visits c =? c_prev c)%Z eqn:Ev.
  - inversion E1; subst u s1. apply Z.eqb_eq in Ev. exists (c_svisits c).
    destruct (ntrunc _) eqn:En in E; [|discriminate]. inversion E; subst.
    split; [|auto 6]. rewrite Ev. destruct c'; reflexivity.
  - apply bind_ret_inv in E1. destruct E1 as (sv & s2 & E2 & E3). unfold lift in E2.
    destruct (spread_visits _ _ _ _) eqn:Es in E2; inversion E2; subst sv s2; clear E2.
    rewrite modify_eq in E3. inversion E3; subst u s1; clear E3. cbn [c_svisits c_with_prev c_with_svisits] in E.
    destruct (ntrunc _) eqn:En in E; [|discriminate]. inversion E; subst. apply Z.eqb_neq in Ev.
    eexists. split; [reflexivity|]. auto 6.
Qed.

Lemma spread_keys c diff l : forall sv sv', spread_visits c diff l sv = Ok sv' -> (forall e, In e l -> In (fst e) (ukeys sv)) ->
  forall k, In k (ukeys sv') <-> In k (ukeys sv).
Proof.
  induction l as [|e l IH]; cbn [spread_visits]; intros sv sv' E Hl k.
  - inversion E; subst; tauto.
  - destruct (ulookup (fst e) (c_sites c)); [|discriminate]. destruct (ulookup (fst e) (c_idwell c)); [|discriminate].
    rewrite (IH _ _ E).
    + rewrite uset_keys_In. split; [intros [->|]; auto; apply Hl; simpl; auto | auto].
    + intros x Hx. rewrite uset_keys_In. right. apply Hl; simpl; auto.
Qed.

(** once the counts have been spread, reading them changes nothing *)
Lemma getVisits_again k c z c' : c_getVisits k c = Ret z c' ->
  forall k2 z2 c2, c_getVisits k2 c = Ret z2 c2 -> c_getVisits k2 c' = Ret z2 c'.
Proof.
  intros E k2 z2 c2 E2.
  destruct (getVisits_shape _ _ _ _ E) as (sv & -> & Hz & Hk & Ht & Hc).
  destruct (getVisits_shape _ _ _ _ E2) as (sv2 & _ & Hz2 & Hk2 & Ht2 & Hc2).
  assert (sv2 = sv) by (destruct Hc as [[A ->]|[A B]], Hc2 as [[A2 ->]|[A2 B2]]; congruence). subst sv2.
  assert (Hm : umem k2 sv = true).
  { destruct Hc as [[_ ->]|[_ Hs]]; [exact Hk2|]. apply umem_In. apply (spread_keys _ _ _ _ _ Hs); [|apply umem_In; exact Hk2].
    intros e He. apply in_map; exact He. }
  unfold c_getVisits, bind, gets. cbn [c_svisits c_with_prev c_with_svisits c_tau c_visits c_prev].
  unfold cassert. rewrite Hm, Ht2. cbn [negb]. unfold ret at 1 2. rewrite Z.eqb_refl. unfold ret at 1.
  cbn [c_svisits c_with_prev c_with_svisits]. rewrite Hz2. reflexivity.
Qed.

Lemma visitList_ok l c : (forall k, In k l -> exists z c', c_getVisits k c = Ret z c') ->
  exists saved c', c_visitList l c = Ret saved c' /\ map fst saved = l /\
    (forall k z, In (k, z) saved -> exists c2, c_getVisits k c = Ret z c2) /\
    (l = [] -> c' = c) /\ (forall k z c2, In k l -> c_getVisits k c = Ret z c2 -> c' = c2).
Proof.
  revert c; induction l as [|k l IH]; intros c Hl.
  - exists [], c. split; [reflexivity|]. split; [reflexivity|]. split; [intros ? ? []|]. split; [reflexivity | intros ? ? ? []].
  - destruct (Hl k) as (z & c1 & E); [simpl; auto|].
    destruct (IH c1) as (saved & c2 & E2 & Ek & Ev & Enil & Ec).
    { intros k2 Hk2. destruct (Hl k2) as (z2 & c3 & E3); [simpl; auto|]. exists z2, c1. exact (getVisits_again _ _ _ _ E _ _ _ E3). }
    assert (c2 = c1).
    { destruct l as [|k2 l]; [auto|]. destruct (Hl k2) as (z2 & c3 & E3); [simpl; auto|].
      apply (Ec k2 z2 c1); [simpl; auto|]. exact (getVisits_again _ _ _ _ E _ _ _ E3). }
    subst c2. exists ((k, z) :: saved), c1. split.
    { cbn [c_visitList]. unfold bind. rewrite E, E2. reflexivity. }
    split; [cbn [map fst]; congruence|]. split; [|split].
    + intros k2 z2 [Eq|Hin].
      * inversion Eq; subst. eauto.
      * destruct (Hl k2) as (z3 & c3 & E3).
        { right. rewrite <- Ek. apply (in_map fst) in Hin. exact Hin. }
        destruct (Ev k2 z2 Hin) as (c4 & E4). pose proof (getVisits_again _ _ _ _ E _ _ _ E3) as E5.
        rewrite E5 in E4. inversion E4; subst. eauto.
    + discriminate.
    + intros k2 z2 c3 _ E3. destruct (getVisits_shape _ _ _ _ E) as (sv & -> & _ & _ & _ & Hc).
      destruct (getVisits_shape _ _ _ _ E3) as (sv2 & -> & _ & _ & _ & Hc2).
      assert (sv2 = sv) by (destruct Hc as [[A ->]|[A B]], Hc2 as [[A2 ->]|[A2 B2]]; congruence). subst; reflexivity.
Qed.

Lemma visitList_shape l c saved c' : c_visitList l c = Ret saved c' ->
  map fst saved = l /\ exists sv pv, c' = c_with_prev pv (c_with_svisits sv c).
Proof.
  revert c saved c'; induction l as [|k l IH]; cbn [c_visitList]; intros c saved c' E.
  - inversion E; subst. split; [reflexivity|]. exists (c_svisits c'), (c_prev c'). destruct c'; reflexivity.
  - apply bind_ret_inv in E. destruct E as (z & c1 & E1 & E). apply bind_ret_inv in E. destruct E as (m & c2 & E2 & E).
    inversion E; subst. destruct (IH _ _ _ E2) as (Em & sv & pv & ->).
    destruct (getVisits_shape _ _ _ _ E1) as (sv1 & -> & _).
    split; [cbn [map fst]; congruence|]. exists sv, pv. reflexivity.
Qed.

(** the refill after an update *)
Lemma refill_run saved l : forall c, NoDup (ukeys (c_svisits c)) -> (saved = [] \/ neqb (c_tau c) unassigned_value = false) ->
  NoDup l ->
  exists sv, mfor l (refill saved) c = Ret tt (c_with_svisits sv c) /\ NoDup (ukeys sv) /\
    (forall j, In j (ukeys sv) <-> In j l \/ In j (ukeys (c_svisits c))) /\
    (forall j, In j l -> ulookup j sv = Some (match ulookup j saved with Some v => nofZ v | None => n0 end)) /\
    (forall j, ~ In j l -> ulookup j sv = ulookup j (c_svisits c)).
Proof.
  induction l as [|k l IH]; intros c NS Ht NL; cbn [mfor].
  - exists (c_svisits c). split; [destruct c; reflexivity|]. split; [exact NS|]. split; [simpl; tauto|]. split; [intros ? [] | reflexivity].
  - inversion NL as [|? ? Hni NL']; subst.
    set (v0 := match ulookup k saved with Some v => nofZ v | None => n0 end).
    assert (E1 : exists sv1, refill saved k c = Ret tt (c_with_svisits sv1 c) /\ NoDup (ukeys sv1) /\
       (forall j, In j (ukeys sv1) <-> j = k \/ In j (ukeys (c_svisits c))) /\ ulookup k sv1 = Some v0 /\
       (forall j, j <> k -> ulookup j sv1 = ulookup j (c_svisits c))).
    { unfold refill, v0, bind. rewrite modify_eq. destruct (ulookup k saved) as [v|] eqn:Ek.
      - destruct Ht as [->|Ht]; [discriminate|].
        unfold c_setVisits, bind, gets, cassert. cbn [c_svisits c_with_svisits c_tau].
        replace (umem k (uset (c_svisits c) k n0)) with true by (symmetry; apply umem_In, uset_keys_In; auto).
        rewrite Ht. cbn [negb]. unfold ret. rewrite modify_eq. cbn [c_svisits c_with_svisits].
        eexists. split; [reflexivity|].
        pose proof (uset_NoDup (c_svisits c) k n0 NS) as N1.
        split; [apply uset_NoDup; exact N1|]. split; [intros j; rewrite !uset_keys_In; tauto|].
        split; [apply uset_lookup_same; exact N1|]. intros j Hj. rewrite !uset_lookup_other by auto. reflexivity.
      - unfold ret. eexists. split; [reflexivity|]. split; [apply uset_NoDup; exact NS|].
        split; [intros j; apply uset_keys_In|]. split; [apply uset_lookup_same; exact NS|].
        intros j Hj. apply uset_lookup_other; auto. }
    destruct E1 as (sv1 & E1 & N1 & K1 & L1 & O1). unfold bind. rewrite E1.
    destruct (IH (c_with_svisits sv1 c) N1 Ht NL') as (sv & E2 & N2 & K2 & L2 & O2). cbn [c_svisits c_with_svisits] in *.
    exists sv. split; [rewrite E2; reflexivity|]. split; [exact N2|]. split; [|split].
    + intros j. rewrite K2, K1. cbn [In]. intuition.
    + intros j [<-|Hj]; [|apply L2; exact Hj]. rewrite O2 by exact Hni. exact L1.
    + intros j Hj. cbn [In] in Hj. rewrite O2 by tauto. apply O1. intuition.
Qed.

(** the part of the update between saving and restoring the counts *)
Definition recalc (fuel : nat) (h : heap) : M cluster unit :=
  c_solve fuel h ;; c_calcSumOff h ;; c_calcSumInt h ;; c_calcHopOff h ;; c_calcHopBetween h ;; c_calcTau h ;; c_calcITau h.

Lemma update_split fuel h c : c_update fuel h c =
  match c_visitList (ukeys (c_svisits c)) c with
  | Ret saved c1 =>
      match recalc fuel h c1 with
      | Ret _ c2 =>
          match mfor (c_siteIds c2) (refill saved) (c_with_svisits [] c2) with
          | Ret _ c3 => c_calcInternalDwell h c3
          | Thr e s => Thr e s
          | Halt x => Halt x
          end
      | Thr e s => Thr e s
      | Halt x => Halt x
      end
  | Thr e s => Thr e s
  | Halt x => Halt x
  end.
Proof.
  unfold c_update, recalc, bind, gets.
  destruct (c_visitList _ c) as [saved c1|e s|x]; [|reflexivity|reflexivity].
  destruct (c_solve fuel h c1) as [? c2|? ?|?]; [|reflexivity|reflexivity].
  destruct (c_calcSumOff h c2) as [? c3|? ?|?]; [|reflexivity|reflexivity].
  destruct (c_calcSumInt h c3) as [? c4|? ?|?]; [|reflexivity|reflexivity].
  destruct (c_calcHopOff h c4) as [? c5|? ?|?]; [|reflexivity|reflexivity].
  destruct (c_calcHopBetween h c5) as [? c6|? ?|?]; [|reflexivity|reflexivity].
  destruct (c_calcTau h c6) as [? c7|? ?|?]; [|reflexivity|reflexivity].
  destruct (c_calcITau h c7) as [? c8|? ?|?]; [|reflexivity|reflexivity].
  reflexivity.
Qed.
End Visits.

Section Upd.
Context {I : Impl} {G : @Rng XR}.
Implicit Types (c : @cluster XR G).

(** what an update computes: [P] is the stationary distribution found by the
    solver *)
Record solved (h : @heap XR) (c c' : @cluster XR G) (P : Z -> R) : Prop := {
  sv_core : same_core c c';
  sv_dist : dist (c_siteIds c) P;
  sv_pon : exists Kp, Permutation Kp (c_siteIds c) /\ c_pon c' = tab P Kp;
  sv_int : exists K1, Permutation K1 (c_siteIds c) /\ c_pint c' = tab (wint h (c_sites c) P) K1;
  sv_cint : c_cint c' = c_cint c ++ cumulate n0 (c_pint c');
  sv_nbr : exists K2, NoDup K2 /\ (forall n, In n K2 <-> outside (c_sites c) n) /\
     c_pnbr c' = tab (fun n => wexit h (c_sites c) P n / Rsum (wexit h (c_sites c) P) K2) K2;
  sv_cnbr : c_cnbr c' = c_cnbr c ++ cumulate n0 (c_pnbr c');
  sv_hopoff : exists K4, Permutation K4 (c_siteIds c) /\
     c_hopoff c' = tab (fun k => woff h (c_sites c) P k / SI h (c_sites c) P) K4;
  sv_tau : c_tau c' = Fin (TAU h (c_sites c) P);
  sv_inc : c_inc c' = ndiv (Fin (TAU h (c_sites c) P)) (c_res c);
  sv_idwell : NoDup (ukeys (c_idwell c')) /\
     forall k, In k (c_siteIds c) -> ulookup k (c_idwell c') = Some (Fin (/ minner h (c_sites c) k)) }.

Record sound (h : @heap XR) (c : @cluster XR G) : Prop := {
  so_members : members_ok h (c_sites c);
  so_mutual : mutual (c_sites c);
  so_linked : linked (c_sites c);
  so_exit : has_exit (c_sites c);
  so_two : (2 <= length (c_sites c))%nat }.
Lemma recalc_val fuel h c : sound h c -> tidy c ->
  (exists P c', recalc fuel h c = Ret tt c' /\ solved h c c' P /\ c_svisits c' = c_svisits c /\ c_prev c' = c_prev c) \/
  (c_method c = ByTolerance /\ recalc fuel h c = Halt Diverged /\
   solve_pon fuel (c_method c) (c_iters c) (c_tol c) (c_sites c) (c_pon c) = Bad Diverged).
Proof.
  intros [Hm Hmut Hlk Hex H2] [T1 T2 T3].
  assert (Hne : c_sites c <> []) by (destruct (c_sites c); [simpl in H2; lia | discriminate]).
  destruct (solve_val h (c_sites c) fuel (c_method c) (c_iters c) (c_tol c) (c_pon c) Hm Hmut Hne (linked_has _ Hne Hlk) T1 T2)
    as [(pon & P & Es & HP & HD & HK)|[Em Es]].
  - left.
    assert (Ep : exists Kp, Permutation Kp (ukeys (c_sites c)) /\ pon = tab P Kp).
    { exists (ukeys pon). destruct HP as [NP HP]. split.
      - apply NoDup_Permutation; [exact NP | apply Hm | exact HK].
      - apply tab_eq. intros [k v] Hin. cbn [fst snd].
        assert (Hk : In k (ukeys (c_sites c))) by (apply HK; apply (in_map fst) in Hin; exact Hin).
        pose proof (In_ulookup k v pon NP Hin) as E. rewrite (HP k Hk) in E. congruence. }
    destruct Ep as (Kp & HKp & ->).
    assert (KNE : ukeys (c_sites c) <> []) by (destruct (c_sites c); [congruence | discriminate]).
    set (sites := c_sites c) in *.
    set (c1 := c_with_pon (tab P Kp) c).
    destruct (calcHopToInternal_val h sites P Kp Hm HD HKp c1 eq_refl eq_refl KNE) as (K1 & PK1 & E1).
    set (c2 := c_with_cint (c_cint c1 ++ cumulate n0 (tab (wint h sites P) K1)) (c_with_pint (tab (wint h sites P) K1) c1)) in *.
    destruct (calcHopToNeighbors_val h sites P Kp Hm HD HKp c2 eq_refl eq_refl) as (K2 & N2 & O2 & E2). cbn zeta in E2.
    set (f2 := fun n => wexit h sites P n / Rsum (wexit h sites P) K2) in *.
    set (c3 := c_with_cnbr (c_cnbr c2 ++ cumulate n0 (tab f2 K2)) (c_with_pnbr (tab f2 K2) c2)) in *.
    destruct (calcDwell_val h sites Hm Hlk c3 eq_refl T3) as (dw & E3 & Ndw & Ldw).
    set (c4 := c_with_idwell dw c3) in *.
    destruct (calcSumOff_val h sites Hm c4 eq_refl) as (K3 & PK3 & E4).
    set (c5 := c_with_sumoff (tab (moff h sites) K3) c4) in *.
    destruct (calcSumInt_val h sites Hm Hlk c5 eq_refl) as (K6 & PK6 & E5).
    set (c6 := c_with_sumint (tab (minner h sites) K6) c5) in *.
    destruct (calcHopOff_val h sites P Kp Hm HD HKp Hex c6 K3 eq_refl eq_refl eq_refl PK3 H2) as (K7 & PK7 & E6).
    set (c7 := c_with_hopoff (tab (woff h sites P) K7) c6) in *.
    destruct (calcHopBetween_val h sites P Kp Hm HD HKp Hlk Hex c7 K7 eq_refl eq_refl eq_refl PK7 H2) as (K8 & K9 & PK8 & PK9 & E7).
    match type of E7 with _ = Ret tt ?x => set (c8 := x) in * end.
    pose proof (calcTau_val h sites P Hm Hex c8 K3 K8 eq_refl eq_refl PK3 eq_refl PK8) as E8.
    match type of E8 with _ = Ret tt ?x => set (c9 := x) in * end.
    destruct (calcITau_val h c9) as (v & E9).
    exists P, (c_with_itau v c9). split.
    + unfold recalc, c_solve, bind, gets. fold sites. rewrite Es. unfold lift at 1. rewrite modify_eq. fold c1.
      rewrite E1, E2, E3, E4, E5, E6, E7, E8, E9. reflexivity.
    + split; [|split; reflexivity]. constructor.
      * constructor; reflexivity.
      * exact HD.
      * exists Kp. split; [exact HKp | reflexivity].
      * exists K1. split; [exact PK1 | reflexivity].
      * reflexivity.
      * exists K2. split; [exact N2|]. split; [exact O2 | reflexivity].
      * reflexivity.
      * exists K8. split; [exact PK8 | reflexivity].
      * reflexivity.
      * reflexivity.
      * split; [exact Ndw | exact Ldw].
  - right. split; [exact Em|]. split; [|exact Es]. unfold recalc, c_solve, bind, gets. rewrite Es. reflexivity.
Qed.

(** the saved counts can be put back *)
Definition restorable (h : @heap XR) c (saved : umap Z) : Prop :=
  saved = [] \/ forall P, dist (c_siteIds c) P -> TAU h (c_sites c) P <> dbl_min.

Lemma update_val fuel h c saved c1 : sound h c -> tidy c ->
  c_visitList (ukeys (c_svisits c)) c = Ret saved c1 -> restorable h c saved ->
  (exists P c', c_update fuel h c = Ret tt c' /\ solved h c c' P /\
     NoDup (ukeys (c_svisits c')) /\ (forall k, In k (ukeys (c_svisits c')) <-> In k (c_siteIds c)) /\
     (forall k, In k (c_siteIds c) ->
        ulookup k (c_svisits c') = Some (Fin (IZR (uget 0%Z k saved)))) /\ c_prev c' = c_prev c1) \/
  (c_method c = ByTolerance /\ c_update fuel h c = Halt Diverged /\
   solve_pon fuel (c_method c) (c_iters c) (c_tol c) (c_sites c) (c_pon c) = Bad Diverged).
Proof.
  intros So Ti Ev Hr. rewrite update_split, Ev.
  destruct (visitList_shape _ _ _ _ Ev) as (Ek & sv & pv & ->).
  set (c1 := c_with_prev pv (c_with_svisits sv c)) in *.
  assert (So1 : sound h c1) by (destruct So; constructor; assumption).
  assert (Ti1 : tidy c1) by (destruct Ti; constructor; assumption).
  destruct (recalc_val fuel h c1 So1 Ti1) as [(P & c2 & E & S & _ & Epv)|(Em & E & Es)].
  - left. rewrite E. destruct S as [Sc Sd Sp Si Sci Sn Scn Sh St Sinc Sdw].
    assert (Es : c_sites c2 = c_sites c) by (destruct Sc; assumption).
    destruct (refill_run saved (c_siteIds c2) (c_with_svisits [] c2)) as (sv2 & E2 & N2 & K2 & L2 & O2).
    { constructor. }
    { destruct Hr as [Hr|Hr]; [left; exact Hr|]. right. cbn [c_tau c_with_svisits]. rewrite St.
      cbn [neqb XR xeqb unassigned_value ndblmin]. unfold Reqb. destruct (Req_EM_T _ _) as [X|]; [|reflexivity].
      destruct (Hr P Sd). exact X. }
    { unfold c_siteIds. rewrite Es. apply So. }
    rewrite E2. unfold c_siteIds in K2, L2. rewrite Es in K2, L2.
    destruct So as [Hm Hmut Hlk Hex H2].
    destruct (calcDwell_val h (c_sites c) Hm Hlk (c_with_svisits sv2 (c_with_svisits [] c2)) Es (proj1 Sdw)) as (dw & E3 & Ndw & Ldw).
    eexists P, _. split; [exact E3|]. split; [|split; [|split; [|split]]].
    + constructor; try assumption.
      * destruct Sc. constructor; assumption.
      * split; [exact Ndw | exact Ldw].
    + exact N2.
    + intros k. cbn [c_svisits c_with_svisits c_with_idwell ukeys map In] in *. rewrite K2. unfold c_siteIds. tauto.
    + intros k Hk. cbn [c_svisits c_with_svisits c_with_idwell]. refine (eq_trans (L2 k Hk) _). unfold uget.
      destruct (ulookup k saved); reflexivity.
    + exact Epv.
  - right. rewrite E. auto.
Qed.
End Upd.
