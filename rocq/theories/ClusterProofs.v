(** * Proofs about clusters *)
From Coq Require Import ZArith List Bool Reals Lra Lia Permutation Relations.
From Verif Require Import Base BaseProofs Num OrdLaws RSum SiteModel SiteSpec SiteProofs
  ClusterModel ClusterSpec ClusterFrame ClusterHist ClusterOps MasterEq ClusterReal ClusterTables ClusterUpdate.
Import ListNotations.
Open Scope R_scope.

(** ** Only the tolerance loop can run out of fuel *)
Section NoDiv.
Context {I : Impl} {N : Num} {G : Rng}.
Definition nodiv {A} (m : M cluster A) : Prop := forall c, m c <> Halt Diverged.
Lemma nd_ret {A} (a : A) : nodiv (ret a). Proof. intros c; discriminate. Qed.
Lemma nd_gets {A} (f : cluster -> A) : nodiv (gets f). Proof. intros c; discriminate. Qed.
Lemma nd_modify f : nodiv (modify f). Proof. intros c; discriminate. Qed.
Lemma nd_assert b : nodiv (cassert b). Proof. intros c. unfold cassert. destruct b; discriminate. Qed.
Lemma nd_lift {A} (r : res A) : r <> Bad Diverged -> nodiv (lift r).
Proof. intros Hr c. unfold lift. destruct r; try discriminate. congruence. Qed.
Lemma nd_stop {A} : nodiv (stop (A := A) Undefined). Proof. intros c; discriminate. Qed.
Lemma nd_bind {A B} (m : M cluster A) (f : A -> M cluster B) : nodiv m -> (forall a, nodiv (f a)) -> nodiv (bind m f).
Proof. intros Hm Hf c. unfold bind. specialize (Hm c). destruct (m c); [apply Hf | discriminate | congruence]. Qed.
Lemma nd_mfor {A} (l : list A) (f : A -> M cluster unit) : (forall a, nodiv (f a)) -> nodiv (mfor l f).
Proof. intros Hf. induction l; cbn [mfor]; [apply nd_ret | apply nd_bind; auto]. Qed.

Ltac nd := repeat first [ apply nd_bind; [|intros ?] | apply nd_ret | apply nd_gets | apply nd_modify | apply nd_assert
  | apply nd_stop | (apply nd_mfor; intros ?) | apply nd_lift ].

Lemma rbind_nd {A B} (r : res A) (f : A -> res B) : r <> Bad Diverged -> (forall a, f a <> Bad Diverged) -> rbind r f <> Bad Diverged.
Proof. intros Hr Hf. destruct r; cbn [rbind]; [apply Hf | discriminate | congruence]. Qed.
Lemma probTo_nd s k : s_probTo s k <> Bad Diverged.
Proof. intros E. unfold s_probTo in E. destruct (umem _ _) in E; [|discriminate]. destruct (ulookup _ _) in E; discriminate E. Qed.
Lemma tau_of_nd sites k : tau_of sites k <> Bad Diverged.
Proof. unfold tau_of. destruct (ulookup _ _); discriminate. Qed.
Lemma weigh_nd sites pon : weigh_tau sites pon <> Bad Diverged.
Proof. induction pon; cbn [weigh_tau]; [discriminate|]. apply rbind_nd; [apply tau_of_nd|]. intros t. apply rbind_nd; [exact IHpon | discriminate]. Qed.
Lemma sort_nd l : sort_desc l <> Bad Diverged.
Proof. unfold sort_desc. destruct (_ && _)%bool; discriminate. Qed.
Lemma foldl_nd {A B} (f : res A -> B -> res A) l : (forall r b, r <> Bad Diverged -> f r b <> Bad Diverged) ->
  forall r, r <> Bad Diverged -> fold_left f l r <> Bad Diverged.
Proof. intros Hf. induction l; cbn [fold_left]; auto. Qed.
Lemma exit_nd sites pon : exit_weights sites pon <> Bad Diverged.
Proof.
  apply foldl_nd; [|discriminate]. intros r e Hr. apply foldl_nd; [|exact Hr]. intros r' n Hr'.
  apply rbind_nd; [exact Hr'|]. intros m. destruct (umem n sites); [discriminate|].
  apply rbind_nd; [apply probTo_nd | discriminate].
Qed.
Lemma sum_taus_nd sites pon : forall a, sum_taus sites pon a <> Bad Diverged.
Proof. induction pon; cbn [sum_taus]; intros x; [discriminate|]. apply rbind_nd; [apply tau_of_nd | auto]. Qed.
Lemma hopoff_nd sites so sr st pon : hopoff_raw sites so sr st pon <> Bad Diverged.
Proof. induction pon; cbn [hopoff_raw]; [discriminate|]. apply rbind_nd; [apply tau_of_nd|]. intros t. apply rbind_nd; [exact IHpon | discriminate]. Qed.
Lemma hopbet_nd sites pon l : hopbet_raw sites pon l <> Bad Diverged.
Proof. induction l; cbn [hopbet_raw]; [discriminate|]. apply rbind_nd; [apply tau_of_nd|]. intros t. apply rbind_nd; [exact IHl | discriminate]. Qed.
Lemma spread_nd c diff l : forall sv, spread_visits c diff l sv <> Bad Diverged.
Proof. induction l; cbn [spread_visits]; intros sv; [discriminate|]. destruct (ulookup _ _); [|discriminate]. destruct (ulookup _ _); [apply IHl | discriminate]. Qed.
Lemma getVisits_nd k : nodiv (c_getVisits k).
Proof.
  unfold c_getVisits. nd.
  - destruct (_ =? _)%Z; nd. apply spread_nd.
  - destruct (ntrunc _); nd.
Qed.
Lemma visitList_nd l : nodiv (c_visitList l).
Proof. induction l; cbn [c_visitList]; [nd|]. apply nd_bind; [apply getVisits_nd|]. intros. apply nd_bind; [exact IHl|]. intros; nd. Qed.
Lemma setVisits_nd v k : nodiv (c_setVisits v k).
Proof. unfold c_setVisits. nd. Qed.

(** if the solver does not diverge on the members, neither does the update *)
Lemma update_nd fuel h c :
  solve_pon fuel (c_method c) (c_iters c) (c_tol c) (c_sites c) (c_pon c) <> Bad Diverged ->
  c_update fuel h c <> Halt Diverged.
Proof.
  intros Hs. rewrite update_split. pose proof (visitList_nd (ukeys (c_svisits c)) c) as Hv.
  destruct (c_visitList _ c) as [saved c1| |x] eqn:Ev; [|discriminate|congruence].
  destruct (visitList_shape _ _ _ _ Ev) as (_ & sv & pv & ->).
  set (c1 := c_with_prev pv (c_with_svisits sv c)).
  assert (Hr : recalc fuel h c1 <> Halt Diverged).
  { unfold recalc, c_solve, bind at 1 2 3, gets.
    unfold c1 at 1 2 3 4 5. cbn [c_method c_iters c_tol c_sites c_pon c_with_prev c_with_svisits].
    destruct (solve_pon _ _ _ _ _ _) as [pon|e|x] eqn:Es; cbn [lift]; [|discriminate|congruence].
    match goal with |- match bind (modify ?f) ?k c1 with _ => _ end <> _ =>
      assert (X : nodiv (bind (bind (modify f) k) (fun _ => c_calcSumOff h;; c_calcSumInt h;; c_calcHopOff h;; c_calcHopBetween h;; c_calcTau h;; c_calcITau h)));
      [|exact (X c1)] end.
    unfold c_calcHopToInternal, c_calcHopToNeighbors, c_calcInternalDwell, c_calcSumOff, c_calcSumInt,
      c_calcHopOff, c_calcHopBetween, c_calcTau, c_calcITau.
    nd; first [apply weigh_nd | apply sort_nd | apply exit_nd | apply sum_taus_nd | apply hopoff_nd | apply hopbet_nd]. }
  destruct (recalc fuel h c1) as [u c2| |x]; [|discriminate|congruence].
  assert (Hf : nodiv (mfor (c_siteIds c2) (refill saved))).
  { apply nd_mfor. intros k. unfold refill. nd. destruct (ulookup _ _); [apply setVisits_nd | nd]. }
  specialize (Hf (c_with_svisits [] c2)). destruct (mfor _ _ _) as [u3 c3| |x]; [|discriminate|congruence].
  unfold c_calcInternalDwell. apply nd_modify.
Qed.
End NoDiv.

(** ** The occupation map after an update *)
Section UpdInv.
Context {I : Impl} {N : Num} {G : Rng}.
Ltac lv := repeat first
  [ apply leaves_bind; [|intros ?] | apply leaves_ret | apply leaves_lift | apply leaves_gets | apply leaves_stop
  | apply leaves_assert | (apply leaves_modify; intros; reflexivity) | (apply leaves_mfor; intros ?) ].

Lemma update_pon fuel h c c' : c_update fuel h c = Ret tt c' ->
  solve_pon fuel (c_method c) (c_iters c) (c_tol c) (c_sites c) (c_pon c) = Ok (c_pon c') /\ c_sites c' = c_sites c.
Proof.
  intros E. split; [|exact (sc_sites _ _ (keeps_update fuel h c tt c' E))].
  rewrite update_split in E. destruct (c_visitList _ c) as [saved c1| |] eqn:Ev; try discriminate.
  destruct (visitList_shape _ _ _ _ Ev) as (_ & sv & pv & ->).
  set (c1 := c_with_prev pv (c_with_svisits sv c)) in *.
  destruct (recalc fuel h c1) as [u c2| |] eqn:Er; try discriminate.
  destruct (mfor _ _ _) as [u3 c3| |] eqn:Em in E; try discriminate.
  assert (E3 : c_pon c' = c_pon c2).
  { unfold c_calcInternalDwell in E. rewrite modify_eq in E. inversion E; subst; clear E. cbn [c_pon c_with_idwell].
    destruct u3. apply refill_all in Em. destruct Em as (sv2 & -> & _). reflexivity. }
  unfold recalc, c_solve in Er.
  apply bind_ret_inv in Er. destruct Er as (u1 & c4 & E4 & Er).
  apply bind_ret_inv in E4. destruct E4 as (c0 & s0 & E0 & E4). inversion E0; subst c0 s0; clear E0.
  apply bind_ret_inv in E4. destruct E4 as (pon & s1 & E1 & E4). unfold lift in E1.
  destruct (solve_pon _ _ _ _ _ _) as [p| |] eqn:Es in E1; inversion E1; subst p s1; clear E1.
  apply bind_ret_inv in E4. destruct E4 as (u2 & s2 & E2 & E4). rewrite modify_eq in E2. inversion E2; subst u2 s2; clear E2.
  assert (L1 : leaves (c_calcHopToInternal ;; c_calcHopToNeighbors ;; c_calcInternalDwell h) c_pon).
  { unfold c_calcHopToInternal, c_calcHopToNeighbors, c_calcInternalDwell. lv. }
  pose proof (L1 _ _ _ E4) as P1.
  assert (L2 : leaves (c_calcSumOff h;; c_calcSumInt h;; c_calcHopOff h;; c_calcHopBetween h;; c_calcTau h;; c_calcITau h) c_pon).
  { unfold c_calcSumOff, c_calcSumInt, c_calcHopOff, c_calcHopBetween, c_calcTau, c_calcITau. lv. }
  pose proof (L2 _ _ _ Er) as P2. rewrite E3, P2, P1. cbn [c_pon c_with_pon].
  exact Es.
Qed.
End UpdInv.

(** ** Cumulative tables *)
Lemma cum_scan_cumulate (u : xn) (l : list (Z * xn)) : forall t, (forall e, In e l -> exists q, snd e = Fin q) ->
  @cum_scan XR u (@cumulate XR (Fin t) l) = @pick_scan XR u (Fin t) l.
Proof.
  induction l as [|[k v] l IH]; intros t Hl; [reflexivity|].
  destruct (Hl (k, v)) as [q Eq]; [simpl; auto|]. cbn [snd] in Eq. subst v.
  cbn [cumulate cum_scan pick_scan fst snd].
  assert (E : @nadd XR (Fin q) (Fin t) = @nadd XR (Fin t) (Fin q)) by (cbn [nadd XR xadd]; f_equal; lra).
  rewrite E. destruct (nltb u _); [reflexivity|].
  change (@nadd XR (Fin t) (Fin q)) with (Fin (t + q) : xn). apply IH. intros; apply Hl; simpl; auto.
Qed.

(** a scan that succeeds in the first part never looks at the second *)
Lemma cum_scan_prefix (u : xn) (l r : list (Z * xn)) : (exists e, In e l /\ @nltb XR u (snd e) = true) ->
  @cum_scan XR u (l ++ r) = @cum_scan XR u l /\ In (@cum_scan XR u l) (map fst l).
Proof.
  induction l as [|e l IH]; intros (x & Hin & Hx); [destruct Hin|]. cbn [app cum_scan map In].
  destruct (nltb u (snd e)) eqn:E; [auto|]. destruct Hin as [->|Hin]; [congruence|].
  destruct IH as [A B]; [eauto|]. auto.
Qed.

(** the last entry of a cumulative table is the total *)
Lemma cumulate_total (f : Z -> R) (K : list Z) : forall t, K <> [] ->
  exists k, In k K /\ In (k, Fin (t + Rsum f K) : xn) (@cumulate XR (Fin t) (tab f K)).
Proof.
  induction K as [|k K IH]; intros t Hne; [congruence|].
  change (tab f (k :: K)) with ((k, Fin (f k) : xn) :: tab f K). cbn [cumulate fst snd].
  change (@nadd XR (Fin (f k)) (Fin t)) with (Fin (f k + t) : xn). cbn [Rsum].
  destruct K as [|k2 K].
  - exists k. split; [simpl; auto|]. left. f_equal. f_equal. simpl. lra.
  - destruct (IH (f k + t)) as (j & Hj & Hin); [discriminate|]. exists j. split; [right; exact Hj|]. right.
    replace (t + (f k + Rsum f (k2 :: K))) with (f k + t + Rsum f (k2 :: K)) by lra. exact Hin.
Qed.
Lemma cumulate_keys (l : list (Z * xn)) : forall t, map fst (@cumulate XR t l) = map fst l.
Proof. induction l as [|e l IH]; intros t; [reflexivity|]. cbn [cumulate map fst]. rewrite IH. reflexivity. Qed.

Lemma psum_tab f K : psum (tab f K) = Rsum f K.
Proof. unfold psum, tab. rewrite Rsum_map. reflexivity. Qed.

(** picking from the cumulative table of a distribution *)
Lemma cum_pick_member f K u : (forall k, In k K -> 0 <= f k) -> Rsum f K = 1 -> 0 <= u < 1 ->
  In (@cum_scan XR (Fin u) (@cumulate XR n0 (tab f K))) K.
Proof.
  intros Hp Hs Hu. rewrite n0_XR, cum_scan_cumulate by (intros e He; eexists; apply (tab_vals f K e He)).
  rewrite <- (tab_keys f K) at 2. apply pick_scan_member; [|rewrite psum_tab; lra].
  intros e He. exists (f (fst e)). split; [apply (tab_vals f K e He)|]. apply Hp.
  rewrite <- (tab_keys f K). apply in_map; exact He.
Qed.
Lemma cum_pick_interval f K j : NoDup K -> (forall k, In k K -> 0 <= f k) -> Rsum f K = 1 -> In j K ->
  exists lo, 0 <= lo /\ lo + f j <= 1 /\
    forall u, 0 <= u < 1 -> (@cum_scan XR (Fin u) (@cumulate XR n0 (tab f K)) = j <-> lo <= u < lo + f j).
Proof.
  intros ND Hp Hs Hj.
  destruct (pick_scan_interval (tab f K) 0 0 j (f j)) as (lo & A & B & C).
  - intros e He. exists (f (fst e)). split; [apply (tab_vals f K e He)|]. apply Hp.
    rewrite <- (tab_keys f K). apply in_map; exact He.
  - change (NoDup (ukeys (tab f K))). rewrite tab_keys. exact ND.
  - apply in_map_iff. exists j. auto.
  - rewrite psum_tab. lra.
  - rewrite psum_tab in *. exists lo. split; [exact A|]. split; [lra|]. intros u Hu.
    rewrite n0_XR, cum_scan_cumulate by (intros e He; eexists; apply (tab_vals f K e He)).
    rewrite (C u) by lra. lra.
Qed.

Section XRproofs.
Context {I : Impl} {G : @Rng XR}.
Implicit Types (c : @cluster XR G).

Lemma joined_linked (sites : umap (@site XR G)) : (2 <= length sites)%nat -> NoDup (ukeys sites) -> joined sites -> linked sites.
Proof.
  intros H2 ND Hj k Hk.
  assert (exists j, In j (ukeys sites) /\ j <> k) as (j & Hjk & Hne).
  { assert (L2 : (2 <= length (ukeys sites))%nat) by (unfold ukeys; rewrite map_length; exact H2).
    destruct (ukeys sites) as [|a [|b l]]; simpl in L2; try lia.
    inversion ND as [|? ? Hni _]; subst. destruct (Z.eq_dec a k) as [->|n].
    - exists b. split; [simpl; auto|]. intros ->. apply Hni; simpl; auto.
    - exists a. split; [simpl; auto | exact n]. }
  pose proof (Hj k j Hk Hjk) as Hr. apply clos_rt_rt1n in Hr. inversion Hr; subst; [congruence|]. eauto.
Qed.

Lemma occupation fuel h c c' : built c -> members_ok h (c_sites c) -> mutual (c_sites c) -> has_link (c_sites c) ->
  c_sites c <> [] -> c_update fuel h c = Ret tt c' ->
  exists P, dist (c_siteIds c) P /\ NoDup (ukeys (c_pon c')) /\ (forall k, In k (ukeys (c_pon c')) <-> In k (c_siteIds c)) /\
    (forall k, In k (c_siteIds c) -> ulookup k (c_pon c') = Some (Fin (P k))) /\ c_sites c' = c_sites c.
Proof.
  intros Hb Hm Hmut Hlk Hne E. destruct (update_pon fuel h c c' E) as [Es Esi].
  destruct (built_tidy c Hb) as [A B C].
  destruct (solve_val h (c_sites c) fuel (c_method c) (c_iters c) (c_tol c) (c_pon c) Hm Hmut Hne Hlk A B)
    as [(pon & P & Es' & HP & HD & HK)|[_ Es']]; [|congruence].
  assert (pon = c_pon c') by congruence. subst pon. destruct HP as [NP HP]. exists P. auto 6.
Qed.

(** C21 *)
Lemma occupation_distribution fuel h c c' : built c -> members_ok h (c_sites c) -> mutual (c_sites c) -> has_link (c_sites c) ->
  c_sites c <> [] -> c_update fuel h c = Ret tt c' ->
  exists P : Z -> R, (forall k, In k (c_siteIds c) -> 0 < P k /\ c_probOn k c' = Ret (Fin (P k)) c') /\
    Rsum P (c_siteIds c) = 1.
Proof.
  intros Hb Hm Hmut Hlk Hne E. destruct (occupation fuel h c c' Hb Hm Hmut Hlk Hne E) as (P & [HD1 HD2] & NP & KP & LP & Es).
  exists P. split; [|exact HD2]. intros k Hk. split; [apply HD1; exact Hk|].
  assert (M1 : umem k (c_sites c') = true) by (rewrite Es; apply umem_In; exact Hk).
  assert (M2 : umem k (c_pon c') = true) by (apply umem_In, KP; exact Hk).
  unfold c_probOn, bind, gets, cassert. rewrite M1. unfold ret. rewrite M2. unfold uget. rewrite (LP k Hk). reflexivity.
Qed.

(** C22 *)
Lemma has_link_ne (sites : umap (@site XR G)) : has_link sites -> sites <> [].
Proof. intros (i & k & s & Hin & _) E. rewrite E in Hin. destruct Hin. Qed.
Lemma tidy_stops h c tol : tidy c -> members_ok h (c_sites c) -> mutual (c_sites c) -> has_link (c_sites c) ->
  c_tol c = Fin tol -> 0 < tol ->
  exists n, forall fuel, (n < fuel)%nat -> c_update fuel h c <> Halt Diverged.
Proof.
  intros [A B C] Hm Hmut Hlk Et Ht.
  pose proof (has_link_ne _ Hlk) as Hne.
  destruct (solve_terminates h (c_sites c) (c_method c) (c_iters c) tol (c_pon c) Hm Hmut Hne Hlk Ht A B) as [n Hn].
  exists n. intros fuel Hf. apply update_nd. destruct (Hn fuel Hf) as [p Ep]. rewrite Et, Ep. discriminate.
Qed.
Lemma solver_stops h c tol : built c -> members_ok h (c_sites c) -> mutual (c_sites c) -> has_link (c_sites c) ->
  c_tol c = Fin tol -> 0 < tol ->
  exists n, forall fuel, (n < fuel)%nat -> c_update fuel h c <> Halt Diverged.
Proof. intros Hb. apply tidy_stops, built_tidy, Hb. Qed.

(** the escape time constant is above the sentinel when the rates off are not astronomically large *)
Lemma Rsum_wavg (f g : Z -> R) (K : list Z) m : (forall k, In k K -> 0 <= f k) -> (forall k, In k K -> 0 < f k -> m <= g k) ->
  m * Rsum f K <= Rsum (fun k => g k * f k) K.
Proof.
  intros Hf Hg. rewrite <- Rsum_scal. apply Rsum_le. intros k Hk.
  destruct (Rle_lt_or_eq_dec 0 (f k) (Hf k Hk)) as [Hp|<-]; [|lra].
  apply Rmult_le_compat_r; [apply Hf; exact Hk | apply Hg; auto].
Qed.

Lemma SI_le1 h sites P : members_ok h sites -> dist (ukeys sites) P -> @SI G h sites P <= 1.
Proof.
  intros Hm [HD1 HD2]. rewrite <- HD2. apply Rsum_le. intros k Hk. rewrite <- (Rmult_1_r (P k)) at 2.
  apply Rmult_le_compat_l; [left; apply HD1; exact Hk|]. rewrite <- (stay_minner h sites Hm k Hk). apply stay_le1; auto.
Qed.

(** the time constant times the probability to stay is a weighted mean *)
Lemma TAU_mean h sites P : members_ok h sites -> dist (ukeys sites) P -> linked sites -> has_exit sites ->
  (forall k, In k (ukeys sites) -> 0 <= @woff G h sites P k) /\ Rsum (woff h sites P) (ukeys sites) = 1 /\
  (forall k, In k (ukeys sites) -> 0 < woff h sites P k <-> 0 < moff h sites k) /\
  0 < SI h sites P <= 1 /\
  TAU h sites P * SI h sites P = Rsum (fun k => if Rltb 0 (moff h sites k) then / moff h sites k * woff h sites P k else 0) (ukeys sites).
Proof.
  intros Hm HD Hlk Hex. pose proof (WO_pos h sites P Hm HD Hex) as HW. pose proof (SI_pos h sites P Hm HD Hlk Hex) as HS.
  split; [intros; apply woff_nonneg; auto|]. split; [apply woff_sum; auto|]. split; [|split].
  - intros k Hk. unfold woff. pose proof (proj1 HD k Hk). pose proof (mtau_pos h sites Hm k Hk).
    pose proof (moff_nonneg h sites Hm k) as Ho. split.
    + intros Hp. destruct (Rle_lt_or_eq_dec _ _ Ho) as [|E]; [assumption|]. rewrite <- E in Hp. unfold Rdiv in Hp. lra.
    + intros Hp. apply Rdiv_lt_0_compat; [|exact HW]. repeat apply Rmult_lt_0_compat; assumption.
  - split; [exact HS | apply SI_le1; auto].
  - unfold TAU. rewrite <- Rsum_scal_r. apply Rsum_ext. intros k _. destruct (Rltb _ _); [|lra].
    unfold Rdiv. rewrite !Rmult_assoc, Rinv_l by lra. ring.
Qed.

Lemma TAU_lower h sites P m : members_ok h sites -> dist (ukeys sites) P -> linked sites -> has_exit sites ->
  (forall k, In k (ukeys sites) -> 0 < moff h sites k -> m <= / moff h sites k) -> m <= @TAU G h sites P * SI h sites P.
Proof.
  intros Hm HD Hlk Hex Hb. destruct (TAU_mean h sites P Hm HD Hlk Hex) as (A & B & C & D & E). rewrite E.
  rewrite <- (Rmult_1_r m), <- B.
  eapply Rle_trans; [apply (Rsum_wavg (woff h sites P) (fun k => / moff h sites k))|].
  - exact A.
  - intros k Hk Hp. apply Hb; [exact Hk | apply C; assumption].
  - apply Rsum_le. intros k Hk. destruct (Rltb 0 (moff h sites k)) eqn:Eo; [lra|].
    apply Rltb_false in Eo. assert (~ 0 < woff h sites P k) by (rewrite (C k Hk); lra). pose proof (A k Hk).
    replace (woff h sites P k) with 0 by lra. lra.
Qed.
Lemma TAU_upper h sites P m : members_ok h sites -> dist (ukeys sites) P -> linked sites -> has_exit sites ->
  (forall k, In k (ukeys sites) -> 0 < moff h sites k -> / moff h sites k <= m) -> @TAU G h sites P * SI h sites P <= m.
Proof.
  intros Hm HD Hlk Hex Hb. destruct (TAU_mean h sites P Hm HD Hlk Hex) as (A & B & C & D & E). rewrite E.
  rewrite <- (Rmult_1_r m), <- B. rewrite <- Rsum_scal. apply Rsum_le. intros k Hk.
  destruct (Rltb 0 (moff h sites k)) eqn:Eo.
  - apply Rltb_true in Eo. apply Rmult_le_compat_r; [apply A; exact Hk | apply Hb; auto].
  - apply Rltb_false in Eo. assert (~ 0 < woff h sites P k) by (rewrite (C k Hk); lra). pose proof (A k Hk).
    replace (woff h sites P k) with 0 by lra. lra.
Qed.

Definition rates_moderate h c : Prop := forall k, In k (c_siteIds c) -> moff h (c_sites c) k < / dbl_min.
Lemma dbl_min_pos : 0 < dbl_min.
Proof. unfold dbl_min. apply powerRZ_lt. lra. Qed.
Lemma moderate_restorable h c saved : sound h c -> rates_moderate h c -> restorable h c saved.
Proof.
  intros [Hm Hmut Hlk Hex H2] Hr. right. intros P HD E. pose proof dbl_min_pos as Hp.
  destruct (TAU_mean h (c_sites c) P Hm HD Hlk Hex) as (_ & _ & _ & D & _).
  (* the largest rate off the cluster *)
  assert (exists m, dbl_min < m /\ forall k, In k (c_siteIds c) -> 0 < moff h (c_sites c) k -> m <= / moff h (c_sites c) k) as (m & Hmm & Hmk).
  { unfold rates_moderate in Hr. revert Hr. generalize (c_siteIds c). induction l as [|k l IH]; intros Hr.
    - exists (dbl_min + 1). split; [lra | intros ? []].
    - destruct IH as (m & A & B); [intros; apply Hr; simpl; auto|].
      destruct (Rlt_le_dec 0 (moff h (c_sites c) k)) as [Ho|Ho].
      + assert (dbl_min < / moff h (c_sites c) k).
        { rewrite <- (Rinv_inv dbl_min). apply Rinv_lt_contravar; [|apply Hr; simpl; auto].
          apply Rmult_lt_0_compat; [exact Ho | apply Rinv_0_lt_compat; exact Hp]. }
        exists (Rmin m (/ moff h (c_sites c) k)). split; [apply Rmin_glb_lt; assumption|].
        intros j [<-|Hj] Hoj; [apply Rmin_r|]. eapply Rle_trans; [apply Rmin_l | auto].
      + exists m. split; [exact A|]. intros j [<-|Hj] Hoj; [lra | auto]. }
  pose proof (TAU_lower h (c_sites c) P m Hm HD Hlk Hex Hmk) as HL. rewrite E in HL.
  assert (dbl_min * SI h (c_sites c) P <= dbl_min * 1) by (apply Rmult_le_compat_l; lra). lra.
Qed.

(** C28 *)
Lemma update_total h c : built c -> sound h c -> rates_moderate h c ->
  (forall k, In k (ukeys (c_svisits c)) -> exists z c2, c_getVisits k c = Ret z c2) ->
  forall fuel, (exists P c', c_update fuel h c = Ret tt c' /\ solved h c c' P) \/
    (c_method c = ByTolerance /\ c_update fuel h c = Halt Diverged).
Proof.
  intros Hb So Hr Hv fuel. destruct (visitList_ok _ _ Hv) as (saved & c1 & Ev & _).
  destruct (update_val fuel h c saved c1 So (built_tidy c Hb) Ev (moderate_restorable h c saved So Hr))
    as [(P & c' & E & S & _)|(Em & E & _)]; [left; eauto | right; auto].
Qed.
Lemma update_succeeds h c : built c -> sound h c -> rates_moderate h c ->
  (forall k, In k (ukeys (c_svisits c)) -> exists z c2, c_getVisits k c = Ret z c2) ->
  (c_method c = ByTolerance -> exists tol, c_tol c = Fin tol /\ 0 < tol) ->
  exists n, forall fuel, (n < fuel)%nat -> exists P c', c_update fuel h c = Ret tt c' /\ solved h c c' P.
Proof.
  intros Hb So Hr Hv Ht. destruct (c_method c) eqn:Em.
  - exists O. intros fuel _. destruct (update_total h c Hb So Hr Hv fuel) as [X|[X _]]; [exact X | congruence].
  - exists O. intros fuel _. destruct (update_total h c Hb So Hr Hv fuel) as [X|[X _]]; [exact X | congruence].
  - destruct (Ht eq_refl) as (tol & Et & Htp). destruct So as [Hm Hmut Hlk Hex H2].
    assert (Hne : c_sites c <> []) by (destruct (c_sites c); [simpl in H2; lia | discriminate]).
    destruct (solver_stops h c tol Hb Hm Hmut (linked_has _ Hne Hlk) Et Htp) as [n Hn]. exists n. intros fuel Hf.
    destruct (update_total h c Hb (Build_sound h c Hm Hmut Hlk Hex H2) Hr Hv fuel) as [X|[_ X]]; [exact X|].
    destruct (Hn fuel Hf). exact X.
Qed.
End XRproofs.
