(** * Thermal equilibrium inside a cluster: proofs *)
From Coq Require Import ZArith List Bool Reals Lra Lia Permutation.
From Verif Require Import Base BaseProofs Num RSum MarcusModel MarcusProofs SiteModel SiteSpec ClusterModel ClusterSpec ClusterReal ClusterTables ClusterHist ClusterOps MasterEq ClusterUpdate ClusterPick
  MasterLimit EscapeSpec EscapeProofs ThermalSpec.
Import ListNotations.
Open Scope R_scope.

Section Thermal.
Context {I : Impl} {G : @Rng XR}.
Implicit Types (sites : umap (@site XR G)).

(** the fraction of its time a hop-by-hop walker spends on [k] *)
Lemma share_close h sites Q eps : members_ok h sites -> sites <> [] -> dist (ukeys sites) Q -> 0 < eps -> exists d, 0 < d /\ forall P,
  (forall k, In k (ukeys sites) -> Rabs (P k - Q k) < d) -> forall k, In k (ukeys sites) -> Rabs (wint h sites P k - wint h sites Q k) < eps.
Proof.
  intros Hm Hne DQ He. assert (W0 : 0 < WT h sites Q) by (apply WT_pos; auto; destruct sites; [congruence | discriminate]).
  assert (Each : forall l, (forall k, In k l -> In k (ukeys sites)) -> exists d, 0 < d /\ forall P, (forall k, In k (ukeys sites) -> Rabs (P k - Q k) < d) ->
    forall k, In k l -> Rabs (wint h sites P k - wint h sites Q k) < eps).
  { induction l as [|m l IH]; intros Hl; [exists 1; split; [lra | intros P _ k []]|].
    destruct IH as (d & Hd & IH); [intros; apply Hl; right; assumption|].
    destruct (quot_close (Q m * mtau h sites m) (WT h sites Q) eps W0 He) as (d1 & Hd1 & C1).
    destruct (lin_close [m] (mtau h sites) Q d1 Hd1) as (d2 & Hd2 & C2).
    destruct (lin_close (ukeys sites) (mtau h sites) Q d1 Hd1) as (d3 & Hd3 & C3).
    exists (Rmin d (Rmin d2 d3)). split; [repeat apply Rmin_glb_lt; assumption|]. intros P HP n [<-|Hn].
    - apply C1.
      + assert (X : Rabs (Rsum (fun k => P k * mtau h sites k) [m] - Rsum (fun k => Q k * mtau h sites k) [m]) < d1).
        { apply C2. intros k [<-|[]]. eapply Rlt_le_trans; [apply HP, Hl; left; reflexivity|]. eapply Rle_trans; [apply Rmin_r | apply Rmin_l]. }
        cbn [Rsum] in X. rewrite !Rplus_0_r in X. exact X.
      + apply C3. intros k Hk. eapply Rlt_le_trans; [apply HP; exact Hk|]. eapply Rle_trans; [apply Rmin_r | apply Rmin_r].
    - apply IH; [|exact Hn]. intros k Hk. eapply Rlt_le_trans; [apply HP; exact Hk | apply Rmin_l]. }
  apply Each. auto.
Qed.

Lemma shares_limit h sites : members_ok h sites -> mutual sites -> joined sites -> (2 <= length sites)%nat -> has_exit sites ->
  exists Q, quasi_stationary h sites Q /\ forall eps, 0 < eps -> exists N t, 0 < t /\
    forall fuel c c', never_updated c -> c_sites c = sites -> finer N t c -> c_update fuel h c = Ret tt c' ->
      forall k, In k (ukeys sites) -> exists x, 0 < x /\ internal_share c' k x /\ Rabs (x - wint h sites Q k) < eps.
Proof.
  intros Hm Hmut Hj H2 Hex. destruct (solver_limit h sites Hm Hmut Hj H2) as (Q & HQ & _ & Lim). exists Q. split; [exact HQ|].
  intros eps He. pose proof (esc_ne sites H2) as Hne. pose proof (proj1 (qs_still _ _ _) HQ) as [DQ _].
  destruct (share_close h sites Q eps Hm Hne DQ He) as (d & Hd & Close). destruct (Lim d Hd) as (N & t & Ht & H). exists N, t. split; [exact Ht|].
  intros fuel c c' Hnu Es Hf E k Hk.
  assert (So : sound h c) by (constructor; rewrite Es; try assumption; exact (joined_linked sites (proj1 Hm) Hj H2)).
  destruct (fresh_picks fuel h c c' Hnu So E) as (P & HP & Sh). cbn zeta in Sh. destruct Sh as (_ & _ & Sh).
  assert (Ek : c_siteIds c = ukeys sites) by (unfold c_siteIds; rewrite Es; reflexivity). rewrite Ek, Es in *.
  destruct (Sh k Hk) as (Px & lo & L0 & L1 & L2). exists (wint h sites P k). split; [exact Px|]. split; [exists lo; auto|].
  apply Close; [|exact Hk]. intros j Hjk. destruct (H fuel c c' (never_updated_built c Hnu) Es Hf E j) as (p & Ep & Hp); [rewrite Ek; exact Hjk|].
  destruct (HP j Hjk) as [_ Ep']. rewrite Ep in Ep'. injection Ep' as ->. exact Hp.
Qed.

Lemma time_shares h sites : members_ok h sites -> mutual sites -> joined sites -> (2 <= length sites)%nat -> has_exit sites ->
  exists Q T (Tk : Z -> R), quasi_stationary h sites Q /\ 0 < T /\ mean_stay h sites Q T /\
    (forall k, In k (ukeys sites) -> mean_time h sites Q (Z.eqb k) (Tk k)) /\
    forall eps, 0 < eps -> exists N t, 0 < t /\
    forall fuel c c', never_updated c -> c_sites c = sites -> finer N t c -> c_update fuel h c = Ret tt c' ->
      forall k, In k (ukeys sites) -> exists x, 0 < x /\ internal_share c' k x /\ Rabs (x - Tk k / T) < eps.
Proof.
  intros Hm Hmut Hj H2 Hex. destruct (shares_limit h sites Hm Hmut Hj H2 Hex) as (Q & HQ & Lim).
  pose proof (qs_bounds h sites Q Hm (joined_linked sites (proj1 Hm) Hj H2) Hex HQ) as HB.
  pose proof (esc_ne sites H2) as Hne. pose proof (proj1 (qs_still _ _ _) HQ) as [DQ _].
  assert (W0 : 0 < WT h sites Q) by (apply WT_pos; auto; clear - Hne; destruct sites; [congruence | discriminate]).
  exists Q. do 2 eexists. split; [exact HQ|]. split; [|split; [apply (qs_mean_time h sites Q (fun _ => true) HB HQ)|split; [intros k _; apply (qs_mean_time h sites Q (Z.eqb k) HB HQ)|]]].
  - apply Rdiv_lt_0_compat; [exact W0 | lra].
  - intros eps He. destruct (Lim eps He) as (N & t & Ht & H). exists N, t. split; [exact Ht|]. intros fuel c c' Hnu Es Hf E k Hk.
    destruct (H fuel c c' Hnu Es Hf E k Hk) as (x & X0 & X1 & X2). exists x. split; [exact X0|]. split; [exact X1|].
    match goal with |- Rabs (x - ?q) < _ => replace q with (wint h sites Q k); [exact X2|] end.
    cbn beta. unfold wint.
    replace (Rsum (fun i => Q i * (if (k =? i)%Z then mtau h sites i else 0)) (ukeys sites)) with (Q k * mtau h sites k).
    + change (Rsum (fun i => Q i * mtau h sites i) (ukeys sites)) with (WT h sites Q). field. split; lra.
    + pose proof (proj1 Hm) as ND. clear - ND Hk. induction (ukeys sites) as [|a l IH]; [destruct Hk|]. cbn [Rsum]. inversion ND as [|? ? N1 N2]. destruct Hk as [->|Hk].
      * rewrite Z.eqb_refl. assert (Z0 : Rsum (fun i => Q i * (if (k =? i)%Z then mtau h sites i else 0)) l = 0).
        { rewrite (Rsum_ext _ (fun _ => 0)); [apply Rsum_zero|]. intros i Hi. destruct (Z.eqb_spec k i) as [<-|_]; [contradiction | ring]. }
        lra.
      * rewrite <- (IH Hk N2). destruct (Z.eqb_spec k a) as [<-|_]; [contradiction | ring].
Qed.

(** ** Balanced weights *)
Lemma mprob_rate h sites i k : members_ok h sites -> In i (ukeys sites) -> mprob h sites i k = mrate h sites i k * mtau h sites i.
Proof.
  intros Hm Hi. destruct (keys_In sites i Hi) as [s Hin]. pose proof (In_ulookup i s sites (proj1 Hm) Hin) as E. unfold mprob, mrate, mtau. rewrite E. reflexivity.
Qed.
Lemma tau_total h sites k : members_ok h sites -> In k (ukeys sites) -> (moff h sites k + minner h sites k) * mtau h sites k = 1.
Proof. intros Hm Hk. pose proof (off_in_tau h sites k Hm Hk). lra. Qed.
Lemma rates_inner h sites k : members_ok h sites -> In k (ukeys sites) -> Rsum (mrate h sites k) (ukeys sites) = minner h sites k.
Proof.
  intros Hm Hk. destruct (keys_In sites k Hk) as [s Hin]. pose proof (stay_val h sites k s Hm Hin) as S.
  pose proof (In_ulookup k s sites (proj1 Hm) Hin) as E.
  pose proof (mtau_pos h sites Hm k Hk) as Tp. apply Rmult_eq_reg_r with (mtau h sites k); [|lra].
  rewrite <- Rsum_scal_r. transitivity (Rsum (mprob h sites k) (ukeys sites)); [apply Rsum_ext; intros n _; symmetry; apply mprob_rate; assumption|].
  unfold stay in S. etransitivity; [exact S|]. unfold minner, mtau. rewrite E. reflexivity.
Qed.

Lemma balanced_qs h sites w e : members_ok h sites -> (2 <= length sites)%nat -> balanced h sites w -> even_exits h sites e ->
  exists z, 0 < z /\ quasi_stationary h sites (fun k => w k * (moff h sites k + minner h sites k) / z).
Proof.
  intros Hm H2 [W0 Wb] He. set (Kt := fun k => moff h sites k + minner h sites k).
  assert (K0 : forall k, In k (ukeys sites) -> 0 < Kt k).
  { intros k Hk. pose proof (tau_total h sites k Hm Hk) as T. pose proof (mtau_pos h sites Hm k Hk). fold (Kt k) in T.
    destruct (Rlt_le_dec 0 (Kt k)) as [X|X]; [exact X|]. exfalso. nra. }
  set (z := Rsum (fun k => w k * Kt k) (ukeys sites)). assert (Z0 : 0 < z).
  { apply Rsum_pos; [exact (esc_Kne sites H2)|]. intros k Hk. apply Rmult_lt_0_compat; auto. }
  exists z. split; [exact Z0|].
  assert (S1 : Rsum (fun k => w k * Kt k / z) (ukeys sites) = 1) by (unfold Rdiv; rewrite Rsum_scal_r; fold z; field; lra).
  assert (Fl : forall k, In k (ukeys sites) -> in_flow h sites (fun k => w k * Kt k / z) k = (1 - e) * (w k * Kt k / z)).
  { intros k Hk. unfold in_flow. rewrite (Rsum_ext _ (fun n => w k / z * mrate h sites k n)).
    - rewrite Rsum_scal, rates_inner by assumption. pose proof (He k Hk) as X. unfold Kt.
      assert (Y : minner h sites k = (1 - e) * (moff h sites k + minner h sites k)) by lra.
      transitivity (w k / z * ((1 - e) * (moff h sites k + minner h sites k))); [rewrite <- Y; reflexivity | field; lra].
    - intros n Hn. rewrite mprob_rate by assumption. pose proof (tau_total h sites n Hm Hn) as T. fold (Kt n) in T.
      transitivity (w n * mrate h sites n k * (Kt n * mtau h sites n) / z); [field; lra|]. rewrite T, (Wb n k Hn Hk). field. lra. }
  split; [intros k Hk; apply Rdiv_lt_0_compat; [apply Rmult_lt_0_compat; [apply W0 | apply (K0 k)]; exact Hk | exact Z0]|].
  split; [exact S1|].
  intros k Hk. change (moff h sites k + minner h sites k) with (Kt k).
  change (in_flow h sites (fun k => w k * Kt k / z) k = Rsum (in_flow h sites (fun k => w k * Kt k / z)) (ukeys sites) * (w k * Kt k / z)).
  rewrite (Rsum_ext (in_flow h sites (fun k => w k * Kt k / z)) (fun k => (1 - e) * (w k * Kt k / z)) _ Fl), Rsum_scal, S1, Rmult_1_r. apply Fl; exact Hk.
Qed.

Lemma balanced_share h sites w e Q k : members_ok h sites -> mutual sites -> joined sites -> (2 <= length sites)%nat -> balanced h sites w -> even_exits h sites e ->
  quasi_stationary h sites Q -> In k (ukeys sites) -> wint h sites Q k = w k / Rsum w (ukeys sites).
Proof.
  intros Hm Hmut Hj H2 Hb He HQ Hk. destruct (solver_limit h sites Hm Hmut Hj H2) as (Q0 & _ & U & _).
  destruct (balanced_qs h sites w e Hm H2 Hb He) as (z & Z0 & HQ'). pose proof (U _ HQ) as E1. pose proof (U _ HQ') as E2. cbn beta in E2.
  assert (Eq : forall i, In i (ukeys sites) -> Q i * mtau h sites i = w i * / z).
  { intros i Hi. rewrite (E1 i Hi), <- (E2 i Hi). pose proof (tau_total h sites i Hm Hi) as T.
    transitivity (w i * ((moff h sites i + minner h sites i) * mtau h sites i) / z); [field; lra|]. rewrite T. field. lra. }
  unfold wint, WT. rewrite (Eq k Hk), (Rsum_ext _ (fun i => w i * / z) _ Eq), Rsum_scal_r.
  assert (0 < Rsum w (ukeys sites)) by (apply Rsum_pos; [exact (esc_Kne sites H2) | apply Hb]). field. split; lra.
Qed.

Lemma thermal h sites w e : members_ok h sites -> mutual sites -> joined sites -> (2 <= length sites)%nat -> has_exit sites ->
  balanced h sites w -> even_exits h sites e ->
  forall eps, 0 < eps -> exists N t, 0 < t /\
    forall fuel c c', never_updated c -> c_sites c = sites -> finer N t c -> c_update fuel h c = Ret tt c' ->
      forall k, In k (ukeys sites) -> exists x, internal_share c' k x /\ Rabs (x - w k / Rsum w (ukeys sites)) < eps.
Proof.
  intros Hm Hmut Hj H2 Hex Hb He eps Hp. destruct (shares_limit h sites Hm Hmut Hj H2 Hex) as (Q & HQ & Lim).
  destruct (Lim eps Hp) as (N & t & Ht & H). exists N, t. split; [exact Ht|]. intros fuel c c' Hnu Es Hf E k Hk.
  destruct (H fuel c c' Hnu Es Hf E k Hk) as (x & _ & X1 & X2). exists x. split; [exact X1|].
  rewrite (balanced_share h sites w e Q k) in X2 by assumption. exact X2.
Qed.

Lemma marcus_balanced h sites lambda T E J : members_ok h sites -> mutual sites -> 0 < lambda -> 0 < T -> marcus_rates h sites lambda T E J ->
  balanced h sites (fun k => exp (- E k / (k_B * T))).
Proof.
  intros Hm Hmut Hl HT [Js Hr]. assert (KT : k_B * T <> 0) by (apply Rgt_not_eq, Rmult_lt_0_compat; [unfold k_B; lra | exact HT]).
  split; [intros; apply exp_pos|].
  assert (Zero : forall i k, In i (ukeys sites) -> In k (ukeys sites) -> ~ internal_edge sites i k -> mrate h sites i k = 0).
  { intros i k Hi Hk Hn. destruct (keys_In sites i Hi) as [s Hin]. unfold mrate. rewrite (In_ulookup i s sites (proj1 Hm) Hin). unfold site_rate.
    destruct (ulookup k (s_neigh s)) as [a|] eqn:El; [|reflexivity]. exfalso. apply Hn. exists s. split; [exact Hin|]. split; [|exact Hk].
    unfold s_neighIds. apply ukeys_In. eauto. }
  assert (Dec : forall i k, In i (ukeys sites) -> In k (ukeys sites) -> internal_edge sites i k \/ ~ internal_edge sites i k).
  { intros i k Hi Hk. destruct (keys_In sites i Hi) as [s Hin]. destruct (in_dec Z.eq_dec k (s_neighIds s)) as [X|X]; [left; exists s; auto|].
    right. intros (s' & Hin' & Hk' & _). pose proof (In_ulookup i s sites (proj1 Hm) Hin) as E1. rewrite (In_ulookup i s' sites (proj1 Hm) Hin') in E1.
    injection E1 as ->. contradiction. }
  intros i k Hi Hk. destruct (Dec i k Hi Hk) as [X|X].
  - rewrite (Hr i k X), (Hr k i (Hmut i k X)), (Js k i), (detailed_balance lambda T (E i) (E k) (J i k) Hl HT).
    transitivity (exp (- E i / (k_B * T)) * exp (- (E k - E i) / (k_B * T)) * marcus_getRate (marcus_new lambda T) (E k) (E i) (J i k)); [ring|].
    rewrite <- exp_plus. f_equal. f_equal. field. split; [lra|]. unfold k_B; lra.
  - rewrite (Zero i k Hi Hk X), (Zero k i Hk Hi); [ring|]. intros Y. apply X, Hmut, Y.
Qed.
Lemma marcus_thermal h sites lambda T E J e : members_ok h sites -> mutual sites -> joined sites -> (2 <= length sites)%nat -> has_exit sites ->
  0 < lambda -> 0 < T -> marcus_rates h sites lambda T E J -> even_exits h sites e ->
  forall eps, 0 < eps -> exists N t, 0 < t /\
    forall fuel c c', never_updated c -> c_sites c = sites -> finer N t c -> c_update fuel h c = Ret tt c' ->
      forall k, In k (ukeys sites) -> exists x, internal_share c' k x /\
        Rabs (x - exp (- E k / (k_B * T)) / Rsum (fun j => exp (- E j / (k_B * T))) (ukeys sites)) < eps.
Proof.
  intros Hm Hmut Hj H2 Hex Hl HT Hr He. apply (thermal h sites (fun k => exp (- E k / (k_B * T))) e); try assumption. exact (marcus_balanced h sites lambda T E J Hm Hmut Hl HT Hr).
Qed.
End Thermal.
