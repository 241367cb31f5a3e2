(** * A cluster that keeps working *)
(** What a cluster must satisfy for every operation of the system on it to
    return, and that the operations keep it so. *)
From Coq Require Import ZArith List Bool Reals Lra Lia Permutation Relations.
From Verif Require Import Base BaseProofs Num OrdLaws RSum LatticeReal SiteModel SiteSpec SiteProofs
  ClusterModel ClusterSpec ClusterFrame ClusterHist ClusterOps MasterEq ClusterReal ClusterTables ClusterStay ClusterUpdate ClusterProofs
  ClusterSome Fuel SystemHop.
Import ListNotations.
Open Scope R_scope.

(** ** Rounding *)
Lemma Rround_IZR z : Rround (IZR z) = z.
Proof.
  unfold Rround. destruct (Rle_dec 0 (IZR z)).
  - apply Rfloor_unique. lra.
  - rewrite <- opp_IZR. rewrite (Rfloor_unique _ (- z)); [lia|]. rewrite opp_IZR. lra.
Qed.
Lemma Rtrunc_IZR z : Rtrunc (IZR z) = z.
Proof.
  unfold Rtrunc. destruct (Rle_dec 0 (IZR z)); [apply Rfloor_IZR|]. rewrite <- opp_IZR, Rfloor_IZR. lia.
Qed.
Lemma Rround_bounds x : 0 <= x -> (0 <= Rround x)%Z /\ IZR (Rround x) <= x + 1 / 2.
Proof.
  intros Hx. unfold Rround. destruct (Rle_dec 0 x); [|lra]. split; [apply Rfloor_ge; simpl; lra|].
  pose proof (Rfloor_spec (x + 1 / 2)). lra.
Qed.
Lemma trunc_round z : in_int z = true -> @ntrunc XR (@nround XR (Fin (IZR z))) = Some z.
Proof. intros Hz. cbn [nround ntrunc XR xround xtrunc]. rewrite Rround_IZR, Rtrunc_IZR, Hz. reflexivity. Qed.

(** ** Tables that always give a known site *)
Definition covers (known : Z -> Prop) (l : list (Z * @num XR)) : Prop :=
  forall u l', 0 < u < 1 -> known (@cum_scan XR (Fin u) (l ++ l')).
Lemma covers_app known l r : covers known l -> covers known (l ++ r).
Proof. intros C u l' Hu. rewrite <- app_assoc. apply C, Hu. Qed.
Lemma covers_more (K K' : Z -> Prop) l : (forall k, K k -> K' k) -> covers K l -> covers K' l.
Proof. intros S C u l' Hu. apply S, C, Hu. Qed.
Lemma covers_table (known : Z -> Prop) f K : (forall k, In k K -> 0 <= f k) -> Rsum f K = 1 -> (forall k, In k K -> known k) ->
  covers known (@cumulate XR n0 (tab f K)).
Proof.
  intros Hf Hs Hk u l' Hu.
  assert (Hne : K <> []) by (intros ->; simpl in Hs; lra).
  destruct (cumulate_total f K 0 Hne) as (k & Hin & Hv).
  destruct (cum_scan_prefix (Fin u) (@cumulate XR n0 (tab f K)) l') as [E1 E2].
  - exists (k, Fin (0 + Rsum f K) : @num XR). split; [exact Hv|]. cbn [snd nltb XR xltb]. apply Rltb_true. lra.
  - rewrite E1. apply Hk. rewrite cumulate_keys in E2. change (map fst (tab f K)) with (ukeys (tab f K)) in E2. rewrite tab_keys in E2. exact E2.
Qed.

Section Live.
Context {I : Impl} {G : @Rng XR}.
Implicit Types (c : @cluster XR G).

(** ** Visits recorded while coarse grained *)
(** [x] visits of member [k] stand for one visit of the cluster *)
Definition gains c (k : Z) (x : R) : Prop :=
  exists s d p ts t r, ulookup k (c_sites c) = Some s /\ ulookup k (c_idwell c) = Some (Fin d : @num XR) /\
    uget (n0 : @num XR) k (c_pon c) = Fin p /\ s_tau s = Fin ts /\ c_tau c = Fin t /\ c_res c = Fin r /\
    d <> 0 /\ r <> 0 /\ x = t * (p * ts / d) / r.

(** the counts written so far, before the visits not yet spread *)
Definition whole (v : @num XR) : Prop := exists z, v = Fin (IZR z) /\ (0 <= z)%Z.

Lemma spread_live c M d l : 0 <= M -> (0 <= d)%Z ->
  (forall e, In e l -> exists x, gains c (fst e) x /\ 0 <= x <= M) -> forall sv : umap xn,
  NoDup (map fst l) -> NoDup (ukeys sv) -> (forall e, In e l -> In (fst e) (ukeys sv)) ->
  (forall k v, ulookup k sv = Some v -> whole v) ->
  exists sv', spread_visits c (Fin (IZR d)) l sv = Ok sv' /\ NoDup (ukeys sv') /\ (forall k, In k (ukeys sv') <-> In k (ukeys sv)) /\
    (forall k z, ulookup k sv = Some (Fin (IZR z) : xn) -> exists z', ulookup k sv' = Some (Fin (IZR z') : xn) /\ (z <= z')%Z /\
       (In k (map fst l) -> IZR z' <= IZR z + (IZR d * M + 1 / 2)) /\ (~ In k (map fst l) -> z' = z)).
Proof.
  intros HM Hd. pose proof (IZR_le 0 d Hd) as Hd'.
  induction l as [|e l IH]; intros Hg sv NDl ND Hl Hv.
  - exists sv. split; [reflexivity|]. split; [exact ND|]. split; [tauto|]. intros k z Ek. exists z. split; [exact Ek|]. split; [lia|].
    split; [intros []|reflexivity].
  - cbn [map] in NDl. inversion NDl as [|? ? Hni NDl']; subst.
    destruct (Hg e) as (x & (s & dw & p & ts & t & r & E1 & E2 & E3 & E4 & E5 & E6 & Hdw & Hr & Ex) & Hx); [simpl; auto|].
    assert (Hk : In (fst e) (ukeys sv)) by (apply Hl; simpl; auto).
    apply ukeys_In in Hk. destruct Hk as [v0 Ev0]. destruct (Hv _ _ Ev0) as (z0 & -> & Hz0).
    cbn [spread_visits]. rewrite E1, E2, E3, E4, E5, E6.
    unfold uget at 1. rewrite Ev0.
    change (@nmul XR (@nmul XR (Fin (IZR d)) (Fin p)) (Fin ts)) with (Fin (IZR d * p * ts) : xn).
    rewrite xdiv_Fin by exact Hdw.
    change (@nmul XR (Fin t) (Fin (IZR d * p * ts / dw))) with (Fin (t * (IZR d * p * ts / dw)) : xn).
    rewrite xdiv_Fin by exact Hr.
    replace (t * (IZR d * p * ts / dw) / r) with (IZR d * x) by (subst x; field; auto).
    set (y := Rround (IZR d * x)).
    change (@nadd XR (Fin (IZR z0)) (@nround XR (Fin (IZR d * x)))) with (Fin (IZR z0 + IZR y) : xn).
    rewrite <- plus_IZR.
    destruct (Rround_bounds (IZR d * x)) as [Y0 Y1]; [apply Rmult_le_pos; lra|]. fold y in Y0, Y1.
    assert (Y2 : IZR y <= IZR d * M + 1 / 2).
    { eapply Rle_trans; [exact Y1|]. apply Rplus_le_compat_r. apply Rmult_le_compat_l; lra. }
    set (sv1 := uset sv (fst e) (Fin (IZR (z0 + y)) : xn)).
    assert (ND1 : NoDup (ukeys sv1)) by (apply uset_NoDup; exact ND).
    destruct (IH (fun e He => Hg e (or_intror He)) sv1 NDl' ND1) as (sv' & F1 & F2 & F3 & F4).
    { intros e' He'. unfold sv1. rewrite uset_keys_In. right. apply Hl. simpl; auto. }
    { intros k v Ek. unfold sv1 in Ek. rewrite uset_lookup in Ek by exact ND. destruct (Z.eqb_spec k (fst e)) as [->|].
      - injection Ek as <-. exists (z0 + y)%Z. split; [reflexivity|lia].
      - eapply Hv; exact Ek. }
    exists sv'. split; [exact F1|]. split; [exact F2|]. split.
    + intros k. rewrite F3. unfold sv1. rewrite uset_keys_In. split; [intros [->|]; auto; apply Hl; simpl; auto|auto].
    + intros k z Ek. destruct (Z.eq_dec k (fst e)) as [->|Hne].
      * assert (Ez : z = z0) by (rewrite Ev0 in Ek; injection Ek as Ek; apply eq_IZR; congruence). subst z.
        destruct (F4 (fst e) (z0 + y)%Z) as (z' & G1 & G2 & G3 & G4).
        { unfold sv1. apply uset_lookup_same; exact ND. }
        exists z'. split; [exact G1|]. rewrite (G4 Hni) in *. split; [lia|]. split.
        -- intros _. rewrite plus_IZR. lra.
        -- intros Hn. exfalso. apply Hn. simpl; auto.
      * destruct (F4 k z) as (z' & G1 & G2 & G3 & G4).
        { unfold sv1. rewrite uset_lookup_other; auto. }
        exists z'. split; [exact G1|]. split; [exact G2|]. cbn [map In]. split.
        -- intros [E|Hin]; [congruence|auto].
        -- intros Hn. apply G4. tauto.
Qed.

(** ** The visit counts of a cluster can be read *)
Definition fits (M : R) (T : Z) : Prop := 0 <= M /\ (0 <= T)%Z /\ IZR T * (M + 1) <= IZR 2147483647.

Record ready (M : R) (T : Z) c : Prop := {
  rd_nd : NoDup (ukeys (c_svisits c));
  rd_prev : (c_prev c <= c_visits c)%Z;
  rd_val : forall k v, ulookup k (c_svisits c) = Some v -> exists z, v = Fin (IZR z) /\ (0 <= z)%Z /\
     IZR z + IZR (c_visits c - c_prev c) * (M + 1) <= IZR T * (M + 1);
  rd_gain : c_visits c = c_prev c \/ forall k, In k (ukeys (c_svisits c)) -> exists x, gains c k x /\ 0 <= x <= M;
  rd_tau : c_svisits c = [] \/ @neqb XR (c_tau c) unassigned_value = false }.

Lemma whole_range (M : R) T z : fits M T -> (0 <= z)%Z -> IZR z <= IZR T * (M + 1) -> in_int z = true.
Proof.
  intros (HM & _ & HT) H0 H1. apply in_int_iff. assert (IZR z <= IZR 2147483647) as H2 by lra. apply le_IZR in H2.
  unfold INT_MIN, INT_MAX. lia.
Qed.

Lemma counts_run M T c k : fits M T -> ready M T c -> In k (ukeys (c_svisits c)) ->
  exists z sv, c_getVisits k c = Ret z (c_with_prev (c_visits c) (c_with_svisits sv c)) /\
    (0 <= z)%Z /\ IZR z <= IZR T * (M + 1) /\ ulookup k sv = Some (Fin (IZR z) : xn) /\
    (forall j, In j (ukeys sv) <-> In j (ukeys (c_svisits c))) /\
    ready M T (c_with_prev (c_visits c) (c_with_svisits sv c)).
Proof.
  intros HF [ND Hp Hv Hg Ht] Hk. pose proof HF as (HM & HT0 & HT).
  assert (Htau : @neqb XR (c_tau c) unassigned_value = false).
  { destruct Ht as [E|E]; [|exact E]. rewrite E in Hk. destruct Hk. }
  assert (Hm : umem k (c_svisits c) = true) by (apply umem_In; exact Hk).
  assert (S : exists sv, (c_visits c = c_prev c /\ sv = c_svisits c \/ c_visits c <> c_prev c /\
      spread_visits c (nofZ (c_visits c - c_prev c)) (c_svisits c) (c_svisits c) = Ok sv) /\
      NoDup (ukeys sv) /\ (forall j, In j (ukeys sv) <-> In j (ukeys (c_svisits c))) /\
      (forall j v, ulookup j sv = Some v -> exists z, v = Fin (IZR z) /\ (0 <= z)%Z /\ IZR z <= IZR T * (M + 1))).
  { destruct (Z.eq_dec (c_visits c) (c_prev c)) as [E|E].
    - exists (c_svisits c). split; [left; auto|]. split; [exact ND|]. split; [tauto|].
      intros j v Ej. destruct (Hv j v Ej) as (z & -> & Z0 & Z1). exists z. split; [reflexivity|]. split; [exact Z0|].
      rewrite E, Z.sub_diag in Z1. rewrite Rmult_0_l in Z1. lra.
    - destruct Hg as [Hg|Hg]; [contradiction|].
      assert (W : forall j v, ulookup j (c_svisits c) = Some v -> whole v).
      { intros j v Ej. destruct (Hv j v Ej) as (z & -> & Z0 & _). exists z. auto. }
      destruct (spread_live c M (c_visits c - c_prev c) (c_svisits c) HM) with (sv := c_svisits c) as (sv & F1 & F2 & F3 & F4).
      { lia. }
      { intros e He. apply Hg. apply in_map. exact He. }
      { exact ND. } { exact ND. } { intros e He. apply in_map. exact He. } { exact W. }
      exists sv. split; [right; split; [exact E | exact F1]|]. split; [exact F2|]. split; [exact F3|].
      intros j v Ej. assert (Hj : In j (ukeys (c_svisits c))) by (apply F3; eapply ulookup_In_key; exact Ej).
      apply ukeys_In in Hj. destruct Hj as [v0 Ev0]. destruct (Hv j v0 Ev0) as (z & -> & Z0 & Z1).
      destruct (F4 j z Ev0) as (z' & G1 & G2 & G3 & _). exists z'. split; [congruence|]. split; [lia|].
      assert (In j (map fst (c_svisits c))) as Hj' by (apply F3; eapply ulookup_In_key; exact Ej).
      specialize (G3 Hj'). assert (1 <= IZR (c_visits c - c_prev c)) by (apply IZR_le; lia). lra. }
  destruct S as (sv & Sc & NDs & Ks & Vs).
  assert (Hk' : In k (ukeys sv)) by (apply Ks; exact Hk). apply ukeys_In in Hk'. destruct Hk' as [v Ev].
  destruct (Vs k v Ev) as (z & -> & Z0 & Z1).
  exists z, sv. split; [|split; [exact Z0|split; [exact Z1|split; [exact Ev|split; [exact Ks|]]]]].
  - unfold c_getVisits, bind, gets. unfold cassert. rewrite Hm, Htau. cbn [negb]. unfold ret at 1 2.
    destruct Sc as [[E ->]|[E F]].
    + rewrite E, Z.eqb_refl. unfold ret at 1. unfold uget. rewrite Ev, (trunc_round z (whole_range M T z HF Z0 Z1)).
      unfold ret. f_equal. rewrite <- E. destruct c. cbn in E |- *. rewrite E. reflexivity.
    + apply Z.eqb_neq in E. rewrite E. unfold lift. rewrite F. rewrite modify_eq. cbn [c_svisits c_with_prev c_with_svisits].
      unfold uget. rewrite Ev, (trunc_round z (whole_range M T z HF Z0 Z1)). reflexivity.
  - constructor; cbn [c_svisits c_with_prev c_with_svisits c_prev c_visits c_tau].
    + exact NDs.
    + lia.
    + intros j v Ej. destruct (Vs j v Ej) as (z' & -> & W0 & W1). exists z'. rewrite Z.sub_diag, Rmult_0_l. split; [reflexivity|].
      split; [exact W0|]. lra.
    + auto.
    + auto.
Qed.

(** all of them *)
Lemma list_run M T c l : fits M T -> ready M T c -> (forall k, In k l -> In k (ukeys (c_svisits c))) ->
  exists saved c', c_visitList l c = Ret saved c' /\ map fst saved = l /\
    (forall k z, In (k, z) saved -> (0 <= z)%Z /\ IZR z <= IZR T * (M + 1)) /\
    (l = [] /\ c' = c \/ exists sv, c' = c_with_prev (c_visits c) (c_with_svisits sv c) /\ ready M T c' /\
       (forall j, In j (ukeys sv) <-> In j (ukeys (c_svisits c)))).
Proof.
  intros HF R Hl. destruct (visitList_ok l c) as (saved & c' & E1 & E2 & E3 & E4 & E5).
  { intros k Hk. destruct (counts_run M T c k HF R (Hl k Hk)) as (z & sv & E & _). eauto. }
  exists saved, c'. split; [exact E1|]. split; [exact E2|]. split.
  - intros k z Hin. destruct (E3 k z Hin) as [c2 F].
    assert (Hk : In k l) by (rewrite <- E2; apply (in_map fst) in Hin; exact Hin).
    destruct (counts_run M T c k HF R (Hl k Hk)) as (z' & sv & E & Z0 & Z1 & _). rewrite E in F. injection F as <- _. auto.
  - destruct l as [|k l]; [left; auto|right].
    destruct (counts_run M T c k HF R (Hl k (or_introl eq_refl))) as (z & sv & E & _ & _ & _ & Ks & R').
    exists sv. rewrite (E5 k z _ (or_introl eq_refl) E). auto.
Qed.

(** ** Bounded rates *)
Definition paced (h : @heap XR) (lo hi : R) (s : @site XR G) : Prop :=
  (forall na, In na (s_neigh s) -> lo <= realv (h (snd na))) /\ total_rate h (s_neigh s) <= hi.

Section Bounds.
Variables (h : @heap XR) (lo hi : R) (sites : umap (@site XR G)) (P : Z -> R).
Hypothesis Hlo : 0 < lo.
Hypothesis Hm : members_ok h sites.
Hypothesis Hpc : forall k s, In (k, s) sites -> paced h lo hi s.
Hypothesis HD : dist (ukeys sites) P.

Lemma part_lo s (b : Z -> bool) : site_ok h s -> paced h lo hi s ->
  let r := Rsum (fun na => if b (fst na) then realv (h (snd na)) else 0) (s_neigh s) in 0 < r -> lo <= r.
Proof.
  intros Hs [Hp _] r Hr. destruct (existsb (fun na => b (fst na)) (s_neigh s)) eqn:E.
  - apply existsb_exists in E. destruct E as (na & Hin & Hb).
    eapply Rle_trans; [apply (Hp na Hin)|].
    pose proof (Rsum_ge_elem (fun na => if b (fst na) then realv (h (snd na)) else 0) (s_neigh s) na) as X.
    cbn beta in X. rewrite Hb in X. apply X; [|exact Hin]. intros e He. destruct (b (fst e)); [|lra]. left. apply (good_nonneg h s e Hs He).
  - exfalso. assert (r = 0); [|lra]. unfold r. transitivity (Rsum (fun _ => 0) (s_neigh s)); [|apply Rsum_zero].
    apply Rsum_ext. intros na Hin. destruct (b (fst na)) eqn:Eb; [|reflexivity].
    assert (existsb (fun na => b (fst na)) (s_neigh s) = true) by (apply existsb_exists; eauto). congruence.
Qed.
Lemma moff_lo k : 0 < moff h sites k -> lo <= moff h sites k.
Proof.
  unfold moff. destruct (ulookup k sites) as [s|] eqn:E; [|lra]. apply ulookup_In in E.
  pose proof (part_lo s (fun k => negb (umem k sites)) (proj2 Hm k s E) (Hpc k s E)) as X. cbv zeta in X.
  unfold off_rate. replace (Rsum (fun na => if umem (fst na) sites then 0 else realv (h (snd na))) (s_neigh s))
    with (Rsum (fun na => if negb (umem (fst na) sites) then realv (h (snd na)) else 0) (s_neigh s)); [exact X|].
  apply Rsum_ext. intros na _. destruct (umem _ _); reflexivity.
Qed.
Lemma minner_lo k : 0 < minner h sites k -> lo <= minner h sites k.
Proof.
  unfold minner. destruct (ulookup k sites) as [s|] eqn:E; [|lra]. apply ulookup_In in E.
  exact (part_lo s (fun k => umem k sites) (proj2 Hm k s E) (Hpc k s E)).
Qed.
Lemma mtau_hi k : In k (ukeys sites) -> / hi <= mtau h sites k.
Proof.
  intros Hk. destruct (keys_In sites k Hk) as [s Hin]. rewrite (mtau_in h sites Hm k s Hin).
  apply Rinv_le_contravar; [apply total_pos; exact (proj2 Hm k s Hin) | apply (Hpc k s Hin)].
Qed.
Lemma moff_hi k : In k (ukeys sites) -> moff h sites k <= hi.
Proof.
  intros Hk. destruct (keys_In sites k Hk) as [s Hin]. rewrite (moff_in h sites Hm k s Hin).
  pose proof (off_inner h sites s). pose proof (inner_nonneg h sites s (proj2 Hm k s Hin)).
  pose proof (proj2 (Hpc k s Hin)). lra.
Qed.
Lemma inner_share k : In k (ukeys sites) -> 0 <= minner h sites k * mtau h sites k <= 1.
Proof.
  intros Hk. split; [apply Rmult_le_pos; [apply minner_nonneg; exact Hm | left; apply mtau_pos; auto]|].
  rewrite <- (stay_minner h sites Hm k Hk). apply stay_le1; auto.
Qed.
Lemma hi_pos k : In k (ukeys sites) -> 0 < hi.
Proof.
  intros Hk. destruct (keys_In sites k Hk) as [s Hin]. pose proof (total_pos h s (proj2 Hm k s Hin)).
  pose proof (proj2 (Hpc k s Hin)). lra.
Qed.

Hypothesis Hlk : linked sites.
Hypothesis Hex : has_exit sites.

Lemma TAUS_TAU : TAUS h sites P = TAU h sites P.
Proof.
  unfold TAUS, TAU. apply Rsum_ext. intros k Hk. destruct (Rltb _ _); [|reflexivity]. unfold wsome.
  destruct (int_keys h sites Hm) as (_ & _ & C & _). destruct (in_dec _ _ _) as [|n]; [reflexivity|]. destruct n. apply C; auto.
Qed.
Lemma TAUS_hi : TAUS h sites P <= hi / (lo * lo).
Proof.
  rewrite TAUS_TAU. destruct (int_keys h sites Hm) as (_ & _ & C & D & _).
  assert (Kne : exists k, In k (ukeys sites)).
  { destruct Hex as (k & s & n & Hin & _). exists k. apply (in_map fst) in Hin. exact Hin. }
  destruct Kne as [k0 Hk0]. pose proof (hi_pos k0 Hk0) as Hhi.
  destruct (TAU_mean h sites P Hm HD Hlk Hex) as (_ & _ & _ & [S0 S1] & _).
  assert (U : TAU h sites P * SI h sites P <= / lo).
  { apply TAU_upper; auto. intros k Hk Ho. apply Rinv_le_contravar; [exact Hlo | apply moff_lo; exact Ho]. }
  assert (S2 : lo / hi <= SI h sites P).
  { rewrite <- (Rmult_1_r (lo / hi)), <- (proj2 HD), <- Rsum_scal. apply Rsum_le. intros k Hk.
    rewrite (Rmult_comm (lo / hi)). apply Rmult_le_compat_l; [left; apply HD; exact Hk|]. unfold Rdiv.
    apply Rmult_le_compat; [lra | left; apply Rinv_0_lt_compat; exact Hhi | apply minner_lo, D, C; auto | apply mtau_hi; exact Hk]. }
  apply Rmult_le_reg_r with (SI h sites P); [exact S0|]. eapply Rle_trans; [exact U|].
  apply Rle_trans with (hi / (lo * lo) * (lo / hi)).
  - right. field. lra.
  - apply Rmult_le_compat_l; [|exact S2]. unfold Rdiv. apply Rmult_le_pos; [lra|]. left. apply Rinv_0_lt_compat.
    apply Rmult_lt_0_compat; exact Hlo.
Qed.
Lemma gain_hi k : In k (ukeys sites) ->
  0 <= TAUS h sites P * (P k * mtau h sites k / / minner h sites k) <= hi / (lo * lo).
Proof.
  intros Hk. pose proof (hi_pos k Hk) as Hhi. destruct (int_keys h sites Hm) as (_ & _ & C & D & _).
  pose proof (D k (C Hlk k Hk)) as Hi. pose proof (inner_share k Hk) as [A0 A1].
  assert (T0 : 0 <= TAUS h sites P) by (left; apply (TAUS_pos h sites P Hm HD (linked_has sites ltac:(destruct sites; [destruct Hk|discriminate]) Hlk) Hex)).
  pose proof TAUS_hi as T1.
  assert (P0 : 0 <= P k) by (left; apply HD; exact Hk).
  assert (P1 : P k <= 1) by (rewrite <- (proj2 HD); apply Rsum_ge_elem; [intros; left; apply HD; assumption | exact Hk]).
  set (y := P k * (minner h sites k * mtau h sites k)).
  assert (Y0 : 0 <= y) by (apply Rmult_le_pos; assumption).
  assert (Y1 : y <= 1) by (unfold y; rewrite <- (Rmult_1_r 1); apply Rmult_le_compat; assumption).
  replace (TAUS h sites P * (P k * mtau h sites k / / minner h sites k)) with (TAUS h sites P * y) by (unfold y; field; lra).
  split; [apply Rmult_le_pos; assumption|].
  rewrite <- (Rmult_1_r (hi / (lo * lo))). apply Rmult_le_compat; assumption.
Qed.
End Bounds.

(** ** A working cluster *)
Section Keep.
Variables (h : @heap XR) (lo hi : R) (known : Z -> Prop).
Hypothesis Hlo : 0 < lo.
Hypothesis Hhi : hi < / dbl_min.
(** the largest number of visits of a member that one visit of a cluster stands for *)
Definition most_gain : R := hi / (2 * (lo * lo)).

(** its members *)
Record homely c : Prop := {
  hm_mem : members_ok h (c_sites c);
  hm_in : forall k s, In (k, s) (c_sites c) -> paced h lo hi s /\ known k /\ forall n, In n (s_neighIds s) -> known n }.

Record lively (T : Z) c : Prop := {
  lv_tidy : tidy c;
  lv_cint : covers known (c_cint c);
  lv_cnbr : covers known (c_cnbr c);
  lv_tau : exists t, c_tau c = Fin t /\ dbl_min < t;
  lv_res : exists r, c_res c = Fin r /\ 2 <= r;
  lv_inc : exists t r, c_tau c = Fin t /\ c_res c = Fin r /\ c_inc c = Fin (t / r);
  lv_tol : c_method c = ByTolerance /\ exists tol, c_tol c = Fin tol /\ 0 < tol;
  lv_keys : forall k, In k (ukeys (c_svisits c)) <-> In k (c_siteIds c);
  lv_ready : ready most_gain T c;
  lv_gain : linked (c_sites c) -> forall k, In k (c_siteIds c) ->
     exists x r, gains c k x /\ c_res c = Fin r /\ 0 <= x * r <= hi / (lo * lo);
  lv_rem : NoDup (ukeys (c_remaining c));
  lv_pace : exists t, c_tau c = Fin t /\ / hi <= t /\ (linked (c_sites c) -> t <= hi / (lo * lo)) }.

Lemma gain_small x r : 2 <= r -> 0 <= x * r <= hi / (lo * lo) -> 0 <= x <= most_gain.
Proof.
  intros Hr [A B]. assert (X0 : 0 <= x).
  { destruct (Rle_lt_dec 0 x) as [|Hx]; [assumption|]. assert (0 < (- x) * r) by (apply Rmult_lt_0_compat; lra). lra. }
  split; [exact X0|]. unfold most_gain. replace (hi / (2 * (lo * lo))) with (hi / (lo * lo) / 2) by (field; lra).
  assert (x * 2 <= x * r) by (apply Rmult_le_compat_l; lra). lra.
Qed.
Lemma homely_moderate c : homely c -> rates_moderate h c.
Proof.
  intros [Hm Hin] k Hk. eapply Rle_lt_trans; [|exact Hhi]. apply (moff_hi h lo hi (c_sites c) Hm); [|exact Hk].
  intros j s Hj. apply (Hin j s Hj).
Qed.
Lemma tau_assigned t : dbl_min < t -> @neqb XR (Fin t) unassigned_value = false.
Proof.
  intros Ht. cbn [neqb XR xeqb unassigned_value ndblmin]. unfold Reqb. destruct (Req_EM_T _ _) as [X|]; [lra | reflexivity].
Qed.

Lemma update_live T c : fits most_gain T -> tidy c -> firm h c -> homely c -> ready most_gain T c ->
  (c_svisits c = [] -> c_visits c = c_prev c) ->
  (c_cint c = [] \/ covers known (c_cint c)) -> (c_cnbr c = [] \/ covers known (c_cnbr c)) ->
  (exists r, c_res c = Fin r /\ 2 <= r) ->
  (c_method c = ByTolerance /\ exists tol, c_tol c = Fin tol /\ 0 < tol) ->
  NoDup (ukeys (c_remaining c)) ->
  ends (fun f => c_update f h) c (fun _ c' => same_core c c' /\ lively T c' /\ c_prev c' = c_visits c').
Proof.
  intros HF Ti Fi Ho Rd Hz Hci Hcn (r & Er & Hr) (Em & tol & Etol & Htol) NR. pose proof HF as (HM & HT0 & HT).
  destruct (list_run most_gain T c (ukeys (c_svisits c)) HF Rd (fun k Hk => Hk)) as (saved & c1 & Ev & Ek & Hs & Hc1).
  destruct (update_ends h c saved c1 Ti Fi (homely_moderate c Ho) Ev) as [n Hn].
  { intros _. exists tol. auto. }
  destruct (Hn (S n) (Nat.lt_succ_diag_r n)) as (P & c' & E & Rn & NS & KS & VS & Epv).
  destruct Fi as [Hm Hmut Hlk Hex H2].
  assert (Hpc : forall k s, In (k, s) (c_sites c) -> paced h lo hi s) by (intros k s Hin; apply (hm_in c Ho k s Hin)).
  destruct Rn as [Sc Sd (Kp & PKp & Ep) (K1 & P1 & E1) Eci (K2 & N2 & O2 & E2) Ecn Et Ei (Nw & Vw)].
  assert (Es : c_sites c' = c_sites c) by (destruct Sc; assumption).
  assert (Evis : c_visits c' = c_visits c) by (destruct Sc; assumption).
  assert (Eres : c_res c' = Fin r) by (destruct Sc; congruence).
  assert (Hne : ukeys (c_sites c) <> []) by (destruct (c_sites c); [simpl in H2; lia | discriminate]).
  pose proof (moderate_above h c P (Build_firm h c Hm Hmut Hlk Hex H2) Sd (homely_moderate c Ho)) as Hmin.
  pose proof dbl_min_pos as Hdm.
  assert (Hpv : c_prev c' = c_visits c').
  { rewrite Epv, Evis. destruct Hc1 as [(Hnil & ->)|(sv & -> & _)].
    - symmetry. apply Hz. destruct (c_svisits c); [reflexivity | discriminate].
    - reflexivity. }
  exists (S n), tt, c'. split; [exact E|]. split; [exact Sc|]. split; [|exact Hpv].
  assert (Tt : neqb (c_tau c') unassigned_value = false) by (rewrite Et; apply tau_assigned; exact Hmin).
  constructor.
  - exact (kt_update (S n) h c tt c' E Ti).
  - rewrite Eci, E1.
    assert (C : covers known (cumulate n0 (tab (wint h (c_sites c) P) K1))).
    { apply covers_table.
      - intros k Hk. left. apply (wint_pos h (c_sites c) P Hm Sd). eapply Permutation_in; [exact P1 | exact Hk].
      - rewrite (Rsum_perm _ _ _ P1). apply (wint_sum h (c_sites c) P Hm Sd Hne).
      - intros k Hk. assert (Hk' : In k (ukeys (c_sites c))) by (eapply Permutation_in; [exact P1 | exact Hk]).
        destruct (keys_In _ _ Hk') as [s Hin]. exact (proj1 (proj2 (hm_in c Ho k s Hin))). }
    destruct Hci as [->|Hci]; [exact C | apply covers_app; exact Hci].
  - rewrite Ecn, E2.
    assert (W : 0 < Rsum (wexit h (c_sites c) P) K2).
    { destruct Hex as (k & s & m & Hin & Hn1 & Hn2). assert (Ho2 : outside (c_sites c) m) by (split; [exact Hn2 | exists k, s; auto]).
      apply Rsum_pos_ex with (x := m); [|apply O2; exact Ho2 | apply (wexit_pos h (c_sites c) P Hm Sd m Ho2)].
      intros j Hj. left. apply (wexit_pos h (c_sites c) P Hm Sd). apply O2. exact Hj. }
    assert (C : covers known (cumulate n0 (tab (fun n => wexit h (c_sites c) P n / Rsum (wexit h (c_sites c) P) K2) K2))).
    { apply covers_table.
      - intros k Hk. left. apply Rdiv_lt_0_compat; [|exact W]. apply (wexit_pos h (c_sites c) P Hm Sd). apply O2. exact Hk.
      - unfold Rdiv. rewrite Rsum_scal_r. apply Rinv_r. lra.
      - intros k Hk. apply O2 in Hk. destruct Hk as (_ & j & s & Hin & Hn1). exact (proj2 (proj2 (hm_in c Ho j s Hin)) k Hn1). }
    destruct Hcn as [->|Hcn]; [exact C | apply covers_app; exact Hcn].
  - exists (TAUS h (c_sites c) P). split; [exact Et | exact Hmin].
  - exists r. auto.
  - exists (TAUS h (c_sites c) P), r. split; [exact Et|]. split; [exact Eres|]. rewrite Ei, Er; apply xdiv_Fin; lra.
  - destruct Sc. split; [congruence|]. exists tol. split; [congruence | exact Htol].
  - intros k. rewrite KS. unfold c_siteIds. rewrite Es. tauto.
  - constructor.
    + exact NS.
    + rewrite Hpv. lia.
    + intros k v Ekv. assert (Hk : In k (c_siteIds c)) by (apply KS; eapply ulookup_In_key; exact Ekv).
      rewrite (VS k Hk) in Ekv. injection Ekv as <-. exists (uget 0%Z k saved). split; [reflexivity|].
      rewrite Hpv, Z.sub_diag, Rmult_0_l, Rplus_0_r. unfold uget. destruct (ulookup k saved) as [z|] eqn:Ez.
      * apply ulookup_In in Ez. apply (Hs k z Ez).
      * split; [lia|]. apply Rmult_le_pos; [apply (IZR_le 0 T); exact HT0 | lra].
    + left. symmetry. exact Hpv.
    + right. exact Tt.
  - intros Hlkd k Hk. rewrite Es in Hlkd. unfold c_siteIds in Hk. rewrite Es in Hk.
    destruct (int_keys h (c_sites c) Hm) as (_ & _ & C & D & _). pose proof (C Hlkd k Hk) as Hki.
    destruct (keys_In _ _ Hk) as [s Hin].
    exists (TAUS h (c_sites c) P * (P k * mtau h (c_sites c) k / / minner h (c_sites c) k) / r), r. split; [|split; [exact Eres|]].
    + exists s, (/ minner h (c_sites c) k), (P k), (mtau h (c_sites c) k), (TAUS h (c_sites c) P), r.
      rewrite Es. split; [apply In_ulookup; [apply Hm | exact Hin]|]. split; [apply Vw; exact Hki|].
      split; [rewrite Ep; apply tab_get; eapply Permutation_in; [apply Permutation_sym; exact PKp | exact Hk]|].
      split; [rewrite (mtau_in h (c_sites c) Hm k s Hin); apply tau_val; exact (proj2 Hm k s Hin)|].
      split; [exact Et|]. split; [exact Eres|]. split; [apply Rinv_neq_0_compat, Rgt_not_eq, D; exact Hki|]. split; [lra | reflexivity].
    + replace (TAUS h (c_sites c) P * (P k * mtau h (c_sites c) k / / minner h (c_sites c) k) / r * r)
        with (TAUS h (c_sites c) P * (P k * mtau h (c_sites c) k / / minner h (c_sites c) k)) by (field; split; [apply Rgt_not_eq, D; exact Hki | lra]).
      apply (gain_hi h lo hi (c_sites c) P Hlo Hm Hpc Sd Hlkd Hex k Hk).
  - destruct Sc. congruence.
  - exists (TAUS h (c_sites c) P). split; [exact Et|]. split.
    + apply (TAUS_lower h (c_sites c) P Hm Sd Hlk Hex). intros k Hk Hof. apply Rinv_le_contravar; [exact Hof|].
      apply (moff_hi h lo hi (c_sites c) Hm Hpc k Hk).
    + rewrite Es. intros Hlkd. apply (TAUS_hi h lo hi (c_sites c) P Hlo Hm Hpc Sd Hlkd Hex).
Qed.

(** ** Sites and clusters that differ only in counters and labels *)
Definition alike (s s' : @site XR G) : Prop := s_tau s' = s_tau s /\ s_neigh s' = s_neigh s /\ s_prob s' = s_prob s.
Lemma alike_refl s : alike s s.
Proof. unfold alike; auto. Qed.
Lemma alike_ok s s' : alike s s' -> site_ok h s -> site_ok h s'.
Proof.
  intros (A & B & C) Hs. destruct s as [i cl oc vi ta ne pr rn], s' as [i' cl' oc' vi' ta' ne' pr' rn']. cbn in A, B, C. subst. exact Hs.
Qed.
Lemma alike_paced s s' : alike s s' -> paced h lo hi s -> paced h lo hi s'.
Proof. intros (_ & B & _). unfold paced. rewrite B. auto. Qed.
Lemma alike_ids s s' : alike s s' -> s_neighIds s' = s_neighIds s.
Proof. intros (_ & B & _). unfold s_neighIds. rewrite B. reflexivity. Qed.
Lemma frz_alike s s' : frz_s s' = frz_s s -> alike s s'.
Proof. intros E. destruct (frz_s_eq _ _ E) as (_ & _ & A & B & C). split; auto. Qed.

Definition alikes (m m' : umap (@site XR G)) : Prop :=
  ukeys m' = ukeys m /\ forall k s, ulookup k m = Some s -> exists s', ulookup k m' = Some s' /\ alike s s'.
Lemma alikes_sym m m' : alikes m m' -> alikes m' m.
Proof.
  intros [A B]. split; [auto|]. intros k s E. assert (Hk : In k (ukeys m)) by (rewrite <- A; eapply ulookup_In_key; exact E).
  apply ukeys_In in Hk. destruct Hk as [s0 E0]. destruct (B k s0 E0) as (s' & E1 & (X & Y & W)). exists s0. split; [exact E0|].
  rewrite E in E1. injection E1 as <-. unfold alike. auto.
Qed.
Lemma frz_alikes m m' : map (on_snd frz_s) m' = map (on_snd frz_s) m -> alikes m m'.
Proof.
  intros E. split; [apply (same_keys frz_s); exact E|]. intros k s Es.
  destruct (same_some frz_s m m' k s E Es) as (s' & E' & F). exists s'. split; [exact E' | apply frz_alike; exact F].
Qed.
Lemma alikes_members m m' : alikes m m' -> members_ok h m -> members_ok h m'.
Proof.
  intros A [ND Ho]. pose proof (alikes_sym _ _ A) as [_ A']. split; [rewrite (proj1 A); exact ND|].
  intros k s Hin. assert (E : ulookup k m' = Some s) by (apply In_ulookup; [rewrite (proj1 A); exact ND | exact Hin]).
  destruct (A' k s E) as (s0 & E0 & L). apply (alike_ok s0); [|eapply Ho; apply ulookup_In; exact E0].
  destruct L as (X & Y & W). unfold alike; auto.
Qed.
Lemma alikes_edge m m' i k : NoDup (ukeys m) -> alikes m m' -> internal_edge m i k -> internal_edge m' i k.
Proof.
  intros ND [A B] (s & Hin & Hn & Hk). destruct (B i s (In_ulookup i s m ND Hin)) as (s' & E & L).
  exists s'. split; [apply ulookup_In; exact E|]. rewrite (alike_ids _ _ L), A. auto.
Qed.
Lemma alikes_linked m m' : NoDup (ukeys m) -> alikes m m' -> linked m -> linked m'.
Proof.
  intros ND A Hl k Hk. rewrite (proj1 A) in Hk. destruct (Hl k Hk) as [n Hn]. exists n. eapply alikes_edge; eauto.
Qed.
Lemma alikes_mutual m m' : NoDup (ukeys m) -> alikes m m' -> mutual m -> mutual m'.
Proof.
  intros ND A Hl i k E. assert (ND' : NoDup (ukeys m')) by (rewrite (proj1 A); exact ND).
  apply (alikes_edge m m'); auto. apply Hl. apply (alikes_edge m' m); auto. apply alikes_sym; exact A.
Qed.
Lemma alikes_link m m' : NoDup (ukeys m) -> alikes m m' -> has_link m -> has_link m'.
Proof. intros ND A (i & k & E). exists i, k. eapply alikes_edge; eauto. Qed.
Lemma alikes_exit m m' : NoDup (ukeys m) -> alikes m m' -> has_exit m -> has_exit m'.
Proof.
  intros ND [A B] (k & s & n & Hin & Hn & Ho). destruct (B k s (In_ulookup k s m ND Hin)) as (s' & E & L).
  exists k, s', n. rewrite A, (alike_ids _ _ L). split; [apply ulookup_In; exact E | auto].
Qed.
Lemma alikes_length m m' : alikes m m' -> length m' = length m.
Proof. intros [A _]. unfold ukeys in A. rewrite <- (map_length fst m'), A, map_length. reflexivity. Qed.
Lemma alikes_firm c c' : alikes (c_sites c) (c_sites c') -> firm h c -> firm h c'.
Proof.
  intros A [X1 X2 X3 X4 X5]. pose proof (proj1 X1) as ND. constructor.
  - eapply alikes_members; eauto.
  - eapply alikes_mutual; eauto.
  - eapply alikes_link; eauto.
  - eapply alikes_exit; eauto.
  - rewrite (alikes_length _ _ A). exact X5.
Qed.
Lemma alikes_homely c c' : alikes (c_sites c) (c_sites c') -> homely c -> homely c'.
Proof.
  intros A [X1 X2]. constructor; [eapply alikes_members; eauto|]. intros k s Hin.
  pose proof (alikes_sym _ _ A) as [_ A'].
  assert (E : ulookup k (c_sites c') = Some s) by (apply In_ulookup; [rewrite (proj1 A); apply X1 | exact Hin]).
  destruct (A' k s E) as (s0 & E0 & L). destruct (X2 k s0 (ulookup_In k s0 _ E0)) as (Y1 & Y2 & Y3).
  rewrite (alike_ids _ _ L) in Y3. split; [|auto]. apply (alike_paced s0); [|exact Y1]. destruct L as (L1 & L2 & L3). unfold alike; auto.
Qed.

(** what the frozen part of a cluster tells *)
Lemma frz_fields c c' : frz_c c' = frz_c c ->
  c_prev c' = c_prev c /\ c_tau c' = c_tau c /\ c_res c' = c_res c /\ c_tol c' = c_tol c /\ c_method c' = c_method c /\
  c_inc c' = c_inc c /\ c_cnbr c' = c_cnbr c /\ c_idwell c' = c_idwell c /\ c_svisits c' = c_svisits c /\
  c_pon c' = c_pon c /\ c_cint c' = c_cint c /\ alikes (c_sites c) (c_sites c').
Proof.
  intros E. pose proof (frz_alikes _ _ (frz_c_sites _ _ E)) as A. unfold frz_c in E. inversion E. repeat (split; [first [assumption | reflexivity]|]). exact A.
Qed.
Lemma gains_frz c c' k x : alikes (c_sites c) (c_sites c') -> c_idwell c' = c_idwell c -> c_pon c' = c_pon c -> c_tau c' = c_tau c ->
  c_res c' = c_res c -> gains c k x -> gains c' k x.
Proof.
  intros [_ A] Ed Ep Et Er (s & d & p & ts & t & r & E1 & E2 & E3 & E4 & E5 & E6 & Hd & Hr & Ex).
  destruct (A k s E1) as (s' & E1' & (L & _)).
  exists s', d, p, ts, t, r. rewrite Ed, Ep, Et, Er, L. repeat (split; [assumption|]). exact Ex.
Qed.

Lemma lively_frz T T' c c' : 0 <= most_gain -> frz_c c' = frz_c c ->
  (c_visits c <= c_visits c' <= c_visits c + (T' - T))%Z -> NoDup (ukeys (c_remaining c')) ->
  NoDup (c_siteIds c) -> linked (c_sites c) -> lively T c -> lively T' c'.
Proof.
  intros HM E Hv NR NS Hlk [L1 L2 L3 L4 L5 L6 L7 L8 L9 L10 L11 L12].
  destruct (frz_fields _ _ E) as (Fp & Ft & Fr & Fl & Fm & Fi & Fn & Fd & Fs & Fo & Fc & FA).
  assert (GG : forall k, In k (c_siteIds c) -> exists x r, gains c' k x /\ c_res c' = Fin r /\ 0 <= x * r <= hi / (lo * lo)).
  { intros k Hk. destruct (L10 Hlk k Hk) as (x & r & Hx & Er & Hb). exists x, r. split; [eapply gains_frz; eauto|]. split; [congruence | exact Hb]. }
  constructor.
  - apply (tidy_core c); auto. unfold c_siteIds. intros k. rewrite (proj1 FA). auto.
  - rewrite Fc; exact L2.
  - rewrite Fn; exact L3.
  - rewrite Ft; exact L4.
  - rewrite Fr; exact L5.
  - rewrite Fi, Ft, Fr; exact L6.
  - rewrite Fm, Fl; exact L7.
  - intros k. rewrite Fs. unfold c_siteIds. rewrite (proj1 FA). apply L8.
  - destruct L9 as [D1 D2 D3 D4 D5]. constructor.
    + rewrite Fs; exact D1.
    + rewrite Fp; lia.
    + rewrite Fs, Fp. intros k v Ek. destruct (D3 k v Ek) as (z & -> & Z0 & Z1). exists z. split; [reflexivity|]. split; [exact Z0|].
      assert (X : IZR (c_visits c' - c_prev c) <= IZR (c_visits c - c_prev c) + IZR (T' - T)) by (rewrite <- plus_IZR; apply IZR_le; lia).
      rewrite minus_IZR in X. rewrite minus_IZR in Z1. rewrite minus_IZR in X. rewrite minus_IZR. rewrite minus_IZR in X.
      assert (Y : IZR (c_visits c') - IZR (c_visits c) <= IZR T' - IZR T) by lra.
      assert (W : (IZR (c_visits c') - IZR (c_visits c)) * (most_gain + 1) <= (IZR T' - IZR T) * (most_gain + 1)) by (apply Rmult_le_compat_r; lra).
      lra.
    + right. intros k Hk. rewrite Fs in Hk. apply L8 in Hk. destruct (GG k Hk) as (x & r & Hx & Er & Hb).
      exists x. split; [exact Hx|]. destruct L5 as (r' & Er' & Hr'). apply (gain_small x r); [|exact Hb].
      assert (r = r') by congruence. subst. exact Hr'.
    + rewrite Fs, Ft. exact D5.
  - intros _ k Hk. apply GG. unfold c_siteIds in *. rewrite (proj1 FA) in Hk. exact Hk.
  - exact NR.
  - destruct L12 as (t & Et & Ht & Hu). exists t. rewrite Ft. auto.
Qed.

(** ** Dwell times and picks *)
Definition fair : Prop := forall e : @eng XR G, exists u e', edraw e = (Fin u, e') /\ 0 < u < 1.
Definition rested c : Prop := forall w v, ulookup w (c_remaining c) = Some v -> exists x, v = Fin x /\ 0 < x.

Lemma dwell_pos u t : 0 < u < 1 -> 0 < t -> exists x, @dwell_of XR (Fin u) (Fin t) = Fin x /\ 0 < x.
Proof.
  intros [U0 U1] Ht. exists (-1 * ln u * t). split.
  - unfold dwell_of. cbn [nmul XR nlog nofZ xlog]. destruct (Rltb u 0) eqn:E; [apply Rltb_true in E; lra|].
    unfold Reqb. destruct (Req_EM_T u 0); [lra|]. reflexivity.
  - assert (ln u < 0) by (rewrite <- ln_1; apply ln_increasing; lra).
    replace (-1 * ln u * t) with ((- ln u) * t) by ring. apply Rmult_lt_0_compat; lra.
Qed.


Lemma dwell_run T c w : fair -> lively T c -> rested c ->
  exists t c', c_getDwellTime w c = Ret t c' /\ rr c c' /\ NoDup (ukeys (c_remaining c')) /\ c_visits c' = c_visits c /\
    (exists x, ulookup w (c_remaining c') = Some (Fin x : xn)) /\
    (forall w' v, w' <> w -> ulookup w' (c_remaining c') = Some v -> exists x, v = Fin x /\ 0 < x) /\
    exists x, t = Fin x /\ 0 < x.
Proof.
  intros HU [L1 L2 L3 (t & Et & Ht) L5 L6 L7 L8 L9 L10 L11] Hr. pose proof dbl_min_pos as Hdm.
  assert (Ld : exists d, c_inc c = Fin d /\ 0 < d).
  { destruct L5 as (r & Er & Hr2), L6 as (t' & r' & Et' & Er' & Ei). assert (t' = t) by congruence. assert (r' = r) by congruence. subst.
    exists (t / r). split; [exact Ei|]. apply Rdiv_lt_0_compat; lra. }
  destruct Ld as (d & Ed & Hd).
  assert (X : exists c1 x, (if umem w (c_remaining c) then ret tt
     else u <- c_draw ;; modify (fun c => c_with_remaining (uset (c_remaining c) w (dwell_of u (c_tau c))) c)) c = Ret tt c1 /\
     rr c c1 /\ NoDup (ukeys (c_remaining c1)) /\ c_visits c1 = c_visits c /\ c_inc c1 = c_inc c /\
     ulookup w (c_remaining c1) = Some (Fin x : xn) /\ 0 < x /\
     (forall w' v, w' <> w -> ulookup w' (c_remaining c1) = Some v -> exists x, v = Fin x /\ 0 < x)).
  { destruct (umem w (c_remaining c)) eqn:Em.
    - apply umem_In, ukeys_In in Em. destruct Em as [v Ev]. destruct (Hr w v Ev) as (x & -> & Hx).
      exists c, x. split; [reflexivity|]. split; [apply rr_refl|]. repeat (split; [auto|]). intros w' v _ E. eapply Hr; exact E.
    - destruct (HU (c_rng c)) as (u & e' & Eu & Hu). destruct (dwell_pos u t Hu ltac:(lra)) as (x & Ex & Hx).
      unfold c_draw, bind. rewrite Eu, modify_eq. eexists _, x. split; [reflexivity|].
      cbn [c_remaining c_with_remaining c_with_rng c_tau c_visits c_inc]. rewrite Et, Ex.
      split; [reflexivity|]. split; [apply uset_NoDup; exact L11|]. split; [reflexivity|]. split; [reflexivity|].
      split; [apply uset_lookup_same; exact L11|]. split; [exact Hx|]. intros w' v Hne E.
      rewrite uset_lookup_other in E by auto. eapply Hr; exact E. }
  destruct X as (c1 & x & E1 & R1 & N1 & V1 & I1 & W1 & Hx & O1).
  unfold c_getDwellTime, bind, gets, cassert. rewrite Et, (tau_assigned t Ht). cbn [negb]. unfold ret at 1.
  unfold bind in E1. rewrite E1. rewrite modify_eq. unfold uget. rewrite W1, I1, Ed.
  change (@nsub XR (Fin x) (Fin d)) with (Fin (x + - d) : xn).
  set (c2 := c_with_remaining (uset (c_remaining c1) w (Fin (x + - d) : xn)) c1).
  assert (Q : rr c c2 /\ NoDup (ukeys (c_remaining c2)) /\ c_visits c2 = c_visits c /\
    (exists x, ulookup w (c_remaining c2) = Some (Fin x : xn)) /\
    (forall w' v, w' <> w -> ulookup w' (c_remaining c2) = Some v -> exists x, v = Fin x /\ 0 < x)).
  { split; [eapply rr_trans; [exact R1 | reflexivity]|]. unfold c2. cbn [c_remaining c_with_remaining c_visits].
    split; [apply uset_NoDup; exact N1|]. split; [exact V1|]. split; [eexists; apply uset_lookup_same; exact N1|].
    intros w' v Hne E. rewrite uset_lookup_other in E by auto. eapply O1; eauto. }
  cbn [nltb XR xltb]. destruct (Rltb d x) eqn:Edx.
  - eexists _, c2. split; [reflexivity|]. destruct Q as (Q1 & Q2 & Q3 & Q4 & Q5). repeat (split; [assumption|]). eauto.
  - assert (E0 : @nltb XR n0 (Fin x) = true) by (rewrite n0_XR; cbn [nltb XR xltb]; apply Rltb_true; exact Hx).
    cbn [nltb XR xltb] in E0. rewrite E0. eexists _, c2. split; [reflexivity|].
    destruct Q as (Q1 & Q2 & Q3 & Q4 & Q5). repeat (split; [assumption|]). eauto.
Qed.

Lemma pick_run c w x : fair -> covers known (c_cint c) -> covers known (c_cnbr c) -> NoDup (ukeys (c_remaining c)) ->
  ulookup w (c_remaining c) = Some (Fin x : xn) ->
  (forall w' v, w' <> w -> ulookup w' (c_remaining c) = Some v -> exists x, v = Fin x /\ 0 < x) ->
  exists n c', c_pick w c = Ret n c' /\ known n /\ rr c c' /\ NoDup (ukeys (c_remaining c')) /\ c_visits c' = c_visits c /\ rested c'.
Proof.
  intros HU Ci Cn ND Ew Ho. destruct (HU (c_rng c)) as (u & e' & Eu & Hu).
  unfold c_pick, bind, gets. unfold lift, c_hopWithin. rewrite Ew, n0_XR. cbn [nltb XR xltb]. destruct (Rltb 0 x) eqn:Ex.
  - unfold c_pickInternal, bind, c_draw, gets, ret. rewrite Eu. eexists _, _. split; [reflexivity|].
    cbn [c_cint c_with_rng c_remaining c_visits].
    split; [pose proof (Ci u [] Hu) as K; rewrite app_nil_r in K; exact K|]. split; [reflexivity|]. split; [exact ND|].
    split; [reflexivity|]. intros w' v E. cbn [c_remaining c_with_rng] in E. destruct (Z.eq_dec w' w) as [->|Hne].
    + rewrite Ew in E. injection E as <-. exists x. split; [reflexivity | apply Rltb_true; exact Ex].
    + eapply Ho; eauto.
  - unfold c_pickNeighbor, bind, c_draw, gets, ret. rewrite modify_eq. cbn [c_rng c_with_remaining]. rewrite Eu. eexists _, _. split; [reflexivity|].
    cbn [c_cnbr c_with_rng c_with_remaining c_remaining c_visits].
    split; [pose proof (Cn u [] Hu) as K; rewrite app_nil_r in K; exact K|]. split; [reflexivity|].
    split; [apply uremove_NoDup; exact ND|].
    split; [reflexivity|]. intros w' v E. cbn [c_remaining c_with_rng c_with_remaining] in E. rewrite uremove_lookup in E by exact ND.
    destruct (Z.eqb_spec w' w) as [->|Hne]; [discriminate|]. eapply Ho; eauto.
Qed.

(** ** Occupying and leaving *)
Lemma sites_replace_frz c m : map (on_snd frz_s) m = map (on_snd frz_s) (c_sites c) -> frz_c (c_with_sites m c) = frz_c c.
Proof. intros E. unfold frz_c. cbn [c_sites c_with_sites c_with_rng c_with_remaining c_with_occ c_with_visits]. rewrite E. reflexivity. Qed.
Lemma occupy_run T c k : lively T c -> In k (c_siteIds c) ->
  exists c', c_occupy k c = Ret tt c' /\ frz_c c' = frz_c c /\ c_visits c' = (c_visits c + 1)%Z /\ c_remaining c' = c_remaining c.
Proof.
  intros L Hk. apply (lv_keys T c L) in Hk as Hk'. apply ukeys_In in Hk. destruct Hk as [s Es].
  unfold c_occupy, bind, gets, cassert. apply umem_In in Hk'. rewrite Hk'. unfold ret. rewrite Es, modify_eq.
  eexists. split; [reflexivity|]. split; [|split; reflexivity].
  unfold frz_c. cbn [c_sites c_with_sites c_with_rng c_with_remaining c_with_occ c_with_visits]. unfold frz_c.
  rewrite (uset_old _ _ _ s Es), (map_replace frz_s _ _ s _ Es) by reflexivity. reflexivity.
Qed.
Lemma vacate_run c t k : In k (c_siteIds c) ->
  exists c', c_vacate t k c = Ret tt c' /\ frz_c c' = frz_c c /\ c_visits c' = c_visits c /\ c_remaining c' = c_remaining c.
Proof.
  intros Hk. apply ukeys_In in Hk. destruct Hk as [s Es]. unfold c_vacate, c_vacate0, bind. rewrite !modify_eq, Es.
  eexists. split; [reflexivity|]. split; [|split; reflexivity].
  unfold frz_c. cbn [c_sites c_with_sites c_with_rng c_with_remaining c_with_occ c_with_visits].
  rewrite (uset_old _ _ _ s Es), (map_replace frz_s _ _ s _ Es) by reflexivity. reflexivity.
Qed.

(** ** Reading the counts *)
Lemma visits_live T c k : fits most_gain T -> lively T c -> In k (c_siteIds c) ->
  exists z c', c_getVisits k c = Ret z c' /\ lively T c' /\ c_sites c' = c_sites c /\ c_remaining c' = c_remaining c /\ same_core c c'.
Proof.
  intros HF [L1 L2 L3 L4 L5 L6 L7 L8 L9 L10 L11] Hk.
  destruct (counts_run most_gain T c k HF L9 (proj2 (L8 k) Hk)) as (z & sv & E & Z0 & Z1 & Ek & Ks & R').
  eexists z, _. split; [exact E|]. split; [|split; [reflexivity|split; [reflexivity | constructor; reflexivity]]]. constructor; try assumption.
  - apply (tidy_core c); auto.
  - intros j. cbn [c_svisits c_with_prev c_with_svisits]. rewrite Ks. apply L8.
Qed.

(** ** The time resolution *)
Lemma resolution_live T c r : lively T c -> 2 <= r -> c_prev c = c_visits c ->
  exists c', c_setResolution (Fin r) c = Ret tt c' /\ lively T c' /\ c_prev c' = c_visits c' /\ c_sites c' = c_sites c /\
    c_remaining c' = c_remaining c /\ c_id c' = c_id c /\ c_visits c' = c_visits c.
Proof.
  intros [L1 L2 L3 L4 L5 L6 L7 L8 L9 L10 L11] Hr Hp. unfold c_setResolution, bind, cassert.
  assert (E : @nleb XR (nofZ 2) (Fin r) = true).
  { change (Rltb 2 r || Reqb 2 r = true). destruct (Rltb 2 r) eqn:X; [reflexivity|]. apply Rltb_false in X.
    unfold Reqb. destruct (Req_EM_T 2 r); [reflexivity | exfalso; lra]. }
  rewrite E. unfold ret. rewrite modify_eq. eexists. split; [reflexivity|].
  split; [|repeat (split; [first [exact Hp | reflexivity]|]); reflexivity].
  pose proof dbl_min_pos as Hdm. destruct L4 as (t & Et & Ht).
  constructor; cbn [c_cint c_cnbr c_tau c_res c_inc c_method c_tol c_svisits c_with_inc c_with_res c_remaining c_sites]; try assumption.
  - apply (tidy_core c); auto.
  - exists t; auto.
  - exists r; auto.
  - exists t, r. split; [exact Et|]. split; [reflexivity|]. rewrite Et; apply xdiv_Fin; lra.
  - destruct L9 as [D1 D2 D3 D4 D5]. constructor; try assumption. left. symmetry. exact Hp.
  - intros Hl k Hk. destruct (L10 Hl k Hk) as (x & r0 & Hg & Er & Hb). exists (x * r0 / r), r. split; [|split; [reflexivity|]].
    + destruct Hg as (s & d & p & ts & t0 & r1 & E1 & E2 & E3 & E4 & E5 & E6 & Hd & Hr1 & Ex).
      exists s, d, p, ts, t0, r. cbn [c_sites c_idwell c_pon c_tau c_res c_with_inc c_with_res].
      repeat (split; [first [assumption | reflexivity | lra]|]). assert (r1 = r0) by congruence. subst. field. repeat split; first [assumption | lra].
    + replace (x * r0 / r * r) with (x * r0) by (field; lra). exact Hb.
Qed.

(** ** Taking in another cluster *)
Lemma setVisits_live T c k z : lively T c -> c_prev c = c_visits c -> In k (c_siteIds c) -> (0 <= z)%Z -> IZR z <= IZR T * (most_gain + 1) ->
  exists c', c_setVisits z k c = Ret tt c' /\ lively T c' /\ c_prev c' = c_visits c' /\ same_core c c'.
Proof.
  intros [L1 L2 L3 (t & Et & Ht) L5 L6 L7 L8 L9 L10 L11] Hp Hk Z0 Z1. pose proof (proj2 (L8 k) Hk) as Hk'.
  unfold c_setVisits, bind, gets, cassert. apply umem_In in Hk' as Em. rewrite Em, Et, (tau_assigned t Ht). cbn [negb]. unfold ret.
  rewrite modify_eq. eexists. split; [reflexivity|]. split; [|split; [exact Hp | constructor; reflexivity]].
  destruct L9 as [D1 D2 D3 D4 D5].
  constructor; cbn [c_cint c_cnbr c_tau c_res c_inc c_method c_tol c_svisits c_with_svisits c_remaining c_sites]; try assumption.
  - apply (tidy_core c); auto.
  - exists t; auto.
  - intros j. rewrite uset_keys_In, L8. split; [intros [->|]; auto | auto].
  - constructor; cbn [c_svisits c_prev c_visits c_tau c_with_svisits]; try assumption.
    + apply uset_NoDup; exact D1.
    + intros j v Ej. rewrite uset_lookup in Ej by exact D1. destruct (Z.eqb_spec j k) as [->|]; [|eapply D3; exact Ej].
      injection Ej as <-. exists z. split; [reflexivity|]. split; [exact Z0|]. rewrite Hp, Z.sub_diag, Rmult_0_l. lra.
    + left. symmetry; exact Hp.
    + right. rewrite Et. apply tau_assigned; exact Ht.
Qed.
Lemma setAll_live T b vs : forall c, lively T c -> c_prev c = c_visits c ->
  (forall k z, In (k, z) vs -> In k (c_siteIds c) /\ (0 <= z)%Z /\ IZR z <= IZR T * (most_gain + 1)) ->
  exists c', mfor vs (fun e => onFst (c_setVisits (snd e) (fst e))) (c, b) = Ret tt (c', b) /\
    lively T c' /\ c_prev c' = c_visits c' /\ same_core c c'.
Proof.
  induction vs as [|[k z] vs IH]; intros c L Hp Hv; cbn [mfor].
  - exists c. split; [reflexivity|]. split; [exact L|]. split; [exact Hp | apply same_core_refl].
  - destruct (Hv k z (or_introl eq_refl)) as (Hk & Z0 & Z1).
    destruct (setVisits_live T c k z L Hp Hk Z0 Z1) as (c1 & E1 & L1 & P1 & S1).
    destruct (IH c1 L1 P1) as (c2 & E2 & L2 & P2 & S2).
    { intros j y Hj. destruct (Hv j y (or_intror Hj)) as (A & B). split; [|exact B]. unfold c_siteIds. rewrite (sc_sites _ _ S1). exact A. }
    exists c2. split; [|split; [exact L2|split; [exact P2 | eapply same_core_trans; eauto]]].
    unfold bind, onFst, zoom at 1. cbn [fst snd]. rewrite E1. exact E2.
Qed.

Definition relabelled (i : Z) (m : umap (@site XR G)) : umap (@site XR G) := map (fun e => (fst e, s_with_cluster i (snd e))) m.
Lemma relabelled_alikes i m : alikes m (relabelled i m).
Proof.
  split.
  - unfold ukeys, relabelled. rewrite map_map. reflexivity.
  - intros k s. unfold relabelled. induction m as [|[j x] m IH]; [discriminate|]. cbn [map fst snd ulookup].
    destruct (k =? j)%Z; [|exact IH]. intros E. injection E as <-. exists (s_with_cluster i x). split; [reflexivity|]. unfold alike; auto.
Qed.
Lemma take_in_keys moved : forall sites : umap (@site XR G), forall k, In k (ukeys (take_in moved sites)) <-> In k (ukeys moved) \/ In k (ukeys sites).
Proof.
  unfold take_in. induction moved as [|e l IH]; intros sites k; cbn [fold_left]; [simpl; tauto|].
  rewrite IH. cbn [ukeys map In]. destruct (umem (fst e) sites) eqn:Em.
  - apply umem_In in Em. split; [tauto|]. intros [[<-|]|]; auto.
  - rewrite uset_keys_In. unfold ukeys. intuition.
Qed.

Lemma migrate_live T a b : fits most_gain T -> lively T a -> c_prev a = c_visits a -> lively T b ->
  let a1 := c_with_sites (take_in (relabelled (c_id a) (c_sites b)) (c_sites a)) a in
  firm h a1 -> homely a1 ->
  ends (fun f => c_migrate f h) (a, b) (fun _ p => lively T (fst p) /\ c_prev (fst p) = c_visits (fst p) /\ same_core a1 (fst p)).
Proof.
  intros HF La Hp Lb a1 Fi Ho.
  set (b1 := c_with_sites (relabelled (c_id a) (c_sites b)) b).
  assert (Rb : ready most_gain T b1).
  { destruct Lb as [_ _ _ _ _ _ _ _ [D1 D2 D3 D4 D5] _ _]. constructor; try assumption.
    destruct D4 as [E|D4]; [left; exact E|right]. intros k Hk. destruct (D4 k Hk) as (x & Hx & Hb). exists x. split; [|exact Hb].
    apply (gains_frz b); auto. apply relabelled_alikes. }
  destruct (list_run most_gain T b1 (c_siteIds b1) HF Rb) as (vs & b2 & Ev & Evk & Hvs & Hb2).
  { intros k Hk. apply (lv_keys T b Lb). unfold c_siteIds in Hk. cbn [b1 c_sites c_with_sites] in Hk.
    rewrite (proj1 (relabelled_alikes _ _)) in Hk. exact Hk. }
  assert (Eb2 : c_sites b2 = relabelled (c_id a) (c_sites b)) by (destruct Hb2 as [[_ ->]|(sv & -> & _)]; reflexivity).
  pose proof La as [L1 L2 L3 L4 L5 L6 L7 L8 L9 L10 L11].
  destruct (update_live T a1 HF) as (f & [] & a2 & Eu & Su & Lu & Pu).
  { apply (tidy_core a); auto. intros k Hk. unfold c_siteIds, a1. cbn [c_sites c_with_sites]. rewrite take_in_keys. auto. }
  { exact Fi. } { exact Ho. }
  { destruct L9 as [D1 D2 D3 D4 D5]. constructor; try assumption. left. symmetry; exact Hp. }
  { intros _. symmetry; exact Hp. }
  { right; exact L2. } { right; exact L3. } { exact L5. } { exact L7. } { exact L11. }
  destruct (setAll_live T (c_clearMigrated b2) vs a2 Lu Pu) as (a3 & E3 & L3' & P3 & S3).
  { intros k z Hin. split; [|apply (Hvs k z Hin)]. unfold c_siteIds. rewrite (sc_sites _ _ Su). cbn [a1 c_sites c_with_sites].
    rewrite take_in_keys. left. apply (in_map fst) in Hin. rewrite Evk in Hin. exact Hin. }
  exists f, tt, (a3, c_clearMigrated b2). split; [|split; [exact L3'|split; [exact P3 | eapply same_core_trans; eauto]]].
  unfold c_migrate, bind, gets. cbn [fst snd]. unfold onSnd at 1, zoom. rewrite modify_eq. cbn [fst snd].
  unfold onSnd at 1, zoom. cbn [fst snd]. fold (relabelled (c_id a) (c_sites b)). fold b1. rewrite Ev. cbn [fst snd].
  unfold onFst at 1, zoom. cbn [fst snd]. rewrite modify_eq. cbn [fst snd]. unfold onSnd at 1, zoom. cbn [fst snd]. rewrite modify_eq. cbn [fst snd].
  unfold onFst at 1, zoom. cbn [fst snd]. rewrite Eb2. fold (take_in (relabelled (c_id a) (c_sites b)) (c_sites a)). fold a1. rewrite Eu. cbn [fst snd].
  exact E3.
Qed.
End Keep.
End Live.
