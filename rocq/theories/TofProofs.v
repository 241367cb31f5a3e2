(** * Proofs about the rates of the time of flight example *)
From Coq Require Import ZArith List Bool Lia Reals Lra Permutation.
From Verif Require Import Base BaseProofs Num OrdLaws SiteModel SiteSpec MarcusModel MarcusProofs LatticeModel LatticeSpec LatticeProofs LatticeReal LatticeTable
  ValidSpec KmcSpec TofModel TofSpec.
Import ListNotations.
Open Scope Z_scope.

Section Tab.
Context {I : Impl}.
Variable la : @lattice XR.
Hypothesis B : built la.
Variable sp : R.
Hypothesis Sp : l_spacing la = Fin sp.
Hypothesis Hsp : (0 < sp)%R.
Notation L := (l_len la).
Notation W := (l_wid la).
Notation Ht := (l_hei la).
Notation T := (L * W * Ht).

Lemma wrap_self b v size : 0 < size <= INT_MAX -> 0 <= v < size -> l_wrap b v size = Ok v.
Proof.
  intros Hs Hv. destruct b; [reflexivity|]. simpl. rewrite periodic_ok by (unfold INT_MIN, INT_MAX in *; lia).
  rewrite Z.mod_small by lia. reflexivity.
Qed.
(** whatever the boundaries: pairs one of which lies below the other are present
    if they are within the cutoff inside the box *)
Lemma table_covers c t i j x1 y1 z1 x2 y2 z2 : l_distanceTable la (Fin c) = Ok t ->
  at_pos L W Ht i x1 y1 z1 -> at_pos L W Ht j x2 y2 z2 -> i <> j ->
  x2 <= x1 -> y2 <= y1 -> z2 <= z1 -> (euclid sp x2 y2 z2 x1 y1 z1 <= c)%R -> tab_get t i j <> None /\ tab_get t j i <> None.
Proof.
  intros E P1 P2 Hne Bx By Bz Hle. destruct (sizes la B) as (SL & SW & SH & S1 & S2 & S3 & S4 & S5 & S6).
  rewrite (table_symmetric la _ _ j i E). assert (X : tab_get t i j <> None); [|split; exact X].
  apply (table_inv la) in E; [|assumption..].
  destruct (table_from la _ _ _ _ E tab_wf_nil (fun _ _ => eq_refl)) as (_ & Sy & _ & C & _).
  pose proof (at_pos_range la B _ _ _ _ P1) as Hi.
  destruct (C i) as (vs & Ev & Hc); [apply zrange_In; lia|].
  destruct (visits_inv la B sp Sp Hsp _ _ _ Ev Hi) as (x & y & z & P & _ & _ & _ & Eb).
  destruct (at_pos_unique la _ _ _ _ _ _ _ P P1) as (-> & -> & ->).
  destruct (euclid_coord sp c _ _ _ _ _ _ Hsp Hle) as (C1 & C2 & C3).
  destruct P2 as (Q1 & Q2 & Q3 & Q4).
  assert (VX : x1 - steps sp c <= x2 <= x1) by lia.
  assert (VY : y1 - steps sp c <= y2 <= y1) by lia.
  assert (VZ : z1 - steps sp c <= z2 <= z1) by lia.
  assert (WX : l_wrap (l_xb la) x2 L = Ok x2) by (apply wrap_self; lia).
  assert (WY : l_wrap (l_yb la) y2 W = Ok y2) by (apply wrap_self; lia).
  assert (WZ : l_wrap (l_zb la) z2 Ht = Ok z2) by (apply wrap_self; lia).
  apply (Hc j (Fin (euclid sp x2 y2 z2 x1 y1 z1))).
  apply (box_In la B _ _ _ _ _ _ _ _ _ _ _ _ _ _ Eb).
  exists x2, y2, z2. split; [exact VX|split; [exact VY|split; [exact VZ|]]]. exists x2, y2, z2.
  assert (Ed : l_getDistance_ la x2 y2 z2 x1 y1 z1 = Ok (Fin (euclid sp x2 y2 z2 x1 y1 z1))).
  { unfold l_box in Eb. destruct (rloop_ok _ _ _ _ Eb) as [A1 _]. destruct (A1 x2 VX) as [b1 E1].
    rewrite WX in E1. cbn [rbind] in E1. rewrite (proj2 (in_size_iff x2 L) Q1) in E1.
    destruct (rloop_ok _ _ _ _ E1) as [A2 _]. destruct (A2 y2 VY) as [b2 E2].
    rewrite WY in E2. cbn [rbind] in E2. rewrite (proj2 (in_size_iff y2 W) Q2) in E2.
    destruct (rloop_ok _ _ _ _ E2) as [A3 _]. destruct (A3 z2 VZ) as [b3 E3].
    rewrite WZ in E3. cbn [rbind] in E3. rewrite (proj2 (in_size_iff z2 Ht) Q3) in E3.
    apply rbind_ok_inv in E3. destruct E3 as (d & Ed & _). rewrite Ed. f_equal.
    apply (getDistance_ok la sp Sp); exact Ed. }
  repeat (split; [assumption|]). split; [apply xleb_Fin; exact Hle|]. split; [exact Q4|auto].
Qed.
End Tab.

Section Rates.
Context {I : Impl}.
Variable P : recipe.
Variable la : @lattice XR.
Hypothesis B : built la.
Variable sp : R.
Hypothesis Sp : l_spacing la = Fin sp.
Hypothesis Hsp : (0 < sp)%R.
Variable energies : list R.
Notation L := (l_len la).
Notation W := (l_wid la).
Notation Ht := (l_hei la).
Notation T := (L * W * Ht).
Hypothesis HE : Z.of_nat (length energies) = T.
Notation table := (umap (umap (@num XR))).
Definition x_of (i : Z) : Z := (i mod (L * W)) mod L.
Definition value (i j : Z) (d : R) : R := marcus_rate P (energy_change P sp energies i j (x_of i) (x_of j)) d.

Lemma vec_at_ok i : 0 <= i < T -> vec_at energies i = Ok (energy energies i).
Proof.
  intros Hi. unfold vec_at, energy. destruct (Z.ltb_spec i 0); [lia|].
  destruct (nth_error energies (Z.to_nat i)) eqn:E; [rewrite (nth_error_nth _ _ _ E); reflexivity|].
  apply nth_error_None in E. lia.
Qed.
Lemma x_of_pos i x y z : at_pos L W Ht i x y z -> x_of i = x.
Proof.
  intros (Hx & Hy & Hz & ->). unfold x_of. destruct (sizes la B) as (SL & SW & SH & S1 & _).
  replace (x + L * (y + W * z)) with ((x + L * y) + z * (L * W)) by ring. rewrite Z.mod_add by lia.
  assert (L * y + L <= L * W) by (replace (L * y + L) with (L * (y + 1)) by ring; apply Z.mul_le_mono_nonneg_l; lia). assert (0 <= L * y) by (apply Z.mul_nonneg_nonneg; lia).
  rewrite (Z.mod_small (x + L * y) (L * W)) by lia. replace (x + L * y) with (x + y * L) by ring. rewrite Z.mod_add by lia. apply Z.mod_small. lia.
Qed.
Lemma getX_ok i : 0 <= i < T -> l_getX la i = Ok (x_of i) /\ 0 <= x_of i < L.
Proof.
  intros Hi. destruct (at_pos_exists la B i Hi) as (x & y & z & Pp). rewrite (x_of_pos _ _ _ _ Pp).
  split; [apply (getXYZ_ok la B _ _ _ _ Pp)|apply Pp].
Qed.

Definition nonempty (m : table) : Prop := forall i r, ulookup i m = Some r -> r <> [].
Lemma uset_cons {V} (m : umap V) k v : uset m k v <> [].
Proof.
  intros X. assert (Y : ~ In k (ukeys (uset m k v))) by (rewrite X; intros []). apply Y. apply uset_keys_In. auto.
Qed.
Lemma set_nonempty (m : table) i j d : tab_wf m -> nonempty m -> nonempty (tab_set m i j d).
Proof.
  intros [W1 W2] N i0 r0. unfold tab_set. destruct (ulookup i m) as [r|] eqn:E.
  - rewrite uset_lookup by exact W1. destruct (Z.eqb_spec i0 i); [|apply N]. intros Q; inversion Q; subst. apply uset_cons.
  - rewrite !uset_lookup; [|exact W1|apply uset_NoDup; exact W1]. destruct (Z.eqb_spec i0 i); [|apply N].
    intros Q; inversion Q; subst. apply uset_cons.
Qed.

Variable t : table.
Hypothesis Tsym : forall i j, tab_get t i j = tab_get t j i.
Hypothesis Tin : forall i j v, tab_get t i j = Some v -> 0 <= i < T /\ 0 <= j < T /\ exists d, v = Fin d.

Definition good (m : table) : Prop :=
  tab_wf m /\ nonempty m /\ forall i j v, tab_get m i j = Some v -> exists d, tab_get t i j = Some (Fin d) /\ v = Fin (value i j d).
Lemma pair_ok i j v m : good m -> tab_get t i j = Some v ->
  exists m', tof_pair P la energies i (x_of i) (energy energies i) m (j, v) = Ok m' /\ good m' /\
    tab_get m' i j <> None /\ (forall a b, tab_get m a b <> None -> tab_get m' a b <> None).
Proof.
  intros (Wf & Ne & Go) Ht0. destruct (Tin _ _ _ Ht0) as (Hi & Hj & d & ->). destruct (sizes la B) as (SL & SW & SH & S1 & S2 & S3 & S4 & S5 & S6).
  destruct (getX_ok i Hi) as [_ Xi]. destruct (getX_ok j Hj) as [Gj Xj].
  unfold tof_pair. cbn [fst snd]. rewrite Gj. cbn [rbind]. rewrite chk_ok by (apply in_int_iff; unfold INT_MIN, INT_MAX in *; lia). cbn [rbind].
  rewrite (vec_at_ok j Hj). cbn [rbind]. rewrite Sp. cbn [realv]. change (realv (Fin d)) with d.
  eexists. split; [reflexivity|].
  match goal with |- context [tab_set m i j (Fin ?r)] => assert (V1 : r = value i j d) end.
  { unfold value, marcus_rate, energy_change. replace (- (t_alpha P * d))%R with (-1 * t_alpha P * d)%R by ring.
    rewrite <- (rate_shift _ _ 0 _ _ (energy energies i)). f_equal; ring. }
  match goal with |- context [tab_set _ j i (Fin ?r)] => assert (V2 : r = value j i d) end.
  { unfold value, marcus_rate, energy_change. replace (- (t_alpha P * d))%R with (-1 * t_alpha P * d)%R by ring.
    rewrite <- (rate_shift _ _ 0 _ _ (energy energies j - t_field P * (IZR (x_of j - x_of i) * sp) * t_charge P)). f_equal; [ring|].
    rewrite !minus_IZR. ring. }
  rewrite V1, V2. destruct (tab_set_get m i j (Fin (value i j d) : @num XR) Wf) as [W1 G1].
  destruct (tab_set_get (tab_set m i j (Fin (value i j d) : @num XR)) j i (Fin (value j i d) : @num XR) W1) as [W2 G2].
  split; [split; [exact W2|]; split; [apply set_nonempty; [exact W1|]; apply set_nonempty; assumption|]|split].
  - intros a b v. rewrite G2. destruct (Z.eqb_spec a j), (Z.eqb_spec b i); cbn [andb].
    + intros Q; inversion Q; subst. exists d. rewrite Tsym. auto.
    + rewrite G1. destruct (Z.eqb_spec a i), (Z.eqb_spec b j); cbn [andb]; try apply Go. intros Q; inversion Q; subst. eauto.
    + rewrite G1. destruct (Z.eqb_spec a i), (Z.eqb_spec b j); cbn [andb]; try apply Go. intros Q; inversion Q; subst. eauto.
    + rewrite G1. destruct (Z.eqb_spec a i), (Z.eqb_spec b j); cbn [andb]; try apply Go. intros Q; inversion Q; subst. eauto.
  - rewrite G2, G1, !Z.eqb_refl. destruct (_ && _); discriminate.
  - intros a b Q. rewrite G2, G1. destruct (_ && _); [discriminate|]. destruct (_ && _); [discriminate|exact Q].
Qed.
Lemma row_ok i l : forall m, good m -> (forall j v, In (j, v) l -> tab_get t i j = Some v) ->
  exists m', tof_row P la energies i (x_of i) (energy energies i) m l = Ok m' /\ good m' /\
    (forall j v, In (j, v) l -> tab_get m' i j <> None) /\ (forall a b, tab_get m a b <> None -> tab_get m' a b <> None).
Proof.
  induction l as [|[j v] l IH]; intros m Gm Hl; cbn [tof_row].
  - exists m. split; [reflexivity|]. split; [exact Gm|]. split; [intros ? ? []|auto].
  - destruct (pair_ok i j v m Gm (Hl j v (or_introl eq_refl))) as (m1 & -> & G1 & N1 & M1). cbn [rbind].
    destruct (IH m1 G1) as (m2 & E2 & G2 & N2 & M2); [intros; apply Hl; right; assumption|].
    exists m2. split; [exact E2|]. split; [exact G2|]. split; [|auto].
    intros j' v' [Q|Q]; [inversion Q; subst; auto|eapply N2; eauto].
Qed.
Lemma rows_ok r : forall m, good m -> (forall i l, In (i, l) r -> 0 <= i < T /\ forall j v, In (j, v) l -> tab_get t i j = Some v) ->
  exists m', tof_rows P la energies m r = Ok m' /\ good m' /\
    (forall i l j v, In (i, l) r -> In (j, v) l -> tab_get m' i j <> None) /\ (forall a b, tab_get m a b <> None -> tab_get m' a b <> None).
Proof.
  induction r as [|[i l] r IH]; intros m Gm Hr; cbn [tof_rows].
  - exists m. split; [reflexivity|]. split; [exact Gm|]. split; [intros ? ? ? ? []|auto].
  - destruct (Hr i l (or_introl eq_refl)) as [Hi Hl]. destruct (getX_ok i Hi) as [-> _]. cbn [rbind]. rewrite (vec_at_ok i Hi). cbn [rbind].
    destruct (row_ok i l m Gm Hl) as (m1 & -> & G1 & N1 & M1). cbn [rbind].
    destruct (IH m1 G1) as (m2 & E2 & G2 & N2 & M2); [intros; apply Hr; right; assumption|].
    exists m2. split; [exact E2|]. split; [exact G2|]. split; [|auto].
    intros i' l' j' v' [Q|Q] Hin; [inversion Q; subst; apply M2; eapply N1; eauto|eapply N2; eauto].
Qed.
End Rates.

Section Listing.
Notation table := (umap (umap (@num XR))).
Lemma lists_get (m : table) i j r : tab_wf m -> lists m i j r <-> tab_get m i j = Some (Fin r).
Proof.
  intros [W1 W2]. unfold lists, tab_get. split.
  - intros (row & H1 & H2). apply (In_ulookup _ _ _ W1) in H1. rewrite H1. apply In_ulookup; [eapply W2; eauto|exact H2].
  - destruct (ulookup i m) as [row|] eqn:E; [|discriminate]. intros Q. exists row.
    split; [apply ulookup_In; exact E|apply ulookup_In; exact Q].
Qed.
End Listing.

Section Whole.
Context {I : Impl}.
Variable P : recipe.
Variable la : @lattice XR.
Hypothesis B : built la.
Variable sp : R.
Hypothesis Sp : l_spacing la = Fin sp.
Hypothesis Hsp : (0 < sp)%R.
Variable energies : list R.
Notation L := (l_len la).
Notation W := (l_wid la).
Notation Ht := (l_hei la).
Notation T := (L * W * Ht).
Hypothesis HE : Z.of_nat (length energies) = T.
Hypothesis HC : (0 <= t_cutoff P < 646 * sp)%R.
Hypothesis Fits : L <= INT_MAX - 645 /\ W <= INT_MAX - 645 /\ Ht <= INT_MAX - 645.
Notation table := (umap (umap (@num XR))).
Notation value := (value P la sp energies).

Lemma fold_nonempty index vs : forall m : table, tab_wf m -> nonempty m ->
  tab_wf (fold_left (fun m v => tab_set (tab_set m (fst v) index (snd v)) index (fst v) (snd v)) vs m) /\
  nonempty (fold_left (fun m v => tab_set (tab_set m (fst v) index (snd v)) index (fst v) (snd v)) vs m).
Proof.
  induction vs as [|[n d] vs IH]; intros m Wf Ne; cbn [fold_left fst snd]; [auto|].
  destruct (tab_set_get m n index d Wf) as [W1 _]. destruct (tab_set_get (tab_set m n index d) index n d W1) as [W2 _].
  apply IH; [exact W2|]. apply set_nonempty; [exact W1|]. apply set_nonempty; assumption.
Qed.
Lemma from_nonempty indices c : forall m t, l_table_from la indices c m = Ok t -> tab_wf m -> nonempty m -> nonempty t.
Proof.
  induction indices as [|i r IH]; intros m t E Wf Ne; cbn [l_table_from] in E; [inversion E; subst; exact Ne|].
  destruct (l_visits la i c) as [vs| |]; cbn [rbind] in E; try discriminate.
  destruct (fold_nonempty i vs m Wf Ne) as [W1 N1]. exact (IH _ _ E W1 N1).
Qed.

Lemma rates_ok : exists t m, l_distanceTable la (Fin (t_cutoff P)) = Ok t /\ tof_rates P la energies = Ok m /\
  tab_wf t /\ tab_wf m /\ nonempty m /\
  (forall i j d, tab_get t i j = Some d -> i <> j /\ 0 <= i < T /\ 0 <= j < T /\ exists D, d = Fin D) /\
  (forall i j, tab_get t i j = tab_get t j i) /\
  (forall i j r, tab_get m i j = Some (Fin r) <-> exists d, tab_get t i j = Some (Fin d) /\ r = value i j d) /\
  (forall i j v, tab_get m i j = Some v -> exists r, v = Fin r).
Proof.
  destruct Fits as (F1 & F2 & F3).
  destruct (table_def la B sp Sp Hsp (t_cutoff P)) as [t Et]; try assumption; try apply HC.
  pose proof (fun i j => table_symmetric la _ _ i j Et) as Sy.
  assert (Ti : forall i j d, tab_get t i j = Some d -> i <> j /\ 0 <= i < T /\ 0 <= j < T /\ exists D, d = Fin D).
  { intros i j d Q. destruct (table_sound la B sp Sp Hsp _ _ _ _ _ Et Q) as (N & D & -> & _ & x1 & y1 & z1 & x2 & y2 & z2 & X & Y & Z0 & A1 & A2 & _).
    split; [exact N|]. split; [exact (at_pos_range la B _ _ _ _ A1)|]. split; [exact (at_pos_range la B _ _ _ _ A2)|eauto]. }
  assert (Wt : tab_wf t).
  { pose proof Et as E. apply (table_inv la) in E. apply (table_from la _ _ _ _ E tab_wf_nil (fun _ _ => eq_refl)). }
  assert (Ti' : forall i j v, tab_get t i j = Some v -> 0 <= i < T /\ 0 <= j < T /\ exists d, v = Fin d)
    by (intros i j v Q; destruct (Ti _ _ _ Q) as (_ & Q1 & Q2 & Q3); auto).
  destruct (rows_ok P la B sp Sp energies HE t Sy Ti' t []) as (m & Em & (Wm & Nm & Gm) & Cm & _).
  { split; [apply tab_wf_nil|]. split; [intros ? ? Q; discriminate|intros ? ? ? Q; discriminate]. }
  { intros i l Hin. assert (E : ulookup i t = Some l) by (apply In_ulookup; [apply Wt|exact Hin]).
    assert (Hl : forall j v, In (j, v) l -> tab_get t i j = Some v).
    { intros j v Q. unfold tab_get. rewrite E. apply In_ulookup; [eapply (proj2 Wt); eauto|exact Q]. }
    split; [|exact Hl].
    pose proof Et as E'. apply (table_inv la) in E'.
    assert (Ne : nonempty t) by (eapply from_nonempty; [exact E'|apply tab_wf_nil|intros ? ? Q; discriminate]).
    destruct l as [|[j v] l]; [destruct (Ne i [] E eq_refl)|]. apply (Ti' i j v). apply Hl. left. reflexivity. }
  exists t, m. split; [exact Et|]. split; [unfold tof_rates; rewrite Et; exact Em|].
  split; [exact Wt|]. split; [exact Wm|]. split; [exact Nm|]. split; [exact Ti|]. split; [exact Sy|]. split.
  - intros i j r. split; [intros Q; destruct (Gm _ _ _ Q) as (d & Q1 & Q2); inversion Q2; eauto|].
    intros (d & Q1 & ->). assert (X : tab_get m i j <> None).
    { unfold tab_get in Q1. destruct (ulookup i t) as [l|] eqn:E; [|discriminate].
      apply (Cm i l j (Fin d)); apply ulookup_In; assumption. }
    destruct (tab_get m i j) as [v|] eqn:E; [|congruence]. destruct (Gm _ _ _ E) as (d' & Q1' & ->).
    rewrite Q1 in Q1'. inversion Q1'; subst. reflexivity.
  - intros i j v Q. destruct (Gm _ _ _ Q) as (d & _ & ->). eauto.
Qed.

(** the rates are those of the recipe, for exactly the pairs of the distance table *)
Lemma recipe_followed : exists t m, l_distanceTable la (Fin (t_cutoff P)) = Ok t /\ tof_rates P la energies = Ok m /\
  NoDup (ukeys m) /\ (forall i r, In (i, r) m -> r <> [] /\ NoDup (ukeys r)) /\
  forall i j r, lists m i j r <-> exists d x1 y1 z1 x2 y2 z2, lists t i j d /\
    at_pos L W Ht i x1 y1 z1 /\ at_pos L W Ht j x2 y2 z2 /\ r = marcus_rate P (energy_change P sp energies i j x1 x2) d.
Proof.
  destruct rates_ok as (t & m & Et & Em & Wt & Wm & Nm & Ti & Sy & Va & Fi). exists t, m.
  split; [exact Et|]. split; [exact Em|]. split; [apply Wm|]. split.
  - intros i r Q. apply (In_ulookup _ _ _ (proj1 Wm)) in Q. split; [eapply Nm; eauto|eapply (proj2 Wm); eauto].
  - intros i j r. rewrite (lists_get m i j r Wm), Va. split.
    + intros (d & Q1 & ->). destruct (Ti _ _ _ Q1) as (_ & Hi & Hj & _).
      destruct (at_pos_exists la B i Hi) as (x1 & y1 & z1 & P1). destruct (at_pos_exists la B j Hj) as (x2 & y2 & z2 & P2).
      exists d, x1, y1, z1, x2, y2, z2. split; [apply lists_get; assumption|]. split; [exact P1|]. split; [exact P2|].
      unfold TofProofs.value. rewrite (x_of_pos la B energies _ _ _ _ P1), (x_of_pos la B energies _ _ _ _ P2). reflexivity.
    + intros (d & x1 & y1 & z1 & x2 & y2 & z2 & Q1 & P1 & P2 & ->). exists d. split; [apply (lists_get t i j d Wt); exact Q1|].
      unfold TofProofs.value. rewrite (x_of_pos la B energies _ _ _ _ P1), (x_of_pos la B energies _ _ _ _ P2). reflexivity.
Qed.

Hypothesis HT : (0 < t_temp P)%R.
(** detailed balance with the energies in the field *)
Lemma recipe_balanced m i j r x1 y1 z1 x2 y2 z2 : tof_rates P la energies = Ok m -> (0 < t_lambda P)%R ->
  lists m i j r -> at_pos L W Ht i x1 y1 z1 -> at_pos L W Ht j x2 y2 z2 ->
  exists r', lists m j i r' /\ (r = r' * exp (- energy_change P sp energies i j x1 x2 / (k_B * t_temp P)))%R.
Proof.
  intros Em HL Hr P1 P2. destruct rates_ok as (t & m' & Et & Em' & Wt & Wm & Nm & Ti & Sy & Va & Fi).
  rewrite Em in Em'. inversion Em'; subst m'. apply (lists_get m i j r Wm) in Hr. apply Va in Hr. destruct Hr as (d & Q & ->).
  exists (value j i d). split; [apply lists_get; [exact Wm|]; apply Va; exists d; rewrite Sy; auto|].
  unfold TofProofs.value. rewrite (x_of_pos la B energies _ _ _ _ P1), (x_of_pos la B energies _ _ _ _ P2). unfold marcus_rate.
  set (H := (t_coupling P * exp (- (t_alpha P * d)))%R). set (c := energy_change P sp energies i j x1 x2).
  replace (energy_change P sp energies j i x2 x1) with (0 - c)%R by (unfold c, energy_change; rewrite !minus_IZR; ring).
  rewrite (detailed_balance _ _ 0 c H HL HT). replace (- (c - 0))%R with (- c)%R by ring. f_equal.
  rewrite <- (rate_shift _ _ c 0 H (- c)). f_equal; ring.
Qed.

(** the rates are a valid map for the system *)
Lemma recipe_valid m h addrs : (t_coupling P <> 0)%R -> tof_rates P la energies = Ok m -> stored h addrs m ->
  mutual_map h addrs /\ network h addrs /\ forall i r, In (i, r) addrs -> ~ In i (ukeys r).
Proof.
  intros HA Em St. destruct rates_ok as (t & m' & Et & Em' & Wt & Wm & Nm & Ti & Sy & Va & Fi).
  rewrite Em in Em'. inversion Em'; subst m'.
  assert (Keys : ukeys addrs = ukeys m).
  { rewrite <- St. unfold ukeys. rewrite map_map. reflexivity. }
  assert (Rows : forall i r, In (i, r) addrs -> In (i, map (fun a => (fst a, h (snd a))) r) m).
  { intros i r Q. rewrite <- St. apply in_map_iff. exists (i, r). auto. }
  assert (Back : forall i r, In (i, r) m -> exists r', In (i, r') addrs /\ r = map (fun a => (fst a, h (snd a))) r').
  { intros i r Q. rewrite <- St in Q. apply in_map_iff in Q. destruct Q as ([i' r'] & E & Q). inversion E; subst. exists r'. auto. }
  assert (Rk : forall r : umap Z, ukeys (map (fun a => (fst a, h (snd a))) r) = ukeys r).
  { intros r. unfold ukeys. rewrite map_map. reflexivity. }
  assert (Get : forall i r j a, In (i, r) addrs -> In (j, a) r -> tab_get m i j = Some (h a)).
  { intros i r j a Q1 Q2. unfold tab_get. pose proof (In_ulookup _ _ _ (proj1 Wm) (Rows _ _ Q1)) as E. rewrite E. apply In_ulookup.
    - exact (proj2 Wm _ _ E).
    - apply in_map_iff. exists (j, a). auto. }
  assert (Good : forall i r, In (i, r) addrs -> good_rates h r).
  { intros i r Q. pose proof (In_ulookup _ _ _ (proj1 Wm) (Rows _ _ Q)) as E. split; [|split].
    - intros ->. exact (Nm _ _ E eq_refl).
    - rewrite <- Rk. exact (proj2 Wm _ _ E).
    - intros n a Qa. pose proof (Get _ _ _ _ Q Qa) as G0. destruct (Fi _ _ _ G0) as [v Ev]. rewrite Ev in G0. exists v. split; [exact Ev|].
      apply Va in G0. destruct G0 as (d & _ & ->). unfold TofProofs.value, marcus_rate. apply rate_positive; [exact HT|].
      apply Rmult_integral_contrapositive_currified; [exact HA|]. pose proof (exp_pos (- (t_alpha P * d))). lra. }
  assert (Mut : forall i r j, In (i, r) addrs -> In j (ukeys r) -> exists r', In (j, r') addrs /\ In i (ukeys r')).
  { intros i r j Q1 Q2. unfold ukeys in Q2. apply in_map_iff in Q2. destruct Q2 as ([j' a] & <- & Qa). cbn [fst].
    pose proof (Get _ _ _ _ Q1 Qa) as G0. destruct (Fi _ _ _ G0) as [v Ev]. rewrite Ev in G0. apply Va in G0. destruct G0 as (d & Qt & _).
    assert (G1 : tab_get m j' i = Some (Fin (value j' i d))) by (apply Va; exists d; rewrite Sy; auto).
    apply (lists_get m j' i _ Wm) in G1. destruct G1 as (row & R1 & R2). destruct (Back _ _ R1) as (r' & R3 & ->).
    exists r'. split; [exact R3|]. rewrite <- Rk. apply (in_map fst) in R2. exact R2. }
  assert (Self : forall i r, In (i, r) addrs -> 0 <= i < T /\ ~ In i (ukeys r)).
  { intros i r Q. split.
    - destruct (Good _ _ Q) as (Ne & _). destruct r as [|[j a] r]; [congruence|].
      pose proof (Get _ _ j a Q (or_introl eq_refl)) as G0. destruct (Fi _ _ _ G0) as [v Ev]. rewrite Ev in G0. apply Va in G0.
      destruct G0 as (d & Qt & _). apply (Ti _ _ _ Qt).
    - intros Q2. unfold ukeys in Q2. apply in_map_iff in Q2. destruct Q2 as ([j' a] & <- & Qa). cbn [fst] in *.
      pose proof (Get _ _ _ _ Q Qa) as G0. destruct (Fi _ _ _ G0) as [v Ev]. rewrite Ev in G0. apply Va in G0.
      destruct G0 as (d & Qt & _). destruct (Ti _ _ _ Qt) as [X _]. apply X. reflexivity. }
  split; [|split; [split; [|split]|]].
  - intros i r Q. split; [eapply Good; eauto|]. intros j Qj. eapply Mut; eauto.
  - rewrite Keys. apply Wm.
  - intros Q. unfold ukeys in Q. apply in_map_iff in Q. destruct Q as ([i r] & E & Q). cbn [fst] in E. subst i.
    destruct (Self _ _ Q) as [X _]. revert X. unfold unassignedId, INT_MIN. lia.
  - intros k r Q. split; [eapply Good; eauto|]. intros n Qn. destruct (Mut _ _ _ Q Qn) as (r' & Q' & _). apply (in_map fst) in Q'. exact Q'.
  - intros i r Q. apply (Self _ _ Q).
Qed.

(** every site of the lattice has a rate if the nearest neighbours are within reach *)
Lemma recipe_covers m i : tof_rates P la energies = Ok m -> (sp <= t_cutoff P)%R -> 2 <= T -> 0 <= i < T -> exists j r, lists m i j r.
Proof.
  intros Em Hc H2 Hi. destruct rates_ok as (t & m' & Et & Em' & Wt & Wm & Nm & Ti & Sy & Va & Fi).
  rewrite Em in Em'. inversion Em'; subst m'. destruct (sizes la B) as (SL & SW & SH & S1 & S2 & S3 & S4 & S5 & S6).
  destruct (at_pos_exists la B i Hi) as (x & y & z & Pi). pose proof Pi as (Rx & Ry & Rz & _).
  assert (X : exists j, tab_get t i j <> None).
  { assert (E1 : forall x1 y1 z1 x2 y2 z2, sq_dist x1 y1 z1 x2 y2 z2 = 1 -> (euclid sp x1 y1 z1 x2 y2 z2 <= t_cutoff P)%R).
    { intros. unfold euclid. rewrite H. rewrite sqrt_1. lra. }
    assert (Cov : forall x1 y1 z1 x2 y2 z2 a b, at_pos L W Ht a x1 y1 z1 -> at_pos L W Ht b x2 y2 z2 -> x2 <= x1 -> y2 <= y1 -> z2 <= z1 ->
       sq_dist x2 y2 z2 x1 y1 z1 = 1 -> tab_get t a b <> None /\ tab_get t b a <> None).
    { intros x1 y1 z1 x2 y2 z2 a b Pa Pb ? ? ? D. refine (table_covers la B sp Sp Hsp _ _ _ _ _ _ _ _ _ _ Et Pa Pb _ _ _ _ (E1 _ _ _ _ _ _ D)); try assumption.
      intros ->. destruct (at_pos_unique la _ _ _ _ _ _ _ Pa Pb) as (-> & -> & ->). revert D. unfold sq_dist. lia. }
    destruct (Z_le_gt_dec 2 L); [|destruct (Z_le_gt_dec 2 W); [|destruct (Z_le_gt_dec 2 Ht)]].
    - destruct (Z_le_gt_dec 1 x).
      + exists ((x - 1) + L * (y + W * z)). refine (proj1 (Cov x y z (x - 1) y z _ _ Pi _ _ _ _ _)); try lia; [repeat split; lia|unfold sq_dist; lia].
      + exists ((x + 1) + L * (y + W * z)). refine (proj2 (Cov (x + 1) y z x y z _ _ _ Pi _ _ _ _)); try lia; [repeat split; lia|unfold sq_dist; lia].
    - destruct (Z_le_gt_dec 1 y).
      + exists (x + L * ((y - 1) + W * z)). refine (proj1 (Cov x y z x (y - 1) z _ _ Pi _ _ _ _ _)); try lia; [repeat split; lia|unfold sq_dist; lia].
      + exists (x + L * ((y + 1) + W * z)). refine (proj2 (Cov x (y + 1) z x y z _ _ _ Pi _ _ _ _)); try lia; [repeat split; lia|unfold sq_dist; lia].
    - destruct (Z_le_gt_dec 1 z).
      + exists (x + L * (y + W * (z - 1))). refine (proj1 (Cov x y z x y (z - 1) _ _ Pi _ _ _ _ _)); try lia; [repeat split; lia|unfold sq_dist; lia].
      + exists (x + L * (y + W * (z + 1))). refine (proj2 (Cov x y (z + 1) x y z _ _ _ Pi _ _ _ _)); try lia; [repeat split; lia|unfold sq_dist; lia].
    - assert (L = 1) by lia. assert (W = 1) by lia. assert (Ht = 1) by lia. nia. }
  destruct X as [j Hj]. destruct (tab_get t i j) as [v|] eqn:E; [|congruence]. destruct (Ti _ _ _ E) as (_ & _ & _ & d & ->).
  exists j, (value i j d). apply lists_get; [exact Wm|]. apply Va. eauto.
Qed.
End Whole.

(** every map can be stored *)
Lemma row_stored (row : umap (@num XR)) : forall (h : Z -> @num XR) n, exists h' addrs n', n <= n' /\ (forall a, a < n -> h' a = h a) /\
  (forall j a, In (j, a) addrs -> a < n') /\ map (fun a => (fst a, h' (snd a))) addrs = row.
Proof.
  induction row as [|[j v] row IH]; intros h n.
  - exists h, [], n. split; [lia|]. split; [auto|]. split; [intros ? ? []|reflexivity].
  - destruct (IH (fun a => if a =? n then v else h a) (n + 1)) as (h' & ad & n' & Le & Ag & Lt & E).
    exists h', ((j, n) :: ad), n'. split; [lia|]. split.
    + intros a Ha. rewrite Ag by lia. destruct (Z.eqb_spec a n); [lia|reflexivity].
    + split; [intros k a [Q|Q]; [inversion Q; subst; lia|eapply Lt; eauto]|].
      cbn [map fst snd]. rewrite (Ag n), Z.eqb_refl, E by lia. reflexivity.
Qed.
Lemma rows_stored (m : umap (umap (@num XR))) : forall (h : Z -> @num XR) n, exists h' addrs, (forall a, a < n -> h' a = h a) /\
  stored h' addrs m.
Proof.
  induction m as [|[i row] m IH]; intros h n.
  - exists h, []. split; [auto|reflexivity].
  - destruct (row_stored row h n) as (h1 & ad & n1 & Le & Ag & Lt & E).
    destruct (IH h1 n1) as (h2 & ads & Ag2 & E2). exists h2, ((i, ad) :: ads). split.
    + intros a Ha. rewrite Ag2 by lia. apply Ag. exact Ha.
    + unfold stored in *. cbn [map fst snd]. rewrite E2. f_equal. f_equal. rewrite <- E. apply map_ext_in.
      intros [j a] Q. cbn [fst snd]. rewrite Ag2; [reflexivity|]. eapply Lt; eauto.
Qed.
