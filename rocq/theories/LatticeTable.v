(** * Proofs about the whole-lattice distance table and about random sites *)
From Coq Require Import ZArith List Bool Lia Reals Lra Permutation.
From Verif Require Import Base BaseProofs Num OrdLaws LatticeModel LatticeSpec LatticeProofs LatticeReal.
Import ListNotations.
Open Scope Z_scope.

(** ** Tables *)
Section Tab.
Context {I : Impl} {N : Num}.

(** what [table.at(i).at(j)] finds *)
Definition tab_get (m : umap (umap num)) (i j : Z) : option num :=
  match ulookup i m with Some r => ulookup j r | None => None end.
Definition tab_wf (m : umap (umap num)) : Prop :=
  NoDup (ukeys m) /\ forall i r, ulookup i m = Some r -> NoDup (ukeys r).

Lemma tab_wf_nil : tab_wf [].
Proof. split; [constructor|]. intros i r E; discriminate. Qed.

Lemma tab_set_get m i j d : tab_wf m ->
  tab_wf (tab_set m i j d) /\
  forall i' j', tab_get (tab_set m i j d) i' j' =
    if (i' =? i) && (j' =? j) then Some d else tab_get m i' j'.
Proof.
  intros [W1 W2]. unfold tab_set. destruct (ulookup i m) as [r|] eqn:E.
  - assert (NR := W2 _ _ E). split.
    + split; [apply uset_NoDup; exact W1|]. intros i0 r0. rewrite uset_lookup by exact W1.
      destruct (Z.eqb_spec i0 i); [|apply W2]. intros Q; inversion Q; subst. apply uset_NoDup; exact NR.
    + intros i' j'. unfold tab_get. rewrite uset_lookup by exact W1.
      destruct (Z.eqb_spec i' i); simpl; [|reflexivity]. subst. rewrite E. apply uset_lookup; exact NR.
  - assert (W1' : NoDup (ukeys (uset m i ([] : umap num)))) by (apply uset_NoDup; exact W1). split.
    + split; [apply uset_NoDup; exact W1'|]. intros i0 r0. rewrite !uset_lookup by assumption.
      destruct (Z.eqb_spec i0 i); [|apply W2]. intros Q; inversion Q; subst.
      apply uset_NoDup; constructor.
    + intros i' j'. unfold tab_get. rewrite !uset_lookup by assumption.
      destruct (Z.eqb_spec i' i); simpl; [|reflexivity]. subst. rewrite E.
      rewrite uset_lookup by constructor. simpl. reflexivity.
Qed.

Definition tab_put index (m : umap (umap num)) (v : Z * num) :=
  tab_set (tab_set m (fst v) index (snd v)) index (fst v) (snd v).

Lemma tab_put_get index m n d : tab_wf m ->
  tab_wf (tab_put index m (n, d)) /\
  forall i j, tab_get (tab_put index m (n, d)) i j =
    if ((i =? index) && (j =? n)) || ((i =? n) && (j =? index)) then Some d else tab_get m i j.
Proof.
  intros Wf. unfold tab_put; simpl. destruct (tab_set_get m n index d Wf) as [W1 G1].
  destruct (tab_set_get _ index n d W1) as [W2 G2]. split; [exact W2|]. intros i j. rewrite G2, G1.
  destruct ((i =? index) && (j =? n)); simpl; reflexivity.
Qed.

Lemma tab_put_fold index vs : forall m, tab_wf m ->
  (forall i j, tab_get m i j = tab_get m j i) ->
  let m' := fold_left (tab_put index) vs m in
  tab_wf m' /\
  (forall i j, tab_get m' i j = tab_get m' j i) /\
  (forall i j, tab_get m i j <> None -> tab_get m' i j <> None) /\
  (forall n d, In (n, d) vs -> tab_get m' index n <> None) /\
  (forall i j d, tab_get m' i j = Some d ->
     tab_get m i j = Some d \/ (i = index /\ In (j, d) vs) \/ (j = index /\ In (i, d) vs)).
Proof.
  induction vs as [|[n d] vs IH]; intros m Wf Sy; simpl.
  - split; [exact Wf|split; [exact Sy|split; [auto|split; [intros n d []|auto]]]].
  - destruct (tab_put_get index m n d Wf) as [W1 G1].
    destruct (IH (tab_put index m (n, d)) W1) as (W2 & S2 & M2 & C2 & O2).
    { intros i j. rewrite !G1, Sy.
      destruct (i =? index), (j =? n), (i =? n), (j =? index); reflexivity. }
    split; [exact W2|split; [exact S2|split; [|split]]].
    + intros i j Hn. apply M2. rewrite G1. destruct (_ || _); [discriminate|exact Hn].
    + intros n' d' [Q|Q]; [|apply (C2 n' d' Q)]. inversion Q; subst. apply M2. rewrite G1, !Z.eqb_refl. discriminate.
    + intros i j d' Hg. destruct (O2 _ _ _ Hg) as [Q|[[-> Q]|[-> Q]]]; auto.
      rewrite G1 in Q. destruct (Z.eqb_spec i index), (Z.eqb_spec j n); simpl in Q; subst; auto.
      * inversion Q; subst. auto.
      * destruct (Z.eqb_spec index n), (Z.eqb_spec j index); simpl in Q; subst; auto; inversion Q; subst; auto.
      * destruct (Z.eqb_spec i n), (Z.eqb_spec n index); simpl in Q; subst; auto; inversion Q; subst; auto.
      * destruct (Z.eqb_spec i n), (Z.eqb_spec j index); simpl in Q; subst; auto; inversion Q; subst; auto.
Qed.

Variable la : @lattice N.

Lemma table_from indices c : forall m t, l_table_from la indices c m = Ok t -> tab_wf m ->
  (forall i j, tab_get m i j = tab_get m j i) ->
  tab_wf t /\
  (forall i j, tab_get t i j = tab_get t j i) /\
  (forall i j, tab_get m i j <> None -> tab_get t i j <> None) /\
  (forall index, In index indices -> exists vs, l_visits la index c = Ok vs /\
     forall n d, In (n, d) vs -> tab_get t index n <> None) /\
  (forall i j d, tab_get t i j = Some d -> tab_get m i j = Some d \/
     exists index vs, In index indices /\ l_visits la index c = Ok vs /\
       ((i = index /\ In (j, d) vs) \/ (j = index /\ In (i, d) vs))).
Proof.
  induction indices as [|index r IH]; intros m t E Wf Sy; simpl in E.
  - inversion E; subst. split; [exact Wf|split; [exact Sy|split; [auto|split; [intros i []|auto]]]].
  - destruct (l_visits la index c) as [vs| |] eqn:Ev; simpl in E; try discriminate.
    destruct (tab_put_fold index vs m Wf Sy) as (W1 & S1 & M1 & C1 & O1).
    destruct (IH _ _ E W1 S1) as (W2 & S2 & M2 & C2 & O2).
    split; [exact W2|split; [exact S2|split; [|split]]].
    + intros i j Hn. apply M2, M1, Hn.
    + intros ix [<-|Hin]; [|apply C2; exact Hin]. exists vs. split; [exact Ev|].
      intros n d Hin. apply M2, (C1 n d Hin).
    + intros i j d Hg. destruct (O2 _ _ _ Hg) as [Q|(ix & vs' & Hin & Ev' & Q)].
      * destruct (O1 _ _ _ Q) as [Q'|Q']; [auto|]. right. exists index, vs. split; [left; reflexivity|]. auto.
      * right. exists ix, vs'. split; [right; exact Hin|]. auto.
Qed.

Theorem table_symmetric c t i j : l_distanceTable la c = Ok t -> tab_get t i j = tab_get t j i.
Proof.
  unfold l_distanceTable. intros E.
  apply rbind_ok_inv in E. destruct E as (n & _ & E).
  apply rbind_ok_inv in E. destruct E as (lw & _ & E).
  apply rbind_ok_inv in E. destruct E as (tt' & _ & E).
  apply (table_from _ _ _ _ E tab_wf_nil). reflexivity.
Qed.
End Tab.

Section TabR.
Context {I : Impl}.
Variable la : @lattice XR.
Hypothesis B : built la.
Variable sp : R.
Hypothesis Sp : l_spacing la = Fin sp.
Hypothesis Hsp : (0 < sp)%R.
Notation L := (l_len la).
Notation W := (l_wid la).
Notation Ht := (l_hei la).
Notation T := (L * W * Ht).
Notation idist := (image_dist L W Ht (l_xb la) (l_yb la) (l_zb la) sp).

Lemma table_inv c t : l_distanceTable la (Fin c) = Ok t -> l_table_from la (zrange 0 (T - 1)) (Fin c) [] = Ok t.
Proof.
  unfold l_distanceTable. intros E.
  apply rbind_ok_inv in E. destruct E as (n & _ & E).
  apply rbind_ok_inv in E. destruct E as (lw & E1 & E). apply chk_inv in E1. destruct E1 as [<- _].
  apply rbind_ok_inv in E. destruct E as (tt' & E1 & E). apply chk_inv in E1. destruct E1 as [<- _].
  exact E.
Qed.

Lemma visits_inv i c vs : l_visits la i (Fin c) = Ok vs -> 0 <= i < T ->
  exists x y z, at_pos L W Ht i x y z /\ INT_MIN <= x - steps sp c /\ INT_MIN <= y - steps sp c /\ INT_MIN <= z - steps sp c /\
    l_box la i x y z (x - steps sp c) x (y - steps sp c) y (z - steps sp c) z (Fin c) = Ok vs.
Proof.
  unfold l_visits. intros E Hi. destruct (at_pos_exists la B i Hi) as (x & y & z & P).
  rewrite (getPos_ok la B _ _ _ _ P) in E. cbn [rbind] in E.
  apply rbind_ok_inv in E. destruct E as (n & En & E). apply (num_sites_ok la sp Sp Hsp) in En. destruct En as [-> Hn].
  apply rbind_ok_inv in E. destruct E as (xlo & E1 & E). apply chk_inv in E1. destruct E1 as [<- R1].
  apply rbind_ok_inv in E. destruct E as (ylo & E1 & E). apply chk_inv in E1. destruct E1 as [<- R2].
  apply rbind_ok_inv in E. destruct E as (zlo & E1 & E). apply chk_inv in E1. destruct E1 as [<- R3].
  apply in_int_iff in R1, R2, R3. exists x, y, z. repeat (split; [assumption || lia|]). exact E.
Qed.

Lemma visits_sound i c vs j d : l_visits la i (Fin c) = Ok vs -> 0 <= i < T -> In (j, d) vs ->
  j <> i /\ exists D, d = Fin D /\ (D <= c)%R /\ idist i j D.
Proof.
  intros E Hi Hin. destruct (visits_inv _ _ _ E Hi) as (x & y & z & P & _ & _ & _ & Eb).
  destruct (sizes la B) as (SL & SW & SH & _).
  apply (box_In la B _ _ _ _ _ _ _ _ _ _ _ _ _ _ Eb) in Hin.
  destruct Hin as (xi & yi & zi & Hx & Hy & Hz & (xp & yp & zp & W1 & R1 & W2 & R2 & W3 & R3 & Ed & Ele & En & Ene)).
  split; [exact Ene|]. apply (getDistance_ok la sp Sp) in Ed. subst d. eexists; split; [reflexivity|].
  split; [apply xleb_Fin; exact Ele|].
  exists x, y, z, xp, yp, zp, xi, yi, zi.
  apply wrap_image in W1, W2, W3; try assumption.
  split; [exact P|]. split; [repeat split; try lia; exact En|]. auto.
Qed.

(** nothing wrong is ever in the table *)
Theorem table_sound c t i j d : l_distanceTable la (Fin c) = Ok t -> tab_get t i j = Some d ->
  i <> j /\ exists D, d = Fin D /\ (D <= c)%R /\ idist i j D.
Proof.
  intros E Hg. apply table_inv in E.
  destruct (table_from la _ _ _ _ E tab_wf_nil (fun _ _ => eq_refl)) as (_ & _ & _ & _ & O).
  destruct (O _ _ _ Hg) as [Q|(ix & vs & Hin & Ev & Q)]; [discriminate|].
  apply zrange_In in Hin. assert (Hix : 0 <= ix < T) by lia.
  destruct Q as [[-> Q]|[-> Q]]; destruct (visits_sound _ _ _ _ _ Ev Hix Q) as (A1 & D & A2 & A3 & A4).
  - split; [auto|eauto].
  - split; [exact A1|]. exists D. split; [exact A2|split; [exact A3|]]. apply idist_sym; exact A4.
Qed.

(** positions comparable in every coordinate *)
Definition below (x1 y1 z1 x2 y2 z2 : Z) : Prop := x1 <= x2 /\ y1 <= y2 /\ z1 <= z2.

(** With Fixed boundaries the table holds exactly the pairs within the cutoff
    one of which lies below the other in every coordinate. *)
Theorem table_exact c t i j x1 y1 z1 x2 y2 z2 :
  l_xb la = Fixed -> l_yb la = Fixed -> l_zb la = Fixed ->
  l_distanceTable la (Fin c) = Ok t ->
  at_pos L W Ht i x1 y1 z1 -> at_pos L W Ht j x2 y2 z2 -> i <> j ->
  tab_get t i j =
    if Rle_dec (euclid sp x1 y1 z1 x2 y2 z2) c
    then if ((x1 <=? x2) && (y1 <=? y2) && (z1 <=? z2)) || ((x2 <=? x1) && (y2 <=? y1) && (z2 <=? z1))
         then Some (Fin (euclid sp x1 y1 z1 x2 y2 z2)) else None
    else None.
Proof.
  intros Fx Fy Fz E P1 P2 Hne. assert (E0 := E). apply table_inv in E.
  destruct (table_from la _ _ _ _ E tab_wf_nil (fun _ _ => eq_refl)) as (_ & Sy & _ & C & O).
  assert (Val : forall d, tab_get t i j = Some d ->
     d = Fin (euclid sp x1 y1 z1 x2 y2 z2) /\ (euclid sp x1 y1 z1 x2 y2 z2 <= c)%R /\
     (below x1 y1 z1 x2 y2 z2 \/ below x2 y2 z2 x1 y1 z1)).
  { intros d Hg. destruct (O _ _ _ Hg) as [Q|(ix & vs & Hin & Ev & Q)]; [discriminate|].
    apply zrange_In in Hin. assert (Hix : 0 <= ix < T) by lia.
    destruct (visits_inv _ _ _ Ev Hix) as (x & y & z & P & _ & _ & _ & Eb).
    destruct Q as [[<- Q]|[<- Q]]; apply (box_In la B _ _ _ _ _ _ _ _ _ _ _ _ _ _ Eb) in Q;
      destruct Q as (xi & yi & zi & Hx & Hy & Hz & (xp & yp & zp & W1 & R1 & W2 & R2 & W3 & R3 & Ed & Ele & En & Ene));
      rewrite Fx in W1; rewrite Fy in W2; rewrite Fz in W3; simpl in W1, W2, W3;
      inversion W1; inversion W2; inversion W3; subst xp yp zp;
      apply (getDistance_ok la sp Sp) in Ed; subst d; apply xleb_Fin in Ele.
    - destruct (at_pos_unique la _ _ _ _ _ _ _ P P1) as (-> & -> & ->).
      assert (P3 : at_pos L W Ht j xi yi zi) by (repeat split; try lia; exact En).
      destruct (at_pos_unique la _ _ _ _ _ _ _ P3 P2) as (-> & -> & ->).
      unfold euclid in *. rewrite (sq_dist_sym x1). split; [reflexivity|split; [exact Ele|]].
      right. unfold below; lia.
    - destruct (at_pos_unique la _ _ _ _ _ _ _ P P2) as (-> & -> & ->).
      assert (P3 : at_pos L W Ht i xi yi zi) by (repeat split; try lia; exact En).
      destruct (at_pos_unique la _ _ _ _ _ _ _ P3 P1) as (-> & -> & ->).
      split; [reflexivity|split; [exact Ele|]]. left. unfold below; lia. }
  assert (Cov : forall i j x1 y1 z1 x2 y2 z2, at_pos L W Ht i x1 y1 z1 -> at_pos L W Ht j x2 y2 z2 -> i <> j ->
    below x2 y2 z2 x1 y1 z1 -> (euclid sp x2 y2 z2 x1 y1 z1 <= c)%R -> tab_get t i j <> None).
  { clear i j x1 y1 z1 x2 y2 z2 P1 P2 Hne Val.
    intros i j x1 y1 z1 x2 y2 z2 P1 P2 Hne Hb Hle.
    pose proof (at_pos_range la B _ _ _ _ P1) as Hi.
    destruct (C i) as (vs & Ev & Hc); [apply zrange_In; lia|].
    destruct (visits_inv _ _ _ Ev Hi) as (x & y & z & P & _ & _ & _ & Eb).
    destruct (at_pos_unique la _ _ _ _ _ _ _ P P1) as (-> & -> & ->).
    destruct (euclid_coord sp c _ _ _ _ _ _ Hsp Hle) as (C1 & C2 & C3). unfold below in Hb.
    destruct P2 as (Q1 & Q2 & Q3 & Q4).
    assert (VX : x1 - steps sp c <= x2 <= x1) by lia.
    assert (VY : y1 - steps sp c <= y2 <= y1) by lia.
    assert (VZ : z1 - steps sp c <= z2 <= z1) by lia.
    assert (WX : l_wrap (l_xb la) x2 L = Ok x2) by (rewrite Fx; reflexivity).
    assert (WY : l_wrap (l_yb la) y2 W = Ok y2) by (rewrite Fy; reflexivity).
    assert (WZ : l_wrap (l_zb la) z2 Ht = Ok z2) by (rewrite Fz; reflexivity).
    apply (Hc j (Fin (euclid sp x2 y2 z2 x1 y1 z1))).
    apply (box_In la B _ _ _ _ _ _ _ _ _ _ _ _ _ _ Eb).
    exists x2, y2, z2. split; [exact VX|split; [exact VY|split; [exact VZ|]]]. exists x2, y2, z2.
    assert (Ed : l_getDistance_ la x2 y2 z2 x1 y1 z1 = Ok (Fin (euclid sp x2 y2 z2 x1 y1 z1))).
    { unfold l_box in Eb. destruct (rloop_ok _ _ _ _ Eb) as [A1 _]. destruct (A1 x2 VX) as [b1 E1].
      rewrite WX in E1. cbn [rbind] in E1. rewrite (proj2 (in_size_iff x2 L) Q1) in E1.
      destruct (rloop_ok _ _ _ _ E1) as [A2 _]. destruct (A2 y2 VY) as [b2 E2].
      rewrite WY in E2. cbn [rbind] in E2. rewrite (proj2 (in_size_iff y2 W) Q2) in E2.
      destruct (rloop_ok _ _ _ _ E2) as [A3 _]. destruct (A3 z2 VZ) as [b3 E3].
      rewrite WZ in E3. cbn [rbind] in E3. rewrite (proj2 (in_size_iff z2 Ht) Q3) in E3.
      apply rbind_ok_inv in E3. destruct E3 as (d & Ed & _). rewrite Ed. f_equal.
      apply (getDistance_ok la sp Sp); exact Ed. }
    repeat (split; [assumption|]). split; [apply xleb_Fin; exact Hle|]. split; [exact Q4|auto]. }
  destruct (tab_get t i j) as [d|] eqn:Hg.
  - destruct (Val d eq_refl) as (-> & Hle & Hb).
    destruct (Rle_dec (euclid sp x1 y1 z1 x2 y2 z2) c); [|contradiction].
    assert (((x1 <=? x2) && (y1 <=? y2) && (z1 <=? z2)) || ((x2 <=? x1) && (y2 <=? y1) && (z2 <=? z1)) = true) as ->; [|reflexivity].
    unfold below in Hb. rewrite orb_true_iff, !andb_true_iff, !Z.leb_le. tauto.
  - destruct (Rle_dec (euclid sp x1 y1 z1 x2 y2 z2) c) as [Hle|]; [|reflexivity].
    destruct (((x1 <=? x2) && (y1 <=? y2) && (z1 <=? z2)) || ((x2 <=? x1) && (y2 <=? y1) && (z2 <=? z1))) eqn:Eo; [|reflexivity].
    exfalso. rewrite orb_true_iff, !andb_true_iff, !Z.leb_le in Eo. destruct Eo as [Eo|Eo].
    + apply (Cov j i _ _ _ _ _ _ P2 P1 (not_eq_sym Hne)); [unfold below; tauto|exact Hle|]. rewrite Sy; exact Hg.
    + apply (Cov i j _ _ _ _ _ _ P1 P2 Hne); [unfold below; tauto| |exact Hg].
      unfold euclid in *. rewrite (sq_dist_sym x2). exact Hle.
Qed.

(** the call returns (cutoff as for the neighbour lists) *)
Lemma visits_def i c : 0 <= i < T -> 0 <= steps sp c <= 645 ->
  L <= INT_MAX - 645 -> W <= INT_MAX - 645 -> Ht <= INT_MAX - 645 ->
  exists vs, l_visits la i (Fin c) = Ok vs.
Proof.
  intros Hi Hn CL CW CH. destruct (sizes la B) as (SL & SW & SH & S1 & S2 & S3 & S4 & S5 & S6).
  destruct (at_pos_exists la B i Hi) as (x & y & z & P). unfold l_visits.
  rewrite (getPos_ok la B _ _ _ _ P). cbn [rbind].
  rewrite (num_sites_def la sp Sp Hsp) by (apply in_int_iff; unfold INT_MIN, INT_MAX; lia). cbn [rbind].
  destruct P as (P1 & P2 & P3 & P4). set (n := steps sp c) in *. unfold INT_MAX in *.
  do 3 (rewrite chk_ok by (apply in_int_iff; unfold INT_MIN, INT_MAX; lia); cbn [rbind]).
  assert (Wr : forall b v size, 0 < size <= INT_MAX - 645 -> -645 <= v <= size + 645 ->
    exists p, l_wrap b v size = Ok p).
  { intros b v size Hs Hv. destruct b; simpl; [eauto|]. apply periodic_noerr; unfold INT_MIN, INT_MAX in *; lia. }
  unfold INT_MAX in Wr. unfold l_box. apply rloop_exists; [unfold INT_MIN, INT_MAX; lia|]. intros xi Hx.
  destruct (Wr (l_xb la) xi L) as [xp ->]; [lia..|]. cbn [rbind].
  destruct (in_size xp L) eqn:Ex; [|eauto]. apply in_size_iff in Ex.
  apply rloop_exists; [unfold INT_MIN, INT_MAX; lia|]. intros yi Hy.
  destruct (Wr (l_yb la) yi W) as [yp ->]; [lia..|]. cbn [rbind].
  destruct (in_size yp W) eqn:Ey; [|eauto]. apply in_size_iff in Ey.
  apply rloop_exists; [unfold INT_MIN, INT_MAX; lia|]. intros zi Hz.
  destruct (Wr (l_zb la) zi Ht) as [zp ->]; [lia..|]. cbn [rbind].
  destruct (in_size zp Ht) eqn:Ez; [|eauto]. apply in_size_iff in Ez.
  rewrite (getDistance_def la sp Sp) by lia. cbn [rbind].
  match goal with |- exists r, (if ?t then _ else _) = _ => destruct t; [|eauto] end.
  destruct (index_ok la B _ _ _ Ex Ey Ez) as [-> _]. cbn [rbind].
  match goal with |- exists r, (if ?t then _ else _) = _ => destruct t; eauto end.
Qed.

Lemma steps_bound c : (0 <= c)%R -> (c < 646 * sp)%R -> 0 <= steps sp c <= 645.
Proof.
  intros Hc Hc'. unfold steps. split.
  - apply Rfloor_ge. apply Rmult_le_reg_r with sp; [exact Hsp|].
    replace (c / sp * sp)%R with c by (field; lra). lra.
  - destruct (Rfloor_spec (c / sp)) as [F _].
    assert (Rfloor (c / sp) < 646)%Z; [|lia]. apply lt_IZR. eapply Rle_lt_trans; [exact F|].
    apply Rmult_lt_reg_r with sp; [exact Hsp|].
    replace (c / sp * sp)%R with c by (field; lra). lra.
Qed.

Theorem table_def c : (0 <= c)%R -> (c < 646 * sp)%R ->
  L <= INT_MAX - 645 -> W <= INT_MAX - 645 -> Ht <= INT_MAX - 645 ->
  exists t, l_distanceTable la (Fin c) = Ok t.
Proof.
  intros Hc Hc' CL CW CH. pose proof (steps_bound c Hc Hc') as Hn.
  destruct (sizes la B) as (SL & SW & SH & S1 & S2 & S3 & S4 & S5 & S6).
  unfold l_distanceTable.
  rewrite (num_sites_def la sp Sp Hsp) by (apply in_int_iff; unfold INT_MIN, INT_MAX; lia). cbn [rbind].
  do 2 (rewrite chk_ok by (apply in_int_iff; unfold INT_MIN; lia); cbn [rbind]).
  assert (G : forall l m, (forall i, In i l -> 0 <= i < T) -> exists t, l_table_from la l (Fin c) m = Ok t).
  { induction l as [|i l IH]; intros m Hl; simpl; [eauto|].
    destruct (visits_def i c (Hl i (or_introl eq_refl)) Hn CL CW CH) as [vs ->]. cbn [rbind].
    apply IH. intros k Hk; apply Hl; right; exact Hk. }
  apply G. intros i Hi. apply zrange_In in Hi. lia.
Qed.
End TabR.

(** ** Random sites *)
Section Rand.
Context {N : Num}.
Variable la : lattice.
Hypothesis B : built la.
Notation L := (l_len la).
Notation W := (l_wid la).
Notation Ht := (l_hei la).

(** site [i] lies in the plane [pl] at coordinate [p] *)
Definition on_plane (pl : plane) (p i : Z) : Prop :=
  exists x y z, at_pos L W Ht i x y z /\
    match pl with YZ => x = p | XZ => y = p | XY => z = p end.
(** number of parallel planes, and boundary across them *)
Definition planes (pl : plane) : Z := match pl with YZ => L | XZ => W | XY => Ht end.
Definition across (pl : plane) : boundary := match pl with YZ => l_xb la | XZ => l_yb la | XY => l_zb la end.

Lemma draw_ok size raw : 0 < size -> draw_int size raw = Ok (raw mod size).
Proof. intros. unfold draw_int. destruct (Z.leb_spec size 0); [lia|reflexivity]. Qed.
Lemma never_ok p size : never_out p size = Ok tt \/ 0 >= size.
Proof.
  unfold never_out. destruct (Z.ltb_spec p 0); simpl; [|auto].
  destruct (Z.geb_spec p size); [right; lia|auto].
Qed.
Lemma in_range_ok b v size : 0 < size <= INT_MAX -> 0 <= v < size -> l_coord b v size = Ok v.
Proof.
  intros Hs Hv. assert (A : acceptable b v size).
  { destruct b; simpl; unfold INT_MIN, INT_MAX in *; lia. }
  destruct (coord_ok b v size Hs A) as [E _]. rewrite E. rewrite Z.mod_small by lia. reflexivity.
Qed.

Lemma getIndex_in x y z : 0 <= x < L -> 0 <= y < W -> 0 <= z < Ht ->
  exists i, l_getIndex la x y z = Ok i /\ at_pos L W Ht i x y z.
Proof.
  intros Hx Hy Hz. destruct (sizes la B) as (SL & SW & SH & S1 & S2 & S3 & S4 & S5 & S6).
  unfold l_getIndex. rewrite !in_range_ok by lia. cbn [rbind].
  destruct (index_ok la B x y z Hx Hy Hz) as [-> _]. eexists; split; [reflexivity|]. repeat split; lia.
Qed.

(** the y-coordinate of the XY branch is drawn with the z-distribution *)
Theorem random_on_plane pl p raw1 raw2 : (pl = XY -> Ht <= W) -> 0 <= p < planes pl ->
  exists i, l_getRandomSite la pl p raw1 raw2 = Ok i /\ on_plane pl p i.
Proof.
  intros Hxy Hp. destruct (sizes la B) as (SL & SW & SH & S1 & S2 & S3 & S4 & S5 & S6).
  destruct pl; simpl in Hp; unfold l_getRandomSite.
  - destruct (never_ok p Ht) as [->|]; [|lia]. cbn [rbind]. rewrite !draw_ok by assumption. cbn [rbind].
    pose proof (Z.mod_pos_bound raw1 L SL). pose proof (Z.mod_pos_bound raw2 Ht SH). specialize (Hxy eq_refl).
    destruct (getIndex_in (raw1 mod L) (raw2 mod Ht) p) as (i & E & P); [lia..|].
    exists i. split; [exact E|]. exists (raw1 mod L), (raw2 mod Ht), p. split; [exact P|reflexivity].
  - destruct (never_ok p L) as [->|]; [|lia]. cbn [rbind]. rewrite !draw_ok by assumption. cbn [rbind].
    pose proof (Z.mod_pos_bound raw1 W SW). pose proof (Z.mod_pos_bound raw2 Ht SH).
    destruct (getIndex_in p (raw1 mod W) (raw2 mod Ht)) as (i & E & P); [lia..|].
    exists i. split; [exact E|]. exists p, (raw1 mod W), (raw2 mod Ht). split; [exact P|reflexivity].
  - destruct (never_ok p W) as [->|]; [|lia]. cbn [rbind]. rewrite !draw_ok by assumption. cbn [rbind].
    pose proof (Z.mod_pos_bound raw1 L SL). pose proof (Z.mod_pos_bound raw2 Ht SH).
    destruct (getIndex_in (raw1 mod L) p (raw2 mod Ht)) as (i & E & P); [lia..|].
    exists i. split; [exact E|]. exists (raw1 mod L), p, (raw2 mod Ht). split; [exact P|reflexivity].
Qed.

Theorem random_covers pl p i : (pl = XY -> W <= Ht) -> on_plane pl p i ->
  exists raw1 raw2, l_getRandomSite la pl p raw1 raw2 = Ok i.
Proof.
  intros Hxy (x & y & z & P & Hp). destruct (sizes la B) as (SL & SW & SH & S1 & S2 & S3 & S4 & S5 & S6).
  assert (P' := P). destruct P' as (P1 & P2 & P3 & P4).
  assert (E : l_getIndex la x y z = Ok i).
  { destruct (getIndex_in x y z P1 P2 P3) as (i' & E & (_ & _ & _ & Q)). rewrite E. f_equal. congruence. }
  destruct pl; simpl in Hp; subst p; unfold l_getRandomSite.
  - exists x, y. destruct (never_ok z Ht) as [->|]; [|lia]. cbn [rbind]. rewrite !draw_ok by assumption. cbn [rbind].
    specialize (Hxy eq_refl). rewrite !Z.mod_small by lia. exact E.
  - exists y, z. destruct (never_ok x L) as [->|]; [|lia]. cbn [rbind]. rewrite !draw_ok by assumption. cbn [rbind].
    rewrite !Z.mod_small by lia. exact E.
  - exists x, z. destruct (never_ok y W) as [->|]; [|lia]. cbn [rbind]. rewrite !draw_ok by assumption. cbn [rbind].
    rewrite !Z.mod_small by lia. exact E.
Qed.

Theorem random_throws pl p raw1 raw2 : across pl = Fixed -> INT_MIN <= p <= INT_MAX -> ~ 0 <= p < planes pl ->
  l_getRandomSite la pl p raw1 raw2 = Err InvalidArgument.
Proof.
  intros Hf Hi Hp. destruct (sizes la B) as (SL & SW & SH & S1 & S2 & S3 & S4 & S5 & S6).
  assert (D : forall size raw, 0 < size <= INT_MAX -> INT_MIN <= raw mod size <= INT_MAX).
  { intros size raw Hs. pose proof (Z.mod_pos_bound raw size). unfold INT_MIN, INT_MAX in *; lia. }
  destruct pl; simpl in Hf, Hp; unfold l_getRandomSite.
  - destruct (never_ok p Ht) as [->|]; [|lia]. cbn [rbind]. rewrite !draw_ok by assumption. cbn [rbind].
    apply (getIndex_throws la B); auto; apply D; lia.
  - destruct (never_ok p L) as [->|]; [|lia]. cbn [rbind]. rewrite !draw_ok by assumption. cbn [rbind].
    apply (getIndex_throws la B); auto; apply D; lia.
  - destruct (never_ok p W) as [->|]; [|lia]. cbn [rbind]. rewrite !draw_ok by assumption. cbn [rbind].
    apply (getIndex_throws la B); auto; apply D; lia.
Qed.
End Rand.

(** ** Corollaries in the vocabulary of the properties *)
Section Cor.
Context {N : Num}.

Theorem index_position_inverse L W H sp xb yb zb : 0 < L -> 0 < W -> 0 < H -> L * W * H <= INT_MAX ->
  exists la, l_new L W H sp xb yb zb = Ok la /\
    (forall x y z, 0 <= x < L -> 0 <= y < W -> 0 <= z < H ->
       exists i, l_getIndex la x y z = Ok i /\ 0 <= i < L * W * H /\ l_getPosition la i = Ok (x, y, z)) /\
    (forall i, 0 <= i < L * W * H ->
       exists x y z, 0 <= x < L /\ 0 <= y < W /\ 0 <= z < H /\
         l_getPosition la i = Ok (x, y, z) /\ l_getIndex la x y z = Ok i /\
         l_getX la i = Ok x /\ l_getY la i = Ok y /\ l_getZ la i = Ok z).
Proof.
  intros HL HW HH HT.
  destruct (new_built L W H sp xb yb zb HL HW HH HT) as (la & E & B & <- & <- & <- & _).
  exists la. split; [exact E|]. split.
  - intros x y z Hx Hy Hz. destruct (getIndex_in la B x y z Hx Hy Hz) as (i & Ei & P).
    exists i. split; [exact Ei|]. split; [apply (at_pos_range la B _ _ _ _ P)|]. apply (getPosition_ok la B); exact P.
  - intros i Hi. destruct (at_pos_exists la B i Hi) as (x & y & z & P).
    assert (P' := P). destruct P' as (P1 & P2 & P3 & P4).
    exists x, y, z. repeat (split; [assumption|]). split; [apply (getPosition_ok la B); exact P|].
    split; [|apply (getXYZ_ok la B); exact P].
    destruct (getIndex_in la B x y z P1 P2 P3) as (i' & E' & (_ & _ & _ & Q)). rewrite E'. f_equal. congruence.
Qed.

Theorem getIndex_partial la x y z : built la ->
  INT_MIN <= x <= INT_MAX -> INT_MIN <= y <= INT_MAX -> INT_MIN <= z <= INT_MAX ->
  (l_xb la = Periodic -> - l_len la <= x) -> (l_yb la = Periodic -> - l_wid la <= y) ->
  (l_zb la = Periodic -> - l_hei la <= z) ->
  let bad b v size := b = Fixed /\ ~ 0 <= v < size in
  ((bad (l_xb la) x (l_len la) \/ bad (l_yb la) y (l_wid la) \/ bad (l_zb la) z (l_hei la)) ->
     l_getIndex la x y z = Err InvalidArgument) /\
  (~ (bad (l_xb la) x (l_len la) \/ bad (l_yb la) y (l_wid la) \/ bad (l_zb la) z (l_hei la)) ->
     exists i, l_getIndex la x y z = Ok i /\
       at_pos (l_len la) (l_wid la) (l_hei la) i (x mod l_len la) (y mod l_wid la) (z mod l_hei la)).
Proof.
  intros B Ix Iy Iz Cx Cy Cz bad. split.
  - intros Hor. apply (getIndex_throws la B); auto.
  - intros Hn. unfold bad in Hn. apply (getIndex_ok la B).
    + destruct (l_xb la); simpl; [|auto]. destruct (Z.le_gt_cases 0 x), (Z.lt_ge_cases x (l_len la)); try lia; exfalso; apply Hn; left; split; auto; lia.
    + destruct (l_yb la); simpl; [|auto]. destruct (Z.le_gt_cases 0 y), (Z.lt_ge_cases y (l_wid la)); try lia; exfalso; apply Hn; right; left; split; auto; lia.
    + destruct (l_zb la); simpl; [|auto]. destruct (Z.le_gt_cases 0 z), (Z.lt_ge_cases z (l_hei la)); try lia; exfalso; apply Hn; right; right; split; auto; lia.
Qed.

Theorem getIndex_periodic la x y z k : built la -> l_xb la = Periodic ->
  INT_MIN <= x + k * l_len la <= INT_MAX -> INT_MIN <= x <= INT_MAX ->
  - l_len la <= x -> - l_len la <= x + k * l_len la ->
  l_getIndex la (x + k * l_len la) y z = l_getIndex la x y z.
Proof.
  intros B Px I1 I2 L1 L2. destruct (sizes la B) as (SL & SW & SH & S1 & S2 & S3 & S4 & S5 & S6).
  unfold l_getIndex. rewrite Px. simpl l_coord. rewrite !periodic_ok by lia. cbn [rbind].
  rewrite Z_mod_plus_full. reflexivity.
Qed.
Theorem getIndex_periodic_y la x y z k : built la -> l_yb la = Periodic ->
  INT_MIN <= y + k * l_wid la <= INT_MAX -> INT_MIN <= y <= INT_MAX ->
  - l_wid la <= y -> - l_wid la <= y + k * l_wid la ->
  l_getIndex la x (y + k * l_wid la) z = l_getIndex la x y z.
Proof.
  intros B Px I1 I2 L1 L2. destruct (sizes la B) as (SL & SW & SH & S1 & S2 & S3 & S4 & S5 & S6).
  unfold l_getIndex. destruct (l_coord (l_xb la) x (l_len la)); cbn [rbind]; auto.
  rewrite Px. simpl l_coord. rewrite !periodic_ok by lia. cbn [rbind]. rewrite Z_mod_plus_full. reflexivity.
Qed.
Theorem getIndex_periodic_z la x y z k : built la -> l_zb la = Periodic ->
  INT_MIN <= z + k * l_hei la <= INT_MAX -> INT_MIN <= z <= INT_MAX ->
  - l_hei la <= z -> - l_hei la <= z + k * l_hei la ->
  l_getIndex la x y (z + k * l_hei la) = l_getIndex la x y z.
Proof.
  intros B Px I1 I2 L1 L2. destruct (sizes la B) as (SL & SW & SH & S1 & S2 & S3 & S4 & S5 & S6).
  unfold l_getIndex. destruct (l_coord (l_xb la) x (l_len la)); cbn [rbind]; auto.
  destruct (l_coord (l_yb la) y (l_wid la)); cbn [rbind]; auto.
  rewrite Px. simpl l_coord. rewrite !periodic_ok by lia. cbn [rbind]. rewrite Z_mod_plus_full. reflexivity.
Qed.

Theorem neighbour_queries_reject la i j c : built la -> ~ 0 <= i < l_len la * l_wid la * l_hei la ->
  l_getNeighbors la i c = Err InvalidArgument /\
  l_getNeighborDistances la i c = Err InvalidArgument /\
  l_getSmallestDistance la i j = Err InvalidArgument /\
  (0 <= j < l_len la * l_wid la * l_hei la -> l_getSmallestDistance la j i = Err InvalidArgument).
Proof.
  intros B Hi. assert (E : check_index la i = Err InvalidArgument).
  { rewrite (check_index_cases la B). destruct (Z.leb_spec 0 i), (Z.ltb_spec i (l_len la * l_wid la * l_hei la)); simpl; auto; lia. }
  unfold l_getNeighbors, l_getNeighborDistances, l_getSmallestDistance. rewrite E. cbn [rbind].
  repeat split; auto. intros Hj. rewrite (proj2 (check_index_iff la B j) Hj). reflexivity.
Qed.

Theorem position_queries_reject_large la i : built la -> l_len la * l_wid la * l_hei la <= i ->
  l_getPosition la i = Err InvalidArgument /\ l_getX la i = Err InvalidArgument /\
  l_getY la i = Err InvalidArgument /\ l_getZ la i = Err InvalidArgument.
Proof.
  intros B Hi. unfold l_getPosition, l_getX, l_getY, l_getZ. rewrite (check_upper_err la B i Hi). auto.
Qed.

(** a negative index is never rejected *)
Theorem position_queries_accept_negative la i e : built la -> INT_MIN <= i < 0 ->
  l_getPosition la i <> Err e /\ l_getX la i <> Err e /\ l_getY la i <> Err e /\ l_getZ la i <> Err e.
Proof.
  intros B Hi. destruct (sizes la B) as (SL & SW & SH & S1 & S2 & S3 & S4 & S5 & S6).
  unfold l_getPosition, l_getX, l_getY, l_getZ. rewrite (check_upper_ok la B i) by lia. cbn [rbind].
  unfold l_getPos_. rewrite chk_ok by (apply in_int_iff; unfold INT_MIN; lia). cbn [rbind].
  unfold idiv, imod. destruct (Z.eqb_spec (l_len la * l_wid la) 0); [lia|]. destruct (Z.eqb_spec (l_len la) 0); [lia|].
  cbn [rbind].
  assert (C : forall z, chk z = Ok z \/ chk z = Bad Undefined) by (intros z; unfold chk; destruct (in_int z); auto).
  destruct (C (l_len la * l_wid la * Z.quot i (l_len la * l_wid la))) as [->| ->]; cbn [rbind].
  - destruct (C (i - l_len la * l_wid la * Z.quot i (l_len la * l_wid la))) as [->| ->]; cbn [rbind];
      repeat split; discriminate.
  - repeat split; discriminate.
Qed.
End Cor.

Section CorR.
Variable la : @lattice XR.
Hypothesis B : built la.
Variable sp : R.
Hypothesis Sp : l_spacing la = Fin sp.
Hypothesis Hsp : (0 < sp)%R.
Hypothesis Fx : l_xb la = Fixed.
Hypothesis Fy : l_yb la = Fixed.
Hypothesis Fz : l_zb la = Fixed.
Notation L := (l_len la).
Notation W := (l_wid la).
Notation Ht := (l_hei la).

(** on a fixed lattice: the distance between two sites *)
Definition fixed_dist (i j : Z) (D : R) : Prop :=
  exists x1 y1 z1 x2 y2 z2, at_pos L W Ht i x1 y1 z1 /\ at_pos L W Ht j x2 y2 z2 /\
    D = euclid sp x1 y1 z1 x2 y2 z2.
Lemma fixed_idist i j D : image_dist L W Ht (l_xb la) (l_yb la) (l_zb la) sp i j D <-> fixed_dist i j D.
Proof.
  rewrite Fx, Fy, Fz. split.
  - intros (x1 & y1 & z1 & x2 & y2 & z2 & X & Y & Z & P1 & P2 & IX & IY & IZ & ->).
    simpl in *. subst. exists x1, y1, z1, x2, y2, z2. split; [exact P1|split; [exact P2|]].
    unfold euclid. rewrite sq_dist_sym. reflexivity.
  - intros (x1 & y1 & z1 & x2 & y2 & z2 & P1 & P2 & ->).
    exists x1, y1, z1, x2, y2, z2, x2, y2, z2. repeat (split; [assumption || reflexivity|]).
    unfold euclid. rewrite sq_dist_sym. reflexivity.
Qed.

Theorem fixed_neighbors i c l : l_getNeighbors la i (Fin c) = Ok l ->
  NoDup l /\ ~ In i l /\
  (forall j, In j l <-> j <> i /\ exists D, fixed_dist i j D /\ (D <= c)%R).
Proof.
  intros E. assert (A : forall j, In j l <-> j <> i /\ exists D, fixed_dist i j D /\ (D <= c)%R).
  { intros j. rewrite (neighbors_In la B sp Sp Hsp _ _ _ _ E). split; intros (A1 & D & A2 & A3); (split; [exact A1|]); exists D.
    - split; [apply fixed_idist; exact A3|exact A2].
    - split; [exact A3|apply fixed_idist; exact A2]. }
  split; [|split; [|exact A]].
  - apply (neighbors_NoDup la B sp Sp Hsp _ _ _ E); congruence.
  - intros Hin. apply A in Hin. destruct Hin; congruence.
Qed.

Theorem fixed_distances i c r : l_getNeighborDistances la i (Fin c) = Ok r ->
  l_getNeighbors la i (Fin c) = Ok (map fst r) /\
  forall j d, In (j, d) r <-> j <> i /\ exists D, d = Fin D /\ fixed_dist i j D /\ (D <= c)%R.
Proof.
  intros E. destruct (nd_inv la B sp Sp Hsp _ _ _ E) as (x & y & z & n & _ & _ & _ & _ & _ & _ & _ & _ & _ & _ & En).
  split; [exact En|]. intros j d. split.
  - intros Hin. destruct (nd_sound la B sp Sp Hsp _ _ _ _ _ E Hin) as (A1 & D & A2 & A3 & A4).
    split; [exact A1|]. exists D. split; [exact A2|split; [apply fixed_idist; exact A4|exact A3]].
  - intros (Hne & D & -> & Hd & Hle). apply fixed_idist in Hd.
    destruct (nd_complete la B sp Sp Hsp _ _ _ _ _ E Hne Hd Hle) as (D' & Hin & Hd' & _).
    apply fixed_idist in Hd, Hd'.
    destruct Hd as (a1 & b1 & c1 & a2 & b2 & c2 & P1 & P2 & ->).
    destruct Hd' as (a1' & b1' & c1' & a2' & b2' & c2' & P1' & P2' & ->).
    destruct (at_pos_unique la _ _ _ _ _ _ _ P1 P1') as (-> & -> & ->).
    destruct (at_pos_unique la _ _ _ _ _ _ _ P2 P2') as (-> & -> & ->). exact Hin.
Qed.
End CorR.

(** the whole statement of "returns" for fixed and periodic lattices *)
Theorem neighbors_returns (la : @lattice XR) sp i c : built la -> l_spacing la = Fin sp -> (0 < sp)%R ->
  0 <= i < l_len la * l_wid la * l_hei la -> (0 <= c)%R -> (c < 646 * sp)%R ->
  l_len la <= INT_MAX - 645 -> l_wid la <= INT_MAX - 645 -> l_hei la <= INT_MAX - 645 ->
  exists r, l_getNeighborDistances la i (Fin c) = Ok r /\ l_getNeighbors la i (Fin c) = Ok (map fst r).
Proof. intros B Sp Hsp. apply (neighbors_def la B sp Sp Hsp). Qed.

Theorem neighbors_negative (la : @lattice XR) sp i c : built la -> l_spacing la = Fin sp -> (0 < sp)%R ->
  (c < 0)%R -> forall l, l_getNeighbors la i (Fin c) <> Ok l.
Proof.
  intros B Sp Hsp Hc l E. destruct (nd_of_neighbors la B _ _ _ E) as (r & Er & _).
  destruct (nd_inv la B sp Sp Hsp _ _ _ Er) as (x & y & z & n & _ & Hn & Hn0 & _).
  destruct (Rfloor_spec (c / sp)) as [F _]. unfold steps in Hn. subst n. apply IZR_le in Hn0.
  assert (c / sp < 0)%R; [|lra]. apply Rmult_lt_reg_r with sp; [exact Hsp|].
  replace (c / sp * sp)%R with c by (field; lra). lra.
Qed.

(** smallest distance on fixed lattices *)
Theorem smallest_self_wrong : exists (la : @lattice XR) i D, built la /\ l_spacing la = Fin 1 /\
  0 <= i < l_total la /\ l_getSmallestDistance la i i = Ok (Fin D) /\ (0 < D)%R.
Proof.
  exists (mkLat (N := XR) 10 1 1 10 (Fin 1) Periodic Fixed Fixed), 5, (euclid 1 5 0 0 0 0 0).
  split; [unfold built, INT_MAX; simpl; lia|]. split; [reflexivity|]. split; [simpl; lia|]. split.
  - etransitivity; [|apply (getDistance_def (mkLat (N := XR) 10 1 1 10 (Fin 1) Periodic Fixed Fixed) 1 eq_refl); simpl; lia].
    reflexivity.
  - unfold euclid, sq_dist. simpl. rewrite Rmult_1_r. apply sqrt_lt_R0. lra.
Qed.
Theorem smallest_z_wrong : exists (la : @lattice XR) i j D, built la /\ l_spacing la = Fin 1 /\
  i <> j /\ 0 <= i < l_total la /\ 0 <= j < l_total la /\
  l_getSmallestDistance la i j = Ok (Fin D) /\ D = 0%R.
Proof.
  exists (mkLat (N := XR) 1 1 10 10 (Fin 1) Fixed Fixed Periodic), 0, 5, (euclid 1 0 0 0 0 0 0).
  split; [unfold built, INT_MAX; simpl; lia|]. split; [reflexivity|]. split; [lia|]. split; [simpl; lia|]. split; [simpl; lia|]. split.
  - etransitivity; [|apply (getDistance_def (mkLat (N := XR) 1 1 10 10 (Fin 1) Fixed Fixed Periodic) 1 eq_refl); simpl; lia].
    reflexivity.
  - unfold euclid, sq_dist. simpl. rewrite sqrt_0. lra.
Qed.

(** 2 x 2 x 1: the diagonal pair (1,0), (0,1) *)
Theorem table_incomplete (I : Impl) : exists (la : @lattice XR) (c : R) t l, built la /\
  l_xb la = Fixed /\ l_yb la = Fixed /\ l_zb la = Fixed /\
  l_distanceTable la (Fin c) = Ok t /\ l_getNeighbors la 1 (Fin c) = Ok l /\
  In 2 l /\ tab_get t 1 2 = None.
Proof.
  set (la := mkLat (N := XR) 2 2 1 4 (Fin 1) Fixed Fixed Fixed).
  assert (B : built la) by (unfold built, INT_MAX; simpl; lia).
  destruct (table_def la B 1 eq_refl Rlt_0_1 2) as [t Et]; try lra; try (simpl; unfold INT_MAX; lia).
  destruct (neighbors_returns la 1 1 2 B eq_refl Rlt_0_1) as (r & _ & El); try lra; try (simpl; unfold INT_MAX; lia).
  exists la, 2%R, t, (map fst r). split; [exact B|]. do 3 (split; [reflexivity|]).
  split; [exact Et|split; [exact El|]].
  assert (P1 : at_pos 2 2 1 1 1 0 0) by (repeat split; lia).
  assert (P2 : at_pos 2 2 1 2 0 1 0) by (repeat split; lia).
  split.
  - destruct (fixed_neighbors la B 1 eq_refl Rlt_0_1 eq_refl eq_refl eq_refl _ _ _ El) as (_ & _ & A).
    apply A. split; [lia|]. exists (euclid 1 1 0 0 0 1 0). split; [exists 1, 0, 0, 0, 1, 0; auto|].
    unfold euclid, sq_dist; simpl. rewrite Rmult_1_r. rewrite <- (sqrt_square 2) at 2 by lra.
    apply sqrt_le_1_alt. lra.
  - rewrite (table_exact la B 1 eq_refl Rlt_0_1 2 t 1 2 1 0 0 0 1 0) by (auto; lia). simpl.
    destruct (Rle_dec _ _); reflexivity.
Qed.
