(** * One entry of the neighbour list per visited image *)
From Coq Require Import ZArith List Bool Reals Lia Lra Sorted.
From Verif Require Import Base BaseProofs Num OrdLaws LatticeModel LatticeSpec LatticeProofs LatticeReal ImageSpec.
Import ListNotations.
Open Scope Z_scope.

Lemma sorted_app {A} (lt : A -> A -> Prop) l1 l2 : StronglySorted lt l1 -> StronglySorted lt l2 ->
  (forall a b, In a l1 -> In b l2 -> lt a b) -> StronglySorted lt (l1 ++ l2).
Proof.
  induction l1 as [|a l1 IH]; simpl; intros S1 S2 C; [exact S2|].
  inversion S1; subst. constructor.
  - apply IH; auto.
  - apply Forall_forall. intros b Hb. apply in_app_iff in Hb. destruct Hb as [Hb|Hb]; [|auto].
    rewrite Forall_forall in H2. auto.
Qed.

Lemma Forall2_weaken {A C} (R Q : A -> C -> Prop) l r : (forall a b, R a b -> Q a b) -> Forall2 R l r -> Forall2 Q l r.
Proof. intros Hw. induction 1; constructor; auto. Qed.

Lemma zseq_sorted lo n : StronglySorted Z.lt (zseq lo n).
Proof.
  revert lo. induction n as [|n IH]; intros lo; simpl; constructor; [apply IH|].
  apply Forall_forall. intros v Hv. 
  assert (G : forall m lo' w, In w (zseq lo' m) -> lo' <= w).
  { induction m as [|m IHm]; intros lo' w; simpl; [tauto|]. intros [->|Hw]; [lia|]. apply IHm in Hw. lia. }
  apply G in Hv. lia.
Qed.

(** a loop whose body yields one entry per point of a sorted list of points
    yields one entry per point of the joined list *)
Lemma rflat_points {A P} (R : P -> A -> Prop) (lt : P -> P -> Prop) (T : Z -> P -> Prop) l f r :
  rflat l f = Ok r -> StronglySorted Z.lt l ->
  (forall v b, In v l -> f v = Ok b ->
     exists ps, Forall2 R ps b /\ StronglySorted lt ps /\ forall p, In p ps <-> T v p) ->
  (forall v v' p p', v < v' -> T v p -> T v' p' -> lt p p') ->
  exists ps, Forall2 R ps r /\ StronglySorted lt ps /\ forall p, In p ps <-> exists v, In v l /\ T v p.
Proof.
  intros E S Hb Hlt. revert r E S Hb. induction l as [|v l IH]; intros r E S Hb; simpl in E.
  - inversion E. exists []. split; [constructor|]. split; [constructor|]. intros p; simpl. split; [tauto|].
    intros (v & [] & _).
  - destruct (f v) as [b| |] eqn:Ev; simpl in E; try discriminate.
    destruct (rflat l f) as [r'| |] eqn:Er; simpl in E; try discriminate.
    inversion E; subst. inversion S as [|? ? S1 S2]; subst.
    destruct (Hb v b (or_introl eq_refl) Ev) as (ps1 & A1 & A2 & A3).
    destruct (IH r' eq_refl S1) as (ps2 & B1 & B2 & B3).
    { intros w b' Hw. apply Hb. right; exact Hw. }
    exists (ps1 ++ ps2). split; [apply Forall2_app; assumption|]. split.
    + apply sorted_app; auto. intros p q Hp Hq. apply A3 in Hp. apply B3 in Hq.
      destruct Hq as (w & Hw & Hq). rewrite Forall_forall in S2. eapply Hlt; [apply S2; exact Hw|exact Hp|exact Hq].
    + intros p. rewrite in_app_iff, A3, B3. simpl. split.
      * intros [Hp|(w & Hw & Hp)]; [exists v; auto|exists w; auto].
      * intros (w & [<-|Hw] & Hp); [auto|right; eauto].
Qed.

Lemma rloop_points {A P} (R : P -> A -> Prop) (lt : P -> P -> Prop) (T : Z -> P -> Prop) lo hi f r :
  rloop lo hi f = Ok r ->
  (forall v b, lo <= v <= hi -> f v = Ok b ->
     exists ps, Forall2 R ps b /\ StronglySorted lt ps /\ forall p, In p ps <-> T v p) ->
  (forall v v' p p', v < v' -> T v p -> T v' p' -> lt p p') ->
  exists ps, Forall2 R ps r /\ StronglySorted lt ps /\ forall p, In p ps <-> exists v, lo <= v <= hi /\ T v p.
Proof.
  unfold rloop. intros E Hb Hlt. destruct (rflat (zrange lo hi) f) as [r'| |] eqn:Er; simpl in E; try discriminate.
  assert (r' = r). { destruct (lo <=? hi); [|congruence]. destruct (chk (hi + 1)); simpl in E; congruence. }
  subst. destruct (rflat_points R lt T _ _ _ Er (zseq_sorted _ _)) as (ps & A1 & A2 & A3); [|exact Hlt|].
  - intros v b Hv. apply Hb. apply zrange_In; exact Hv.
  - exists ps. split; [exact A1|]. split; [exact A2|]. intros p. rewrite A3.
    split; intros (v & Hv & Hp); exists v; (split; [apply zrange_In in Hv || apply zrange_In; exact Hv|exact Hp]).
Qed.

Section G.
Context {N : Num}.
Variable la : lattice.
Hypothesis B : built la.
Notation L := (l_len la).
Notation W := (l_wid la).
Notation Ht := (l_hei la).

Definition vis index x y z cutoff (p : Z * Z * Z) (e : Z * num) : Prop :=
  let '(X, Y, Z) := p in visit la index x y z cutoff X Y Z (fst e) (snd e).

Lemma nil_points {P A} (R : P -> A -> Prop) lt (T : P -> Prop) : (forall p, ~ T p) ->
  exists ps, Forall2 R ps [] /\ StronglySorted lt ps /\ forall p, In p ps <-> T p.
Proof.
  intros Hn. exists []. split; [constructor|]. split; [constructor|]. intros p; simpl. split; [tauto|apply Hn].
Qed.

Lemma box_points index x y z xlo xhi ylo yhi zlo zhi cutoff r :
  l_box la index x y z xlo xhi ylo yhi zlo zhi cutoff = Ok r ->
  exists ps, Forall2 (vis index x y z cutoff) ps r /\ StronglySorted before ps /\
    forall X Y Z, In (X, Y, Z) ps <->
      xlo <= X <= xhi /\ ylo <= Y <= yhi /\ zlo <= Z <= zhi /\ exists n d, visit la index x y z cutoff X Y Z n d.
Proof.
  unfold l_box. intros E.
  destruct (rloop_points (vis index x y z cutoff) before
    (fun X p => exists Y Z, p = (X, Y, Z) /\ ylo <= Y <= yhi /\ zlo <= Z <= zhi /\
       exists n d, visit la index x y z cutoff X Y Z n d) _ _ _ _ E) as (ps & A1 & A2 & A3).
  3: { exists ps. split; [exact A1|]. split; [exact A2|]. intros X Y Z. rewrite A3. split.
       - intros (v & Hv & Y0 & Z0 & Ep & R). inversion Ep; subst. tauto.
       - intros (HX & HY & HZ & R). exists X. split; [exact HX|]. exists Y, Z. auto. }
  2: { intros v v' p p' Hlt (Y & Z & -> & _) (Y' & Z' & -> & _). unfold before. lia. }
  intros X b HX Eb. 
  destruct (l_wrap (l_xb la) X L) as [xp| |] eqn:Ex; simpl in Eb; try discriminate.
  destruct (in_size xp L) eqn:Sx.
  2: { inversion Eb; subst. apply nil_points. intros p (Y & Z & _ & _ & _ & n & d & (xp' & yp & zp & E1 & E2 & _)).
       rewrite Ex in E1. inversion E1; subst. apply in_size_iff in E2. congruence. }
  apply in_size_iff in Sx.
  destruct (rloop_points (vis index x y z cutoff) before
    (fun Y p => exists Z, p = (X, Y, Z) /\ zlo <= Z <= zhi /\
       exists n d, visit la index x y z cutoff X Y Z n d) _ _ _ _ Eb) as (qs & B1 & B2 & B3).
  3: { exists qs. split; [exact B1|]. split; [exact B2|]. intros p. rewrite B3. split.
       - intros (Y & HY & Z & Ep & R). exists Y, Z. tauto.
       - intros (Y & Z & Ep & HY & R). exists Y. split; [exact HY|]. exists Z. tauto. }
  2: { intros v v' p p' Hlt (Z & -> & _) (Z' & -> & _). unfold before. lia. }
  clear E Eb. intros Y b' HY Eb.
  destruct (l_wrap (l_yb la) Y W) as [yp| |] eqn:Ey; simpl in Eb; try discriminate.
  destruct (in_size yp W) eqn:Sy.
  2: { inversion Eb; subst. apply nil_points. intros p (Z & _ & _ & n & d & (xp' & yp' & zp & _ & _ & E1 & E2 & _)).
       rewrite Ey in E1. inversion E1; subst. apply in_size_iff in E2. congruence. }
  apply in_size_iff in Sy.
  destruct (rloop_points (vis index x y z cutoff) before
    (fun Z p => p = (X, Y, Z) /\ exists n d, visit la index x y z cutoff X Y Z n d) _ _ _ _ Eb) as (qs & B1 & B2 & B3).
  3: { exists qs. split; [exact B1|]. split; [exact B2|]. intros p. rewrite B3. split.
       - intros (Z & HZ & Ep & R). exists Z. tauto.
       - intros (Z & Ep & HZ & R). exists Z. tauto. }
  2: { intros v v' p p' Hlt (-> & _) (-> & _). unfold before. lia. }
  clear Eb. intros Z b'' HZ Eb.
  change (z_body la index x y z cutoff xp yp X Y Z = Ok b'') in Eb.
  assert (In_ : forall n d, In (n, d) b'' <-> visit la index x y z cutoff X Y Z n d).
  { intros n d. rewrite (z_body_In la B _ _ _ _ _ _ _ _ _ _ _ _ _ Sx Sy Eb). split.
    - intros (zp & R). exists xp, yp, zp. tauto.
    - intros (xp' & yp' & zp & E1 & _ & E2 & _ & R). rewrite Ex in E1. rewrite Ey in E2. inversion E1; inversion E2; subst.
      exists zp. tauto. }
  assert (Len : b'' = [] \/ exists e, b'' = [e]).
  { unfold z_body in Eb. destruct (l_wrap (l_zb la) Z Ht) as [zp| |]; simpl in Eb; try discriminate.
    destruct (in_size zp Ht); [|inversion Eb; auto].
    destruct (l_getDistance_ la X Y Z x y z) as [d0| |]; simpl in Eb; try discriminate.
    destruct (nleb d0 cutoff); [|inversion Eb; auto].
    destruct (l_getIndex_ la xp yp zp) as [m| |]; simpl in Eb; try discriminate.
    destruct (negb (m =? index)); inversion Eb; eauto. }
  destruct Len as [->|[[n d] ->]].
  - apply nil_points. intros p (_ & n & d & V). apply In_ in V. destruct V.
  - exists [(X, Y, Z)]. split; [|split].
    + constructor; [|constructor]. simpl. apply In_. left; reflexivity.
    + constructor; constructor.
    + intros p. simpl. split.
      * intros [<-|[]]. split; [reflexivity|]. exists n, d. apply In_. left; reflexivity.
      * intros (-> & _). auto.
Qed.

Lemma wrap_low b v size p : 0 < size -> l_wrap b v size = Ok p -> 0 <= p -> b = Periodic -> - size <= v.
Proof.
  intros Hs E Hp ->. simpl in E. unfold l_periodic in E. destruct (Z.ltb_spec v 0); [|lia].
  apply chk_inv in E. destruct E as [<- _]. lia.
Qed.
End G.

Section P.
Variable la : @lattice XR.
Hypothesis B : built la.
Variable sp : R.
Hypothesis Sp : l_spacing la = Fin sp.
Hypothesis Hsp : (0 < sp)%R.
Notation L := (l_len la).
Notation W := (l_wid la).
Notation Ht := (l_hei la).
Notation iat := (image_at L W Ht (l_xb la) (l_yb la) (l_zb la) sp).
Notation low := (near_below L W Ht (l_xb la) (l_yb la) (l_zb la)).

Lemma visit_image i c x y z X Y Z n d : at_pos L W Ht i x y z ->
  visit la i x y z (Fin c) X Y Z n d ->
  n <> i /\ low (X, Y, Z) /\ exists D, d = Fin D /\ (D <= c)%R /\ iat i n (X, Y, Z) D.
Proof.
  intros P (xp & yp & zp & W1 & R1 & W2 & R2 & W3 & R3 & Ed & Ele & En & Ene).
  destruct (sizes la B) as (SL & SW & SH & _).
  split; [exact Ene|]. split.
  { split; [|split]; intros Q; eapply wrap_low; try eassumption; lia. }
  apply (getDistance_ok la sp Sp) in Ed. subst d. eexists; split; [reflexivity|].
  split; [apply xleb_Fin; exact Ele|].
  exists x, y, z, xp, yp, zp. apply wrap_image in W1, W2, W3; try assumption.
  split; [exact P|]. split; [repeat split; try lia; exact En|]. auto.
Qed.

Lemma image_site i j j' p D D' : iat i j p D -> iat i j' p D' -> j = j' /\ D = D'.
Proof.
  destruct p as [[X Y] Z]. destruct (sizes la B) as (SL & SW & SH & _).
  intros (x1 & y1 & z1 & x2 & y2 & z2 & P1 & P2 & IX & IY & IZ & ->)
    (a1 & b1 & c1 & a2 & b2 & c2 & Q1 & Q2 & JX & JY & JZ & ->).
  destruct (at_pos_unique la _ _ _ _ _ _ _ P1 Q1) as (<- & <- & <-).
  destruct P2 as (A1 & A2 & A3 & ->), Q2 as (C1 & C2 & C3 & ->).
  apply image_mod in IX, IY, IZ, JX, JY, JZ; try assumption. subst. auto.
Qed.

Lemma box_images i c x y z xlo xhi ylo yhi zlo zhi r : at_pos L W Ht i x y z ->
  INT_MIN <= xlo -> xhi <= INT_MAX -> INT_MIN <= ylo -> yhi <= INT_MAX -> INT_MIN <= zlo -> zhi <= INT_MAX ->
  l_box la i x y z xlo xhi ylo yhi zlo zhi (Fin c) = Ok r ->
  exists ps, StronglySorted before ps /\
    Forall2 (fun p e => exists D, snd e = Fin D /\ iat i (fst e) p D) ps r /\
    forall X Y Z, In (X, Y, Z) ps <-> (xlo <= X <= xhi /\ ylo <= Y <= yhi /\ zlo <= Z <= zhi) /\
      low (X, Y, Z) /\ exists j D, j <> i /\ (D <= c)%R /\ iat i j (X, Y, Z) D.
Proof.
  intros P I1 I2 I3 I4 I5 I6 Eb.
  destruct (sizes la B) as (SL & SW & SH & S1 & S2 & S3 & S4 & S5 & S6).
  destruct (box_points la B _ _ _ _ _ _ _ _ _ _ _ _ Eb) as (ps & A1 & A2 & A3).
  exists ps. split; [exact A2|]. split.
  { eapply Forall2_weaken; [|exact A1]. intros [[X Y] Z] [m d] V. simpl in *.
    destruct (visit_image _ _ _ _ _ _ _ _ _ _ P V) as (_ & _ & D & -> & _ & V'). exists D. split; [reflexivity|exact V']. }
  intros X Y Z. rewrite A3. split.
  - intros (H1 & H2 & H3 & m & d & V). destruct (visit_image _ _ _ _ _ _ _ _ _ _ P V) as (V1 & V2 & D & _ & V3 & V4).
    split; [auto|]. split; [exact V2|]. exists m, D. auto.
  - intros ((VX & VY & VZ) & (L1 & L2 & L3) & j & D & Hne & Hle & (x1 & y1 & z1 & x2 & y2 & z2 & P1 & P2 & IX & IY & IZ & ->)).
    destruct (at_pos_unique la _ _ _ _ _ _ _ P P1) as (<- & <- & <-).
    assert (P2' := P2). destruct P2' as (Qx & Qy & Qz & Qj).
    assert (Lo : forall b size q v, 0 < size -> 0 <= q < size -> image b size q v -> (b = Periodic -> - size <= v) -> - size <= v).
    { intros [] size q v Hs Hq Hi Hl; [simpl in Hi; lia|auto]. }
    assert (WX : l_wrap (l_xb la) X L = Ok x2) by (apply image_wrap; auto; try lia; eapply Lo; eauto).
    assert (WY : l_wrap (l_yb la) Y W = Ok y2) by (apply image_wrap; auto; try lia; eapply Lo; eauto).
    assert (WZ : l_wrap (l_zb la) Z Ht = Ok z2) by (apply image_wrap; auto; try lia; eapply Lo; eauto).
    do 3 (split; [assumption|]). exists j, (Fin (euclid sp X Y Z x y z)), x2, y2, z2.
    assert (Ed : l_getDistance_ la X Y Z x y z = Ok (Fin (euclid sp X Y Z x y z))).
    { unfold l_box in Eb. destruct (rloop_ok _ _ _ _ Eb) as [B1 _]. destruct (B1 X VX) as [b1 E1].
      rewrite WX in E1. cbn [rbind] in E1. rewrite (proj2 (in_size_iff x2 L) Qx) in E1.
      destruct (rloop_ok _ _ _ _ E1) as [B2 _]. destruct (B2 Y VY) as [b2 E2].
      rewrite WY in E2. cbn [rbind] in E2. rewrite (proj2 (in_size_iff y2 W) Qy) in E2.
      destruct (rloop_ok _ _ _ _ E2) as [B3 _]. destruct (B3 Z VZ) as [b3 E3].
      rewrite WZ in E3. cbn [rbind] in E3. rewrite (proj2 (in_size_iff z2 Ht) Qz) in E3.
      apply rbind_ok_inv in E3. destruct E3 as (d & Ed & _). rewrite Ed. f_equal.
      apply (getDistance_ok la sp Sp); exact Ed. }
    repeat (split; [assumption|]). split; [apply xleb_Fin; exact Hle|]. auto.
Qed.

(** an image within the cutoff lies in the box of the search *)
Lemma image_in_box i c j x y z X Y Z D : at_pos L W Ht i x y z -> iat i j (X, Y, Z) D -> (D <= c)%R ->
  x - steps sp c <= X <= x + steps sp c /\ y - steps sp c <= Y <= y + steps sp c /\ z - steps sp c <= Z <= z + steps sp c.
Proof.
  intros P (x1 & y1 & z1 & x2 & y2 & z2 & P1 & _ & _ & _ & _ & ->) Hle.
  destruct (at_pos_unique la _ _ _ _ _ _ _ P P1) as (<- & <- & <-).
  destruct (euclid_coord sp c _ _ _ _ _ _ Hsp Hle) as (C1 & C2 & C3). lia.
Qed.

Theorem nd_images i c r : l_getNeighborDistances la i (Fin c) = Ok r ->
  exists ps, StronglySorted before ps /\
    Forall2 (fun p e => exists D, snd e = Fin D /\ iat i (fst e) p D) ps r /\
    forall p, In p ps <-> low p /\ exists j D, j <> i /\ (D <= c)%R /\ iat i j p D.
Proof.
  intros E.
  destruct (nd_inv la B sp Sp Hsp _ _ _ E) as (x & y & z & n & P & Hn & Hn0 & I1 & I2 & I3 & I4 & I5 & I6 & Eb & _).
  destruct (box_images _ _ _ _ _ _ _ _ _ _ _ _ P I1 I2 I3 I4 I5 I6 Eb) as (ps & A1 & A2 & A3).
  exists ps. split; [exact A1|]. split; [exact A2|]. intros [[X Y] Z]. rewrite A3. split; [tauto|].
  intros (Hl & j & D & Hne & Hle & Hi). subst n. split; [exact (image_in_box _ _ _ _ _ _ _ _ _ _ P Hi Hle)|].
  split; [exact Hl|]. exists j, D. auto.
Qed.

Lemma sorted_NoDup ps : StronglySorted before ps -> NoDup ps.
Proof.
  induction 1 as [|p ps S IH F]; constructor; [|exact IH]. intros Hin. rewrite Forall_forall in F.
  specialize (F p Hin). destruct p as [[X Y] Z]. unfold before in F. lia.
Qed.

Lemma Forall2_In_l {A C} (R : A -> C -> Prop) l r a : Forall2 R l r -> In a l -> exists b, In b r /\ R a b.
Proof. induction 1; simpl; [tauto|]. intros [<-|Hin]; [eauto|]. destruct (IHForall2 Hin) as (b & ? & ?). eauto. Qed.
Lemma Forall2_In_r {A C} (R : A -> C -> Prop) l r b : Forall2 R l r -> In b r -> exists a, In a l /\ R a b.
Proof. induction 1; simpl; [tauto|]. intros [<-|Hin]; [eauto|]. destruct (IHForall2 Hin) as (a & ? & ?). eauto. Qed.

(** the names along two lists tied by a functional relation repeat exactly if
    two different points have the same name *)
Lemma NoDup_names {A C K} (g : C -> K) (Q : A -> K -> Prop) l r :
  (forall a k k', Q a k -> Q a k' -> k = k') -> NoDup l -> Forall2 (fun a b => Q a (g b)) l r ->
  NoDup (map g r) <-> (forall a a' k, In a l -> In a' l -> Q a k -> Q a' k -> a = a').
Proof.
  intros Fn ND F. induction F as [|a b l r Hab F IH]; simpl.
  - split; [tauto|constructor].
  - inversion ND as [|? ? N1 N2]; subst. specialize (IH N2). split.
    + intros Hn. inversion Hn as [|? ? M1 M2]; subst.
      assert (Z0 : forall a' k, In a' l -> Q a k -> Q a' k -> False).
      { intros a' k Hin Q1 Q2. apply M1. rewrite (Fn _ _ _ Hab Q1).
        destruct (Forall2_In_l _ _ _ _ F Hin) as (b' & Hb & Qb). apply in_map_iff. exists b'.
        split; [apply (Fn _ _ _ Qb Q2)|exact Hb]. }
      intros p q k [<-|Hp] [<-|Hq] Q1 Q2; auto.
      * exfalso; eapply Z0; eauto.
      * exfalso; eapply Z0; eauto.
      * eapply (proj1 IH); eauto.
    + intros Hi. constructor.
      * intros Hin. apply in_map_iff in Hin. destruct Hin as (b' & Eb & Hin).
        destruct (Forall2_In_r _ _ _ _ F Hin) as (a' & Ha & Qa). rewrite Eb in Qa.
        assert (a = a') by (eapply Hi; eauto). subst. contradiction.
      * apply IH. intros p q k Hp Hq. apply Hi; auto.
Qed.

Theorem neighbors_NoDup_iff i c l : l_getNeighbors la i (Fin c) = Ok l ->
  (NoDup l <-> forall j p q D D', j <> i -> low p -> low q -> (D <= c)%R -> (D' <= c)%R ->
     iat i j p D -> iat i j q D' -> p = q).
Proof.
  intros E. destruct (nd_of_neighbors la B _ _ _ E) as (r & Er & ->).
  destruct (nd_images _ _ _ Er) as (ps & S & F & In_).
  rewrite (NoDup_names fst (fun p j => exists D, iat i j p D) ps r).
  - split.
    + intros Hi j p q D D' Hne Lp Lq Hp Hq Ip Iq. apply (Hi p q j); try (apply In_; split; [assumption|]; eauto); eauto.
    + intros Hi p q j Hp Hq (D & Ip) (D' & Iq). apply In_ in Hp, Hq.
      destruct Hp as (Lp & j1 & D1 & N1 & C1 & K1), Hq as (Lq & j2 & D2 & N2 & C2 & K2).
      destruct (image_site _ _ _ _ _ _ Ip K1) as [<- <-]. destruct (image_site _ _ _ _ _ _ Iq K2) as [<- <-].
      exact (Hi j p q D D' N1 Lp Lq C1 C2 Ip Iq).
  - intros p j j' (D & I1) (D' & I2). apply (image_site _ _ _ _ _ _ I1 I2).
  - apply sorted_NoDup; exact S.
  - eapply Forall2_weaken; [|exact F]. intros p e (D & _ & K). eauto.
Qed.
End P.
