(** * The table of distances on any lattice *)
From Coq Require Import ZArith List Bool Reals Lia Lra Sorted.
From Verif Require Import Base BaseProofs Num OrdLaws LatticeModel LatticeSpec LatticeProofs LatticeReal LatticeTable ImageSpec LatticeImages.
Import ListNotations.
Open Scope Z_scope.

Section Tab.
Context {I : Impl} {N : Num}.

(** the last entry of [vs] for site [n], if any *)
Definition lastw (n : Z) (vs : list (Z * num)) (o : option num) : option num :=
  fold_left (fun o v => if fst v =? n then Some (snd v) else o) vs o.

Lemma fold_get index vs : forall m, tab_wf m ->
  let m' := fold_left (tab_put index) vs m in
  tab_wf m' /\ forall i j, i <> j -> tab_get m' i j =
    if i =? index then lastw j vs (tab_get m i j)
    else if j =? index then lastw i vs (tab_get m i j) else tab_get m i j.
Proof.
  induction vs as [|[n d] vs IH]; intros m Wf; simpl.
  - split; [exact Wf|]. intros i j _. destruct (i =? index), (j =? index); reflexivity.
  - destruct (tab_put_get index m n d Wf) as [W1 G1].
    destruct (IH (tab_put index m (n, d)) W1) as [W2 G2]. split; [exact W2|].
    intros i j Hne. rewrite (G2 i j Hne), (G1 i j). rewrite (Z.eqb_sym n j), (Z.eqb_sym n i).
    destruct (Z.eqb_spec i index), (Z.eqb_spec j index); simpl; try congruence.
    + destruct (Z.eqb_spec j n); simpl; [reflexivity|]. rewrite andb_false_r. reflexivity.
    + destruct (Z.eqb_spec i n); simpl; reflexivity.
    + rewrite andb_false_r. reflexivity.
Qed.

Variable la : @lattice N.

Lemma table_app l1 : forall l2 c m t, l_table_from la (l1 ++ l2) c m = Ok t ->
  exists m', l_table_from la l1 c m = Ok m' /\ l_table_from la l2 c m' = Ok t.
Proof.
  induction l1 as [|x l1 IH]; intros l2 c m t E; simpl in *; [eauto|].
  destruct (l_visits la x c) as [vs| |]; simpl in *; try discriminate. apply IH; exact E.
Qed.

Lemma table_skip l c i j : i <> j -> ~ In i l -> ~ In j l -> forall m t, tab_wf m -> l_table_from la l c m = Ok t ->
  tab_wf t /\ tab_get t i j = tab_get m i j.
Proof.
  intros Hne. induction l as [|x l IH]; simpl; intros Hi Hj m t Wf E; [inversion E; subst; auto|].
  destruct (l_visits la x c) as [vs| |]; simpl in *; try discriminate.
  destruct (fold_get x vs m Wf) as [W1 G1].
  destruct (IH ltac:(tauto) ltac:(tauto) _ _ W1 E) as [W2 G2]. split; [exact W2|]. rewrite G2.
  change (fun m v => tab_set (tab_set m (fst v) x (snd v)) x (fst v) (snd v)) with (tab_put x).
  rewrite (G1 i j Hne). destruct (Z.eqb_spec i x); [subst; tauto|]. destruct (Z.eqb_spec j x); [subst; tauto|]. reflexivity.
Qed.

Lemma table_one x l c m t : tab_wf m -> l_table_from la (x :: l) c m = Ok t ->
  exists vs m', l_visits la x c = Ok vs /\ tab_wf m' /\ l_table_from la l c m' = Ok t /\
    forall i j, i <> j -> tab_get m' i j =
      if i =? x then lastw j vs (tab_get m i j)
      else if j =? x then lastw i vs (tab_get m i j) else tab_get m i j.
Proof.
  intros Wf E. simpl in E. destruct (l_visits la x c) as [vs| |] eqn:Ev; simpl in *; try discriminate.
  destruct (fold_get x vs m Wf) as [W1 G1]. exists vs. eexists. split; [reflexivity|]. split; [exact W1|]. split; [exact E|exact G1].
Qed.

Lemma sorted_split (l : list Z) i j : StronglySorted Z.lt l -> In i l -> In j l -> i < j ->
  exists l1 l2 l3, l = l1 ++ i :: l2 ++ j :: l3 /\
    ~ In i l1 /\ ~ In j l1 /\ ~ In i l2 /\ ~ In j l2 /\ ~ In i l3 /\ ~ In j l3.
Proof.
  intros S Hi Hj Hlt.
  assert (Sp1 : forall (l : list Z) a, StronglySorted Z.lt l -> In a l -> exists l1 l2, l = l1 ++ a :: l2 /\
    (forall b, In b l1 -> b < a) /\ (forall b, In b l2 -> a < b) /\ StronglySorted Z.lt l2).
  { clear. intros l a S. induction S as [|x l S IH F]; simpl; [tauto|]. rewrite Forall_forall in F. intros [->|Hin].
    - exists [], l. simpl. split; [reflexivity|]. split; [tauto|]. split; [exact F|exact S].
    - destruct (IH Hin) as (l1 & l2 & -> & A1 & A2 & A3). exists (x :: l1), l2. simpl. split; [reflexivity|].
      split; [|auto]. intros b [<-|Hb]; [apply F; exact Hin|auto]. }
  destruct (Sp1 l i S Hi) as (l1 & r & -> & A1 & A2 & A3).
  assert (Hr : In j r).
  { apply in_app_iff in Hj. destruct Hj as [Hj|[Hj|Hj]]; [apply A1 in Hj; lia|lia|exact Hj]. }
  destruct (Sp1 r j A3 Hr) as (l2 & l3 & -> & B1 & B2 & _).
  exists l1, l2, l3. split; [reflexivity|].
  assert (K2 : forall b, In b l2 -> i < b) by (intros b Hb; apply A2, in_app_iff; auto).
  assert (K3 : forall b, In b l3 -> i < b) by (intros b Hb; apply A2, in_app_iff; simpl; auto).
  repeat split; intros Hin; try (apply A1 in Hin; lia); try (apply B1 in Hin; lia); try (apply B2 in Hin; lia);
    try (apply K2 in Hin; lia); apply K3 in Hin; lia.
Qed.

(** of two different sites the later one writes last *)
Lemma table_two l c t i j : StronglySorted Z.lt l -> In i l -> In j l -> i < j ->
  l_table_from la l c [] = Ok t ->
  exists vi vj, l_visits la i c = Ok vi /\ l_visits la j c = Ok vj /\
    tab_get t i j = lastw i vj (lastw j vi None).
Proof.
  intros S Hi Hj Hlt E. destruct (sorted_split l i j S Hi Hj Hlt) as (l1 & l2 & l3 & -> & N1 & N2 & N3 & N4 & N5 & N6).
  assert (Hne : i <> j) by lia.
  apply table_app in E. destruct E as (m1 & E1 & E).
  destruct (table_skip l1 c i j Hne N1 N2 _ _ tab_wf_nil E1) as [W1 G1].
  apply table_one in E; [|exact W1]. destruct E as (vi & m2 & Vi & W2 & E & G2).
  apply table_app in E. destruct E as (m3 & E3 & E).
  destruct (table_skip l2 c i j Hne N3 N4 _ _ W2 E3) as [W3 G3].
  apply table_one in E; [|exact W3]. destruct E as (vj & m4 & Vj & W4 & E & G4).
  destruct (table_skip l3 c i j Hne N5 N6 _ _ W4 E) as [_ G5].
  exists vi, vj. split; [exact Vi|]. split; [exact Vj|].
  rewrite G5, (G4 i j Hne), G3, (G2 i j Hne), G1.
  rewrite Z.eqb_refl. destruct (Z.eqb_spec i j); [lia|]. rewrite Z.eqb_refl. reflexivity.
Qed.

Lemma lastw_points {P} (lt : P -> P -> Prop) (R : P -> Z -> num -> Prop) n ps vs :
  Forall2 (fun p e => R p (fst e) (snd e)) ps vs -> StronglySorted lt ps ->
  (forall p a a' d d', R p a d -> R p a' d' -> a = a' /\ d = d') -> forall o,
  (exists p d, In p ps /\ R p n d /\ lastw n vs o = Some d /\
     forall q d', In q ps -> R q n d' -> q = p \/ lt q p) \/
  ((forall p d, In p ps -> ~ R p n d) /\ lastw n vs o = o).
Proof.
  intros F S Fn. induction F as [|p [a d] ps vs Hr F IH]; intros o; simpl.
  - right. split; [tauto|reflexivity].
  - inversion S as [|? ? S1 S2]; subst. rewrite Forall_forall in S2. simpl in Hr.
    destruct (IH S1 (if a =? n then Some d else o)) as [(q & dq & Q1 & Q2 & Q3 & Q4)|[Q1 Q2]].
    + left. exists q, dq. split; [auto|]. split; [exact Q2|]. split; [exact Q3|].
      intros q' d' [<-|Hq] Hr'; [right; apply S2; exact Q1|eauto].
    + unfold lastw in *. simpl. rewrite Q2. destruct (Z.eqb_spec a n) as [->|Hn].
      * left. exists p, d. split; [auto|]. split; [exact Hr|]. split; [reflexivity|].
        intros q' d' [<-|Hq] Hr'; [auto|]. exfalso. eapply Q1; eauto.
      * right. split; [|reflexivity]. intros q' d' [<-|Hq] Hr'; [destruct (Fn _ _ _ _ _ Hr Hr'); congruence|].
        eapply Q1; eauto.
Qed.
End Tab.

Section TabR.
Context {I : Impl}.
Variable la : @lattice XR.
Hypothesis B : built la.
Variable sp : R.
Hypothesis Sp : l_spacing la = Fin sp.
Hypothesis Hsp : (0 < sp)%R.
Notation L := (l_len la).
Notation W := (l_wid la).
Notation Ht := (l_hei la).
Notation T := (L * W * Ht).
Notation iat := (image_at L W Ht (l_xb la) (l_yb la) (l_zb la) sp).
Notation below_ c := (image_below L W Ht (l_xb la) (l_yb la) (l_zb la) sp c).
Notation last_ c := (last_below L W Ht (l_xb la) (l_yb la) (l_zb la) sp c).

Lemma before_anti p q : before p q -> before q p -> False.
Proof. destruct p as [[X Y] Z], q as [[X' Y'] Z']. unfold before. lia. Qed.

(** what one site writes about another *)
Lemma visits_last i n c vs : l_visits la i (Fin c) = Ok vs -> 0 <= i < T -> n <> i -> forall o,
  (exists p D, last_ c i n p D /\ lastw n vs o = Some (Fin D)) \/
  ((forall p D, ~ below_ c i n p D) /\ lastw n vs o = o).
Proof.
  intros E Hi Hne o. destruct (visits_inv la B sp Sp Hsp _ _ _ E Hi) as (x & y & z & P & J1 & J2 & J3 & Eb).
  destruct (sizes la B) as (SL & SW & SH & S1 & S2 & S3 & S4 & S5 & S6).
  assert (P' := P). destruct P' as (Px & Py & Pz & _).
  assert (K1 : x <= INT_MAX) by lia. assert (K2 : y <= INT_MAX) by lia. assert (K3 : z <= INT_MAX) by lia.
  destruct (box_images la B sp Sp i c x y z _ _ _ _ _ _ vs P J1 K1 J2 K2 J3 K3 Eb) as (ps & A1 & A2 & A3).
  assert (In_ : forall p D, iat i n p D -> (In p ps <-> below_ c i n p D)).
  { intros [[X Y] Z] D Hp. rewrite A3. split.
    - intros ((V1 & V2 & V3) & Hl & j & D' & _ & Hle & Hj).
      destruct (image_site la B sp _ _ _ _ _ _ Hp Hj) as [<- <-].
      split; [exact Hp|]. split; [exact Hl|]. split; [exact Hle|]. exists x, y, z. split; [exact P|lia].
    - intros (_ & Hl & Hle & x' & y' & z' & P2 & Q1 & Q2 & Q3).
      destruct (at_pos_unique la _ _ _ _ _ _ _ P P2) as (<- & <- & <-).
      destruct (image_in_box la sp Hsp _ _ _ _ _ _ _ _ _ _ P Hp Hle) as (V1 & V2 & V3).
      split; [lia|]. split; [exact Hl|]. exists n, D. auto. }
  destruct (lastw_points (N := XR) before (fun p a d => exists D, d = Fin D /\ iat i a p D) n ps vs A2 A1) with (o := o)
    as [(p & d & Q1 & (D & -> & Q2) & Q3 & Q4)|[Q1 Q2]].
  - intros p a a' d d' (D & -> & H1) (D' & -> & H2). destruct (image_site la B sp _ _ _ _ _ _ H1 H2) as [<- <-]. auto.
  - left. exists p, D. split; [|exact Q3]. split; [apply In_; assumption|].
    intros q D' Hq. apply (Q4 q (Fin D')); [apply (In_ q D'); [apply Hq|exact Hq]|]. exists D'. split; [reflexivity|apply Hq].
  - right. split; [|exact Q2]. intros p D Hp. apply (Q1 p (Fin D)).
    + apply (In_ p D); [apply Hp|exact Hp].
    + exists D. split; [reflexivity|apply Hp].
Qed.

Lemma last_unique c i j p p' D D' : last_ c i j p D -> last_ c i j p' D' -> D = D'.
Proof.
  intros [A1 A2] [C1 C2]. destruct (C2 _ _ A1) as [->|Q1].
  - apply (image_site la B sp _ _ _ _ _ _ (proj1 A1) (proj1 C1)).
  - destruct (A2 _ _ C1) as [->|Q2]; [|destruct (before_anti _ _ Q1 Q2)].
    apply (image_site la B sp _ _ _ _ _ _ (proj1 A1) (proj1 C1)).
Qed.

Theorem table_any c t i j : l_distanceTable la (Fin c) = Ok t -> 0 <= i -> i < j -> j < T ->
  forall d, tab_get t i j = Some d <-> exists p D, d = Fin D /\
    (last_ c j i p D \/ ((forall q D', ~ below_ c j i q D') /\ last_ c i j p D)).
Proof.
  intros E H0 Hlt HT d. apply table_inv in E.
  assert (Zi : In i (zrange 0 (T - 1))) by (apply zrange_In; lia).
  assert (Zj : In j (zrange 0 (T - 1))) by (apply zrange_In; lia).
  destruct (table_two la _ _ _ i j (zseq_sorted _ _) Zi Zj Hlt E) as (vi & vj & Vi & Vj & G).
  rewrite G. clear G.
  destruct (visits_last j i c vj Vj ltac:(lia) ltac:(lia) (lastw j vi None)) as [(p & D & Hp & ->)|[Hn ->]].
  - split.
    + intros Q; inversion Q; subst. exists p, D. auto.
    + intros (p' & D' & -> & [Hp'|[Hn _]]); [|destruct (Hn _ _ (proj1 Hp))].
      rewrite (last_unique _ _ _ _ _ _ _ Hp Hp'). reflexivity.
  - destruct (visits_last i j c vi Vi ltac:(lia) ltac:(lia) None) as [(p & D & Hp & ->)|[Hn' ->]].
    + split.
      * intros Q; inversion Q; subst. exists p, D. auto.
      * intros (p' & D' & -> & [Hp'|[_ Hp']]); [destruct (Hn _ _ (proj1 Hp'))|].
        rewrite (last_unique _ _ _ _ _ _ _ Hp Hp'). reflexivity.
    + split; [discriminate|]. intros (p' & D' & -> & [Hp'|[_ Hp']]); [destruct (Hn _ _ (proj1 Hp'))|destruct (Hn' _ _ (proj1 Hp'))].
Qed.

Theorem table_present_lt c t i j : l_distanceTable la (Fin c) = Ok t -> 0 <= i -> i < j -> j < T ->
  tab_get t i j <> None <-> exists p D, below_ c i j p D \/ below_ c j i p D.
Proof.
  intros E H0 Hlt HT. pose proof (table_any c t i j E H0 Hlt HT) as A. apply table_inv in E.
  assert (Zi : In i (zrange 0 (T - 1))) by (apply zrange_In; lia).
  assert (Zj : In j (zrange 0 (T - 1))) by (apply zrange_In; lia).
  destruct (table_two la _ _ _ i j (zseq_sorted _ _) Zi Zj Hlt E) as (vi & vj & Vi & Vj & G).
  split.
  - intros Hn. destruct (tab_get t i j) as [d|]; [|congruence]. destruct (proj1 (A d) eq_refl) as (p & D & _ & [[Q _]|[_ [Q _]]]); eauto.
  - intros (p & D & Hb). rewrite G.
    destruct (visits_last j i c vj Vj ltac:(lia) ltac:(lia) (lastw j vi None)) as [(p' & D' & Hp & ->)|[Hn ->]]; [discriminate|].
    destruct (visits_last i j c vi Vi ltac:(lia) ltac:(lia) None) as [(p' & D' & Hp & ->)|[Hn' ->]]; [discriminate|].
    destruct Hb as [Hb|Hb]; [destruct (Hn' _ _ Hb)|destruct (Hn _ _ Hb)].
Qed.

Theorem table_present c t i j : l_distanceTable la (Fin c) = Ok t -> 0 <= i < T -> 0 <= j < T -> i <> j ->
  tab_get t i j <> None <-> exists p D, below_ c i j p D \/ below_ c j i p D.
Proof.
  intros E Hi Hj Hne. destruct (Z_lt_le_dec i j) as [Hlt|Hle].
  - apply table_present_lt; auto; lia.
  - rewrite (table_symmetric la _ _ i j E). rewrite (table_present_lt c t j i E) by lia.
    split; intros (p & D & Q); exists p, D; tauto.
Qed.
End TabR.
