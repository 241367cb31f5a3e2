(** * The entries of the table are among those of the neighbour lists *)
From Coq Require Import ZArith List Bool Reals Lia Lra Sorted.
From Verif Require Import Base BaseProofs Num OrdLaws LatticeModel LatticeSpec LatticeProofs LatticeReal LatticeTable ImageSpec LatticeImages TableImages.
Import ListNotations.
Open Scope Z_scope.

Section TabR.
Context {I : Impl}.
Variable la : @lattice XR.
Hypothesis B : built la.
Variable sp : R.
Hypothesis Sp : l_spacing la = Fin sp.
Hypothesis Hsp : (0 < sp)%R.
Notation L := (l_len la).
Notation W := (l_wid la).
Notation Ht := (l_hei la).
Notation T := (L * W * Ht).
Notation iat := (image_at L W Ht (l_xb la) (l_yb la) (l_zb la) sp).
Notation low := (near_below L W Ht (l_xb la) (l_yb la) (l_zb la)).
Notation below_ c := (image_below L W Ht (l_xb la) (l_yb la) (l_zb la) sp c).

Lemma image_listed i c r j p D : l_getNeighborDistances la i (Fin c) = Ok r ->
  j <> i -> low p -> (D <= c)%R -> iat i j p D -> In (j, Fin D) r.
Proof.
  intros E Hne Hl Hle Hp. destruct (nd_images la B sp Sp Hsp _ _ _ E) as (ps & _ & F & In_).
  assert (Hin : In p ps) by (apply In_; split; [exact Hl|]; exists j, D; auto).
  destruct (Forall2_In_l _ _ _ _ F Hin) as ([j' d] & He & D' & Ed & Hp'). simpl in *. subst d.
  destruct (image_site la B sp _ _ _ _ _ _ Hp Hp') as [<- <-]. exact He.
Qed.

(** an image of [i] below [j] is an image of [j] above [i] *)
Lemma below_flip c i j p D : below_ c j i p D -> exists q, low q /\ iat i j q D.
Proof.
  destruct p as [[X Y] Z].
  intros ((x1 & y1 & z1 & x2 & y2 & z2 & P1 & P2 & IX & IY & IZ & ->) & _ & _ & x & y & z & P3 & Q1 & Q2 & Q3).
  destruct (at_pos_unique la _ _ _ _ _ _ _ P1 P3) as (<- & <- & <-).
  destruct (image_flip _ _ _ x1 _ IX) as (X' & JX & EX).
  destruct (image_flip _ _ _ y1 _ IY) as (Y' & JY & EY).
  destruct (image_flip _ _ _ z1 _ IZ) as (Z' & JZ & EZ).
  destruct (sizes la B) as (SL & SW & SH & _). assert (P2' := P2). destruct P2' as (A1 & A2 & A3 & _).
  exists (X', Y', Z'). split; [unfold near_below; split; [|split]; intros _; lia|].
  exists x2, y2, z2, x1, y1, z1. do 5 (split; [assumption|]).
  unfold euclid, sq_dist. rewrite EX, EY, EZ. do 3 f_equal. ring.
Qed.

Theorem table_listed c t i j d r : l_distanceTable la (Fin c) = Ok t -> 0 <= i < T -> 0 <= j < T ->
  tab_get t i j = Some d -> l_getNeighborDistances la i (Fin c) = Ok r -> In (j, d) r.
Proof.
  intros E Hi Hj Hg Er.
  destruct (table_sound la B sp Sp Hsp _ _ _ _ _ E Hg) as [Hne _].
  assert (Q : exists p D, d = Fin D /\ (below_ c i j p D \/ below_ c j i p D)).
  { destruct (Z_lt_le_dec i j) as [Hlt|Hle].
    - apply (table_any la B sp Sp Hsp c t i j E) in Hg; [|lia|lia|lia].
      destruct Hg as (p & D & -> & [[Q _]|[_ [Q _]]]); exists p, D; auto.
    - rewrite (table_symmetric la _ _ i j E) in Hg.
      apply (table_any la B sp Sp Hsp c t j i E) in Hg; [|lia|lia|lia].
      destruct Hg as (p & D & -> & [[Q _]|[_ [Q _]]]); exists p, D; auto. }
  destruct Q as (p & D & -> & [Q|Q]).
  - destruct Q as (Q1 & Q2 & Q3 & _). eapply image_listed; eauto.
  - destruct (below_flip _ _ _ _ _ Q) as (q & Hl & Hq). destruct Q as (_ & _ & Q3 & _). eapply image_listed; eauto.
Qed.
End TabR.
