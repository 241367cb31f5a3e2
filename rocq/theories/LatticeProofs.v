(** * Proofs about the cuboid lattice: integer part (any arithmetic) *)
From Coq Require Import ZArith List Bool Lia Permutation Znumtheory.
From Verif Require Import Base BaseProofs Num LatticeModel LatticeSpec.
Import ListNotations.
Open Scope Z_scope.

Ltac chkin := repeat (rewrite chk_ok by (apply in_int_iff; unfold INT_MIN, INT_MAX in *; nia); simpl rbind).

Lemma chk_mul_pos a : 0 <= a <= INT_MAX -> chk a = Ok a.
Proof. intros. apply chk_ok, in_int_iff. unfold INT_MIN, INT_MAX in *; lia. Qed.

Section P.
Context {N : Num}.

Lemma new_built L W H sp xb yb zb : 0 < L -> 0 < W -> 0 < H -> L * W * H <= INT_MAX ->
  exists la, l_new L W H sp xb yb zb = Ok la /\ built la /\
    l_len la = L /\ l_wid la = W /\ l_hei la = H /\ l_spacing la = sp /\
    l_xb la = xb /\ l_yb la = yb /\ l_zb la = zb.
Proof.
  intros HL HW HH HT. unfold l_new.
  assert (L * W <= L * W * H) by nia.
  rewrite (chk_mul_pos (L * W)) by nia. simpl.
  rewrite (chk_mul_pos (L * W * H)) by nia. simpl.
  unfold check_bounds.
  destruct (Z.ltb_spec L 0); [lia|]. destruct (Z.ltb_spec W 0); [lia|].
  destruct (Z.ltb_spec H 0); [lia|]. simpl.
  eexists; split; [reflexivity|]. unfold built; simpl. repeat split; auto.
Qed.

Variable la : lattice.
Hypothesis B : built la.
Notation L := (l_len la).
Notation W := (l_wid la).
Notation Ht := (l_hei la).

Lemma sizes : 0 < L /\ 0 < W /\ 0 < Ht /\ 0 < L * W /\ L * W <= L * W * Ht /\
  L * W * Ht <= INT_MAX /\ L <= L * W /\ Ht <= L * W * Ht /\ W <= L * W.
Proof.
  destruct B as (A1 & A2 & A3 & A4 & A5).
  assert (0 < L * W) by (apply Z.mul_pos_pos; lia).
  assert (L * W <= L * W * Ht) by nia. assert (Ht <= L * W * Ht) by nia.
  repeat split; try assumption; nia.
Qed.

Lemma index_ok x y z : 0 <= x < L -> 0 <= y < W -> 0 <= z < Ht ->
  l_getIndex_ la x y z = Ok (x + L * (y + W * z)) /\ 0 <= x + L * (y + W * z) < L * W * Ht.
Proof.
  intros Hx Hy Hz. destruct sizes as (A1 & A2 & A3 & A4 & A5 & A6 & A7 & A8 & A9).
  assert (E1 : 0 <= z * L <= z * L * W) by nia.
  assert (E2 : z * L * W <= L * W * Ht - L * W) by nia.
  assert (E3 : 0 <= y * L <= L * W - L) by nia.
  unfold l_getIndex_. repeat (rewrite chk_mul_pos by nia; simpl rbind). split; [f_equal; ring|nia].
Qed.

Lemma at_pos_unique i x y z x' y' z' :
  at_pos L W Ht i x y z -> at_pos L W Ht i x' y' z' -> x = x' /\ y = y' /\ z = z'.
Proof.
  intros (Hx & Hy & Hz & E) (Hx' & Hy' & Hz' & E').
  assert (Ex : x = x' /\ y + W * z = y' + W * z').
  { assert (i mod L = x) by (subst i; rewrite Z.mul_comm, Z_mod_plus_full, Z.mod_small; lia).
    assert (i mod L = x') by (rewrite E', Z.mul_comm, Z_mod_plus_full, Z.mod_small; lia).
    split; nia. }
  destruct Ex as [-> Ex]. split; [reflexivity|].
  assert ((y + W * z) mod W = y) by (rewrite Z.mul_comm, Z_mod_plus_full, Z.mod_small; lia).
  assert ((y' + W * z') mod W = y') by (rewrite Z.mul_comm, Z_mod_plus_full, Z.mod_small; lia).
  rewrite Ex in H. assert (y = y') by congruence. split; [assumption|]. nia.
Qed.

Lemma at_pos_range i x y z : at_pos L W Ht i x y z -> 0 <= i < L * W * Ht.
Proof.
  intros (Hx & Hy & Hz & ->). destruct (index_ok x y z Hx Hy Hz). assumption.
Qed.

Lemma at_pos_exists i : 0 <= i < L * W * Ht -> exists x y z, at_pos L W Ht i x y z.
Proof.
  intros Hi. destruct sizes as (A1 & A2 & A3 & A4 & A5 & A6 & A7 & A8 & A9).
  exists (i mod L), ((i / L) mod W), (i / L / W). unfold at_pos.
  pose proof (Z.mod_pos_bound i L A1). pose proof (Z.mod_pos_bound (i / L) W A2).
  pose proof (Z.div_mod i L). pose proof (Z.div_mod (i / L) W).
  assert (0 <= i / L) by (apply Z.div_pos; lia).
  assert (0 <= i / L / W) by (apply Z.div_pos; lia).
  repeat split; try lia.
  rewrite Z.div_div by lia. apply Z.div_lt_upper_bound; nia.
Qed.

Lemma getPos_ok i x y z : at_pos L W Ht i x y z -> l_getPos_ la i = Ok (x, y, z).
Proof.
  intros P. pose proof (at_pos_range _ _ _ _ P) as R. destruct P as (Hx & Hy & Hz & E).
  destruct sizes as (A1 & A2 & A3 & A4 & A5 & A6 & A7 & A8 & A9).
  unfold l_getPos_. rewrite (chk_mul_pos (L * W)) by lia. simpl.
  unfold idiv at 1. destruct (Z.eqb_spec (L * W) 0); [lia|]. simpl.
  assert (Q : Z.quot i (L * W) = z).
  { rewrite Z.quot_div_nonneg by lia. symmetry.
    apply Z.div_unique with (r := x + L * y); [left; nia|]. rewrite E; ring. }
  rewrite Q.
  assert (0 <= L * W * z <= i) by nia.
  rewrite (chk_mul_pos (L * W * z)) by lia. simpl.
  assert (Ei : i - L * W * z = x + L * y) by (rewrite E; ring).
  rewrite Ei. assert (0 <= x + L * y <= INT_MAX) by nia.
  rewrite chk_mul_pos by lia. simpl. unfold idiv, imod.
  destruct (Z.eqb_spec L 0); [lia|]. simpl.
  rewrite Z.quot_div_nonneg, Z.rem_mod_nonneg by nia.
  assert (Eq : (x + L * y) / L = y) by (symmetry; apply Z.div_unique with (r := x); [left; lia|ring]).
  assert (Er : (x + L * y) mod L = x) by (rewrite Z.mul_comm, Z_mod_plus_full, Z.mod_small; lia).
  rewrite Eq, Er. reflexivity.
Qed.

Lemma check_upper_ok i : i < L * W * Ht -> check_upper la i = Ok tt.
Proof.
  intros Hi. destruct sizes as (A1 & A2 & A3 & A4 & A5 & A6 & A7 & A8 & A9).
  unfold check_upper. rewrite (chk_mul_pos (L * W)) by lia. simpl.
  rewrite (chk_mul_pos (L * W * Ht)) by lia. simpl.
  destruct (Z.geb_spec i (L * W * Ht)); [lia|reflexivity].
Qed.

Lemma check_upper_err i : L * W * Ht <= i -> check_upper la i = Err InvalidArgument.
Proof.
  intros Hi. destruct sizes as (A1 & A2 & A3 & A4 & A5 & A6 & A7 & A8 & A9).
  unfold check_upper. rewrite (chk_mul_pos (L * W)) by lia. simpl.
  rewrite (chk_mul_pos (L * W * Ht)) by lia. simpl.
  destruct (Z.geb_spec i (L * W * Ht)); [reflexivity|lia].
Qed.

Lemma getPosition_ok i x y z : at_pos L W Ht i x y z -> l_getPosition la i = Ok (x, y, z).
Proof.
  intros P. unfold l_getPosition. rewrite check_upper_ok by apply (at_pos_range _ _ _ _ P).
  simpl. apply getPos_ok; exact P.
Qed.

Lemma getXYZ_ok i x y z : at_pos L W Ht i x y z ->
  l_getX la i = Ok x /\ l_getY la i = Ok y /\ l_getZ la i = Ok z.
Proof.
  intros P. pose proof (getPos_ok _ _ _ _ P) as G. unfold l_getX, l_getY, l_getZ.
  rewrite check_upper_ok by apply (at_pos_range _ _ _ _ P). simpl.
  unfold l_getPos_ in G.
  destruct (chk (L * W)) as [lw| |]; simpl in *; try discriminate.
  destruct (idiv i lw) as [q| |]; simpl in *; try discriminate.
  destruct (chk (lw * q)) as [lwz| |]; simpl in *; try discriminate.
  destruct (chk (i - lwz)) as [i'| |]; simpl in *; try discriminate.
  destruct (idiv i' L) as [yy| |]; simpl in *; try discriminate.
  destruct (imod i' L) as [xx| |]; simpl in *; try discriminate.
  inversion G; subst. auto.
Qed.

Lemma check_index_iff i : check_index la i = Ok tt <-> 0 <= i < L * W * Ht.
Proof.
  unfold check_index. destruct B as (_ & _ & _ & _ & ->).
  destruct (Z.ltb_spec i 0); [split; [discriminate|lia]|].
  destruct (Z.geb_spec i (L * W * Ht)); split; try discriminate; auto; lia.
Qed.
Lemma check_index_cases i :
  check_index la i = if (0 <=? i) && (i <? L * W * Ht) then Ok tt else Err InvalidArgument.
Proof.
  unfold check_index. destruct B as (_ & _ & _ & _ & ->).
  destruct (Z.ltb_spec i 0), (Z.leb_spec 0 i), (Z.geb_spec i (L * W * Ht)), (Z.ltb_spec i (L * W * Ht));
    simpl; auto; lia.
Qed.

(** ** getIndex on all coordinates *)

Lemma periodic_ok v size : 0 < size <= INT_MAX -> INT_MIN <= v <= INT_MAX -> - size <= v ->
  l_periodic v size = Ok (v mod size).
Proof.
  intros Hs Hv Hlow. unfold l_periodic, imod. destruct (Z.ltb_spec v 0).
  - rewrite chk_ok by (apply in_int_iff; unfold INT_MIN, INT_MAX in *; lia). f_equal.
    destruct (Z.eq_dec v (- size)).
    + subst. rewrite Z.add_opp_diag_l. symmetry. apply Z.mod_divide; [lia|]. exists (-1); ring.
    + apply Z.mod_unique with (q := -1); [left; lia|ring].
  - destruct (Z.eqb_spec size 0); [lia|]. rewrite Z.rem_mod_nonneg by lia. reflexivity.
Qed.

(** coordinate accepted and its position *)
Definition acceptable (b : boundary) (v size : Z) : Prop :=
  match b with Fixed => 0 <= v < size | Periodic => INT_MIN <= v <= INT_MAX /\ - size <= v end.

Lemma coord_ok b v size : 0 < size <= INT_MAX -> acceptable b v size ->
  l_coord b v size = Ok (v mod size) /\ 0 <= v mod size < size.
Proof.
  intros Hs Ha. split; [|apply Z.mod_pos_bound; lia]. destruct b; simpl in *.
  - unfold check_pos. destruct (Z.ltb_spec v 0); [lia|]. destruct (Z.geb_spec v size); [lia|].
    simpl. rewrite Z.mod_small by lia. reflexivity.
  - apply periodic_ok; tauto.
Qed.

Lemma coord_err b v size : b = Fixed -> ~ 0 <= v < size -> l_coord b v size = Err InvalidArgument.
Proof.
  intros -> Hv. simpl. unfold check_pos.
  destruct (Z.ltb_spec v 0); [reflexivity|]. destruct (Z.geb_spec v size); [reflexivity|lia].
Qed.

Lemma getIndex_ok x y z :
  acceptable (l_xb la) x L -> acceptable (l_yb la) y W -> acceptable (l_zb la) z Ht ->
  exists i, l_getIndex la x y z = Ok i /\ at_pos L W Ht i (x mod L) (y mod W) (z mod Ht).
Proof.
  intros Ax Ay Az. destruct sizes as (A1 & A2 & A3 & A4 & A5 & A6 & A7 & A8 & A9).
  destruct (coord_ok _ x L (ltac:(lia) : 0 < L <= INT_MAX) Ax) as [Ex Rx].
  destruct (coord_ok _ y W (ltac:(lia) : 0 < W <= INT_MAX) Ay) as [Ey Ry].
  destruct (coord_ok _ z Ht (ltac:(lia) : 0 < Ht <= INT_MAX) Az) as [Ez Rz].
  unfold l_getIndex. rewrite Ex. simpl. rewrite Ey. simpl. rewrite Ez. simpl.
  destruct (index_ok _ _ _ Rx Ry Rz) as [-> _]. eexists; split; [reflexivity|].
  repeat split; try lia.
Qed.

Lemma periodic_noerr v size : 0 < size <= INT_MAX -> INT_MIN <= v <= INT_MAX ->
  exists p, l_periodic v size = Ok p.
Proof.
  intros Hs Hv. unfold l_periodic, imod. destruct (Z.ltb_spec v 0).
  - rewrite chk_ok by (apply in_int_iff; unfold INT_MIN, INT_MAX in *; lia). eauto.
  - destruct (Z.eqb_spec size 0); [lia|]. eauto.
Qed.

Lemma getIndex_throws x y z :
  INT_MIN <= x <= INT_MAX -> INT_MIN <= y <= INT_MAX -> INT_MIN <= z <= INT_MAX ->
  (l_xb la = Fixed /\ ~ 0 <= x < L) \/ (l_yb la = Fixed /\ ~ 0 <= y < W) \/ (l_zb la = Fixed /\ ~ 0 <= z < Ht) ->
  l_getIndex la x y z = Err InvalidArgument.
Proof.
  intros Ix Iy Iz Hor. destruct sizes as (A1 & A2 & A3 & A4 & A5 & A6 & A7 & A8 & A9).
  assert (C : forall b v size, 0 < size <= INT_MAX -> INT_MIN <= v <= INT_MAX ->
    (b = Fixed /\ ~ 0 <= v < size /\ l_coord b v size = Err InvalidArgument) \/
    (~ (b = Fixed /\ ~ 0 <= v < size) /\ exists p, l_coord b v size = Ok p)).
  { intros b v size Hs Hv. destruct b; simpl.
    - unfold check_pos. destruct (Z.ltb_spec v 0); [left; repeat split; auto; lia|].
      destruct (Z.geb_spec v size); [left; repeat split; auto; lia|].
      right. split; [intros [_ X]; lia|]. simpl; eauto.
    - right. split; [intros [X _]; discriminate|]. apply periodic_noerr; auto. }
  unfold l_getIndex.
  destruct (C (l_xb la) x L ltac:(lia) Ix) as [(Fx & Nx & ->)|(Nx & px & ->)]; simpl; [reflexivity|].
  destruct (C (l_yb la) y W ltac:(lia) Iy) as [(Fy & Ny & ->)|(Ny & py & ->)]; simpl; [reflexivity|].
  destruct (C (l_zb la) z Ht ltac:(lia) Iz) as [(Fz & Nz & ->)|(Nz & pz & ->)]; simpl; [reflexivity|].
  exfalso. tauto.
Qed.

(** ** Loops *)

Lemma zseq_In n : forall lo v, In v (zseq lo n) <-> lo <= v < lo + Z.of_nat n.
Proof.
  induction n as [|n IH]; intros lo v; simpl zseq; simpl In.
  - lia.
  - rewrite IH. lia.
Qed.
Lemma zrange_In lo hi v : In v (zrange lo hi) <-> lo <= v <= hi.
Proof. unfold zrange. rewrite zseq_In. lia. Qed.
Lemma zseq_NoDup n : forall lo, NoDup (zseq lo n).
Proof.
  induction n as [|n IH]; intros lo; simpl; [constructor|]. constructor; [|apply IH].
  rewrite zseq_In. lia.
Qed.
Lemma zrange_NoDup lo hi : NoDup (zrange lo hi).
Proof. apply zseq_NoDup. Qed.

Lemma rflat_ok {A} l (f : Z -> res (list A)) r : rflat l f = Ok r ->
  (forall v, In v l -> exists b, f v = Ok b) /\
  (forall a, In a r <-> exists v b, In v l /\ f v = Ok b /\ In a b).
Proof.
  revert r. induction l as [|v l IH]; intros r E; simpl in E.
  - inversion E; subst. split; [intros v []|]. intros a; split; [intros []|intros (v & b & [] & _)].
  - destruct (f v) as [b| |] eqn:Ev; simpl in E; try discriminate.
    destruct (rflat l f) as [r'| |] eqn:Er; simpl in E; try discriminate.
    inversion E; subst. destruct (IH r' eq_refl) as [A1 A2]. split.
    + intros w [->|Hw]; [eauto|auto].
    + intros a. rewrite in_app_iff, A2. split.
      * intros [Ha|(w & b' & Hw & Ew & Ha)]; [exists v, b; auto with datatypes|exists w, b'; auto with datatypes].
      * intros (w & b' & [->|Hw] & Ew & Ha); [left; congruence|right; eauto].
Qed.

Lemma rflat_exists {A} l (f : Z -> res (list A)) :
  (forall v, In v l -> exists b, f v = Ok b) -> exists r, rflat l f = Ok r.
Proof.
  induction l as [|v l IH]; intros Hf; simpl; [eauto|].
  destruct (Hf v (or_introl eq_refl)) as [b ->]. simpl.
  destruct IH as [r ->]; [intros w Hw; apply Hf; right; exact Hw|]. simpl; eauto.
Qed.

Lemma rloop_ok {A} lo hi (f : Z -> res (list A)) r : rloop lo hi f = Ok r ->
  (forall v, lo <= v <= hi -> exists b, f v = Ok b) /\
  (forall a, In a r <-> exists v b, lo <= v <= hi /\ f v = Ok b /\ In a b).
Proof.
  unfold rloop. intros E. destruct (rflat (zrange lo hi) f) as [r'| |] eqn:Er; simpl in E; try discriminate.
  assert (r' = r). { destruct (lo <=? hi); [|congruence]. destruct (chk (hi + 1)); simpl in E; congruence. }
  subst. destruct (rflat_ok _ _ _ Er) as [A1 A2]. split.
  - intros v Hv. apply A1. apply zrange_In; exact Hv.
  - intros a. rewrite A2. split; intros (v & b & Hv & R); exists v, b; (split; [apply zrange_In in Hv || apply zrange_In; exact Hv|exact R]).
Qed.

Lemma rloop_exists {A} lo hi (f : Z -> res (list A)) :
  (lo <= hi -> INT_MIN <= hi + 1 <= INT_MAX) ->
  (forall v, lo <= v <= hi -> exists b, f v = Ok b) -> exists r, rloop lo hi f = Ok r.
Proof.
  intros Hhi Hf. unfold rloop. destruct (rflat_exists (zrange lo hi) f) as [r ->].
  { intros v Hv. apply Hf. apply zrange_In; exact Hv. }
  simpl. destruct (Z.leb_spec lo hi); [|eauto].
  rewrite chk_ok by (apply in_int_iff; auto). simpl; eauto.
Qed.

Lemma NoDup_app {A} (l1 l2 : list A) : NoDup l1 -> NoDup l2 ->
  (forall a, In a l1 -> In a l2 -> False) -> NoDup (l1 ++ l2).
Proof.
  induction l1 as [|x l1 IH]; simpl; intros N1 N2 D; [exact N2|].
  inversion N1; subst. constructor.
  - rewrite in_app_iff. intros [X|X]; [contradiction|]. apply (D x); auto.
  - apply IH; auto. intros a Ha; apply (D a); auto.
Qed.

Lemma rflat_NoDup {A K} (g : A -> K) l (f : Z -> res (list A)) r : rflat l f = Ok r -> NoDup l ->
  (forall v b, In v l -> f v = Ok b -> NoDup (map g b)) ->
  (forall v v' b b' a a', In v l -> In v' l -> f v = Ok b -> f v' = Ok b' -> In a b -> In a' b' ->
     g a = g a' -> v = v') ->
  NoDup (map g r).
Proof.
  revert r. induction l as [|v l IH]; intros r E ND Hn Hd; simpl in E.
  - inversion E; constructor.
  - destruct (f v) as [b| |] eqn:Ev; simpl in E; try discriminate.
    destruct (rflat l f) as [r'| |] eqn:Er; simpl in E; try discriminate.
    inversion E; subst. inversion ND; subst. rewrite map_app. apply NoDup_app.
    + apply (Hn v); auto with datatypes.
    + apply IH; auto.
      * intros w b' Hw; apply Hn; right; exact Hw.
      * intros w w' b1 b2 a a' Hw Hw'; apply Hd; right; assumption.
    + intros k Hk Hk'. apply in_map_iff in Hk, Hk'.
      destruct Hk as (a & <- & Ha), Hk' as (a' & Eg & Ha').
      destruct (rflat_ok _ _ _ Er) as [_ A2]. apply A2 in Ha'. destruct Ha' as (w & b' & Hw & Ew & Ha').
      assert (v = w) by (eapply (Hd v w b b' a a'); auto with datatypes). subst. contradiction.
Qed.

Lemma rloop_NoDup {A K} (g : A -> K) lo hi (f : Z -> res (list A)) r : rloop lo hi f = Ok r ->
  (forall v b, lo <= v <= hi -> f v = Ok b -> NoDup (map g b)) ->
  (forall v v' b b' a a', lo <= v <= hi -> lo <= v' <= hi -> f v = Ok b -> f v' = Ok b' ->
     In a b -> In a' b' -> g a = g a' -> v = v') ->
  NoDup (map g r).
Proof.
  unfold rloop. intros E Hn Hd. destruct (rflat (zrange lo hi) f) as [r'| |] eqn:Er; simpl in E; try discriminate.
  assert (r' = r). { destruct (lo <=? hi); [|congruence]. destruct (chk (hi + 1)); simpl in E; congruence. }
  subst. eapply (rflat_NoDup g _ _ _ Er (zrange_NoDup lo hi)).
  - intros v b Hv; apply Hn. apply zrange_In; exact Hv.
  - intros v v' b b' a a' Hv Hv'. apply Hd; apply zrange_In; assumption.
Qed.

(** ** The box *)

Lemma in_size_iff v size : in_size v size = true <-> 0 <= v < size.
Proof. unfold in_size. rewrite andb_true_iff. rewrite Z.geb_le, Z.ltb_lt. lia. Qed.

(** what one visit of the loops has to satisfy *)
Definition visit (index x y z : Z) (cutoff : num) (xi yi zi : Z) (n : Z) (d : num) : Prop :=
  exists xp yp zp,
    l_wrap (l_xb la) xi L = Ok xp /\ 0 <= xp < L /\
    l_wrap (l_yb la) yi W = Ok yp /\ 0 <= yp < W /\
    l_wrap (l_zb la) zi Ht = Ok zp /\ 0 <= zp < Ht /\
    l_getDistance_ la xi yi zi x y z = Ok d /\ nleb d cutoff = true /\
    n = xp + L * (yp + W * zp) /\ n <> index.

Definition z_body (index x y z : Z) (cutoff : num) xp yp xi yi zi : res (list (Z * num)) :=
  zp <-! l_wrap (l_zb la) zi Ht;
  if in_size zp Ht then
    d <-! l_getDistance_ la xi yi zi x y z;
    if nleb d cutoff then
      n <-! l_getIndex_ la xp yp zp;
      if negb (n =? index) then Ok [(n, d)] else Ok []
    else Ok []
  else Ok [].

Lemma z_body_In index x y z cutoff xp yp xi yi zi b n d :
  0 <= xp < L -> 0 <= yp < W ->
  z_body index x y z cutoff xp yp xi yi zi = Ok b ->
  In (n, d) b <->
  exists zp, l_wrap (l_zb la) zi Ht = Ok zp /\ 0 <= zp < Ht /\
    l_getDistance_ la xi yi zi x y z = Ok d /\ nleb d cutoff = true /\
    n = xp + L * (yp + W * zp) /\ n <> index.
Proof.
  intros Hx Hy E. unfold z_body in E.
  destruct (l_wrap (l_zb la) zi Ht) as [zp| |] eqn:Ew; simpl in E; try discriminate.
  destruct (in_size zp Ht) eqn:Es.
  - apply in_size_iff in Es.
    destruct (l_getDistance_ la xi yi zi x y z) as [d0| |] eqn:Ed; simpl in E; try discriminate.
    destruct (nleb d0 cutoff) eqn:El.
    + destruct (index_ok xp yp zp Hx Hy Es) as [Ei _]. rewrite Ei in E. simpl in E.
      destruct (Z.eqb_spec (xp + L * (yp + W * zp)) index) as [Q|Q]; simpl in E; inversion E; subst b; clear E; simpl.
      * split; [tauto|]. intros (zp' & E1 & _ & E2 & _ & E3 & E4). inversion E1; subst. contradiction.
      * split.
        -- intros [E|[]]. inversion E; subst. exists zp; repeat split; auto; lia.
        -- intros (zp' & E1 & _ & E2 & _ & E3 & E4). inversion E1; subst. inversion E2; subst. auto.
    + inversion E; subst. simpl. split; [tauto|].
      intros (zp' & E1 & _ & E2 & E3 & _). inversion E2; subst. congruence.
  - inversion E; subst. simpl. split; [tauto|].
    intros (zp' & E1 & E2 & _). inversion E1; subst. apply in_size_iff in E2. congruence.
Qed.

Lemma box_In index x y z xlo xhi ylo yhi zlo zhi cutoff r n d :
  l_box la index x y z xlo xhi ylo yhi zlo zhi cutoff = Ok r ->
  In (n, d) r <->
  exists xi yi zi, xlo <= xi <= xhi /\ ylo <= yi <= yhi /\ zlo <= zi <= zhi /\
    visit index x y z cutoff xi yi zi n d.
Proof.
  unfold l_box. intros E. destruct (rloop_ok _ _ _ _ E) as [A1 A2]. rewrite A2. clear A2 E. split.
  - intros (xi & b & Hxi & Eb & Hin).
    destruct (l_wrap (l_xb la) xi L) as [xp| |] eqn:Ex; simpl in Eb; try discriminate.
    destruct (in_size xp L) eqn:Sx; [|inversion Eb; subst; destruct Hin].
    apply in_size_iff in Sx. destruct (rloop_ok _ _ _ _ Eb) as [_ B2]. apply B2 in Hin. clear B2 Eb.
    destruct Hin as (yi & b' & Hyi & Eb & Hin).
    destruct (l_wrap (l_yb la) yi W) as [yp| |] eqn:Ey; simpl in Eb; try discriminate.
    destruct (in_size yp W) eqn:Sy; [|inversion Eb; subst; destruct Hin].
    apply in_size_iff in Sy. destruct (rloop_ok _ _ _ _ Eb) as [_ B2]. apply B2 in Hin. clear B2 Eb.
    destruct Hin as (zi & b'' & Hzi & Eb & Hin).
    change (z_body index x y z cutoff xp yp xi yi zi = Ok b'') in Eb.
    apply (z_body_In _ _ _ _ _ _ _ _ _ _ _ _ _ Sx Sy Eb) in Hin.
    destruct Hin as (zp & E1 & E2 & E3 & E4 & E5 & E6).
    exists xi, yi, zi. repeat (split; [assumption || lia|]). exists xp, yp, zp. repeat split; auto; lia.
  - intros (xi & yi & zi & Hxi & Hyi & Hzi & (xp & yp & zp & Ex & Sx & Ey & Sy & Ez & Sz & Ed & Ele & En & Ene)).
    destruct (A1 xi Hxi) as [b Eb]. exists xi, b. split; [exact Hxi|split; [exact Eb|]].
    rewrite Ex in Eb. simpl in Eb. rewrite (proj2 (in_size_iff xp L) Sx) in Eb.
    destruct (rloop_ok _ _ _ _ Eb) as [B1 B2]. apply B2.
    destruct (B1 yi Hyi) as [b' Eb']. exists yi, b'. split; [exact Hyi|split; [exact Eb'|]].
    rewrite Ey in Eb'. simpl in Eb'. rewrite (proj2 (in_size_iff yp W) Sy) in Eb'.
    destruct (rloop_ok _ _ _ _ Eb') as [C1 C2]. apply C2.
    destruct (C1 zi Hzi) as [b'' Eb'']. exists zi, b''. split; [exact Hzi|split; [exact Eb''|]].
    apply (z_body_In index x y z cutoff xp yp xi yi zi b'' n d Sx Sy Eb'').
    exists zp. repeat split; auto; lia.
Qed.

Lemma wrap_image b v size p : 0 < size -> l_wrap b v size = Ok p -> image b size p v.
Proof.
  intros Hs E. destruct b; simpl in *; [congruence|]. unfold l_periodic, imod in E.
  destruct (Z.ltb_spec v 0).
  - apply chk_inv in E. destruct E as [<- _]. exists (-1). ring.
  - destruct (Z.eqb_spec size 0); [lia|]. rewrite Z.rem_mod_nonneg in E by lia. inversion E; subst.
    exists (v / size). rewrite (Z.div_mod v size) at 1 by lia. ring.
Qed.

Lemma image_mod b size p v : 0 < size -> 0 <= p < size -> image b size p v -> v mod size = p.
Proof.
  intros Hs Hp Hi. destruct b; simpl in Hi.
  - subst; apply Z.mod_small; lia.
  - destruct Hi as [k ->]. rewrite Z_mod_plus_full. apply Z.mod_small; lia.
Qed.

Lemma image_wrap b size p v : 0 < size <= INT_MAX -> 0 <= p < size -> image b size p v ->
  INT_MIN <= v <= INT_MAX -> - size <= v -> l_wrap b v size = Ok p.
Proof.
  intros Hs Hp Hi Hv Hlow. pose proof (image_mod b size p v ltac:(lia) Hp Hi) as Hm. destruct b; simpl in *.
  - subst; reflexivity.
  - rewrite periodic_ok by lia. congruence.
Qed.

(** at most one visit per site when the box is no wider than the lattice in
    the periodic directions *)
Lemma image_inj b size lo hi p v v' : 0 < size -> (b = Periodic -> hi - lo < size) ->
  lo <= v <= hi -> lo <= v' <= hi -> image b size p v -> image b size p v' -> v = v'.
Proof.
  intros Hs Hw Hv Hv' Hi Hi'. destruct b; simpl in *; [congruence|].
  specialize (Hw eq_refl). destruct Hi as [k ->], Hi' as [k' ->].
  assert (k = k') by nia. subst; reflexivity.
Qed.

Lemma box_NoDup index x y z xlo xhi ylo yhi zlo zhi cutoff r :
  l_box la index x y z xlo xhi ylo yhi zlo zhi cutoff = Ok r ->
  (l_xb la = Periodic -> xhi - xlo < L) -> (l_yb la = Periodic -> yhi - ylo < W) ->
  (l_zb la = Periodic -> zhi - zlo < Ht) ->
  NoDup (map fst r).
Proof.
  destruct sizes as (SL & SW & SH & _).
  unfold l_box. intros E Wx Wy Wz.
  eapply rloop_NoDup; [exact E| |]; clear E.
  - intros xi b Hxi Eb; cbv beta in Eb.
    destruct (l_wrap (l_xb la) xi L) as [xp| |] eqn:Ex; simpl in Eb; try discriminate.
    destruct (in_size xp L) eqn:Sx; [|inversion Eb; subst; constructor].
    apply in_size_iff in Sx. eapply rloop_NoDup; [exact Eb| |]; clear Eb.
    + intros yi b' Hyi Eb; cbv beta in Eb.
      destruct (l_wrap (l_yb la) yi W) as [yp| |] eqn:Ey; simpl in Eb; try discriminate.
      destruct (in_size yp W) eqn:Sy; [|inversion Eb; subst; constructor].
      apply in_size_iff in Sy. eapply rloop_NoDup; [exact Eb| |]; clear Eb.
      * intros zi b'' Hzi Eb; cbv beta in Eb. 
        destruct (l_wrap (l_zb la) zi Ht) as [zp| |]; simpl in Eb; try discriminate.
        destruct (in_size zp Ht); [|inversion Eb; constructor].
        destruct (l_getDistance_ la xi yi zi x y z); simpl in Eb; try discriminate.
        destruct (nleb a cutoff); [|inversion Eb; constructor].
        destruct (l_getIndex_ la xp yp zp); simpl in Eb; try discriminate.
        destruct (negb (a0 =? index)); inversion Eb; simpl; repeat constructor; simpl; tauto.
      * intros zi zi' b1 b2 [n1 d1] [n2 d2] Hz Hz' E1 E2 I1 I2 Eg; cbv beta in E1, E2. simpl in Eg; subst n2.
        apply (z_body_In index x y z cutoff xp yp xi yi zi b1 n1 d1 Sx Sy E1) in I1.
        apply (z_body_In index x y z cutoff xp yp xi yi zi' b2 n1 d2 Sx Sy E2) in I2.
        destruct I1 as (zp & F1 & F2 & _ & _ & F5 & _), I2 as (zp' & G1 & G2 & _ & _ & G5 & _).
        destruct (at_pos_unique n1 xp yp zp xp yp zp') as (_ & _ & Ee); [unfold at_pos; auto..|]. subst zp'. apply wrap_image in F1, G1; auto.
        eapply (image_inj (l_zb la) Ht zlo zhi zp); eauto.
    + intros yi yi' b1 b2 [n1 d1] [n2 d2] Hy Hy' E1 E2 I1 I2 Eg; cbv beta in E1, E2. simpl in Eg; subst n2.
      destruct (l_wrap (l_yb la) yi W) as [yp| |] eqn:Ey; simpl in E1; try discriminate.
      destruct (l_wrap (l_yb la) yi' W) as [yp'| |] eqn:Ey'; simpl in E2; try discriminate.
      destruct (in_size yp W) eqn:Sy; [|inversion E1; subst; destruct I1].
      destruct (in_size yp' W) eqn:Sy'; [|inversion E2; subst; destruct I2].
      apply in_size_iff in Sy, Sy'.
      apply (proj2 (rloop_ok _ _ _ _ E1)) in I1. apply (proj2 (rloop_ok _ _ _ _ E2)) in I2.
      destruct I1 as (zi & c1 & _ & D1 & I1), I2 as (zi' & c2 & _ & D2 & I2); cbv beta in D1, D2.
      apply (z_body_In index x y z cutoff xp yp xi yi zi c1 n1 d1 Sx Sy D1) in I1.
      apply (z_body_In index x y z cutoff xp yp' xi yi' zi' c2 n1 d2 Sx Sy' D2) in I2.
      destruct I1 as (zp & F1 & F2 & _ & _ & F5 & _), I2 as (zp' & G1 & G2 & _ & _ & G5 & _).
      destruct (at_pos_unique n1 xp yp zp xp yp' zp') as (_ & Ee & _); [unfold at_pos; auto..|].
      subst yp'. apply wrap_image in Ey, Ey'; auto. eapply (image_inj (l_yb la) W ylo yhi yp); eauto.
  - intros xi xi' b1 b2 [n1 d1] [n2 d2] Hx Hx' E1 E2 I1 I2 Eg; cbv beta in E1, E2. simpl in Eg; subst n2.
    destruct (l_wrap (l_xb la) xi L) as [xp| |] eqn:Ex; simpl in E1; try discriminate.
    destruct (l_wrap (l_xb la) xi' L) as [xp'| |] eqn:Ex'; simpl in E2; try discriminate.
    destruct (in_size xp L) eqn:Sx; [|inversion E1; subst; destruct I1].
    destruct (in_size xp' L) eqn:Sx'; [|inversion E2; subst; destruct I2].
    apply in_size_iff in Sx, Sx'.
    apply (proj2 (rloop_ok _ _ _ _ E1)) in I1. apply (proj2 (rloop_ok _ _ _ _ E2)) in I2.
    destruct I1 as (yi & c1 & _ & D1 & I1), I2 as (yi' & c2 & _ & D2 & I2); cbv beta in D1, D2.
    destruct (l_wrap (l_yb la) yi W) as [yp| |] eqn:Ey; simpl in D1; try discriminate.
    destruct (l_wrap (l_yb la) yi' W) as [yp'| |] eqn:Ey'; simpl in D2; try discriminate.
    destruct (in_size yp W) eqn:Sy; [|inversion D1; subst; destruct I1].
    destruct (in_size yp' W) eqn:Sy'; [|inversion D2; subst; destruct I2].
    apply in_size_iff in Sy, Sy'.
    apply (proj2 (rloop_ok _ _ _ _ D1)) in I1. apply (proj2 (rloop_ok _ _ _ _ D2)) in I2.
    destruct I1 as (zi & e1 & _ & H1 & I1), I2 as (zi' & e2 & _ & H2 & I2).
    apply (z_body_In index x y z cutoff xp yp xi yi zi e1 n1 d1 Sx Sy H1) in I1.
    apply (z_body_In index x y z cutoff xp' yp' xi' yi' zi' e2 n1 d2 Sx' Sy' H2) in I2.
    destruct I1 as (zp & F1 & F2 & _ & _ & F5 & _), I2 as (zp' & G1 & G2 & _ & _ & G5 & _).
    destruct (at_pos_unique n1 xp yp zp xp' yp' zp') as (Ee & _ & _); [unfold at_pos; auto..|].
    subst xp'. apply wrap_image in Ex, Ex'; auto. eapply (image_inj (l_xb la) L xlo xhi xp); eauto.
Qed.

End P.
