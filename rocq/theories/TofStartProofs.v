(** * Placing the charges: proofs *)
From Coq Require Import ZArith List Bool Lia Reals Lra Permutation.
From Verif Require Import Base BaseProofs Num RSum WalkerModel LatticeModel LatticeSpec LatticeProofs LatticeTable SiteSpec ValidSpec TofLoop TofLoopSpec TofStart.
Import ListNotations.
Open Scope Z_scope.

Section Start.
Context {I : Impl} {N : Num}.
Variable la : lattice.
Variable raw : nat -> Z * Z.
Hypothesis B : built la.
Notation first_plane i := (exists y z, at_pos (l_len la) (l_wid la) (l_hei la) i 0 y z).

Lemma draw_first k : exists i, l_getRandomSite la YZ 0 (fst (raw k)) (snd (raw k)) = Ok i /\ first_plane i.
Proof.
  destruct (random_on_plane la B YZ 0 (fst (raw k)) (snd (raw k))) as (i & E & x & y & z & P & Hx); [discriminate|destruct B as (? & _); cbn; lia|].
  cbn in Hx. subst x. eauto.
Qed.

Lemma insert_length s k : length (uinsert s k) = if umem k s then length s else S (length s).
Proof. unfold uinsert. destruct (umem k s); [reflexivity|]. rewrite (Permutation_length (hplace_perm _ _ _ _)). reflexivity. Qed.

(** what the loop returns *)
Lemma pick_sites_spec n : forall fuel k s s', pick_sites la raw fuel n k s = Ok s' -> (length s <= n)%nat -> NoDup (ukeys s) -> (forall i, In i (ukeys s) -> first_plane i) ->
  length s' = n /\ NoDup (ukeys s') /\ forall i, In i (ukeys s') -> first_plane i.
Proof.
  induction fuel as [|fuel IH]; intros k s s' E Hn ND P; cbn [pick_sites] in E; destruct (Nat.ltb_spec (length s) n).
  - discriminate.
  - inversion E; subst. split; [lia|auto].
  - destruct (draw_first k) as (i & Ei & Pi). rewrite Ei in E. cbn [rbind] in E.
    apply (IH _ _ _ E).
    + rewrite insert_length. destruct (umem i s); lia.
    + apply uinsert_NoDup. exact ND.
    + intros j Hj. apply uinsert_In in Hj. destruct Hj as [->|Hj]; auto.
  - inversion E; subst. split; [lia|auto].
Qed.

(** the sites of the plane can be counted *)
Definition plane_sites : list Z := flat_map (fun y => map (fun z => l_len la * (y + l_wid la * z)) (zrange 0 (l_hei la - 1))) (zrange 0 (l_wid la - 1)).
Lemma plane_all i : first_plane i -> In i plane_sites.
Proof.
  intros (y & z & _ & Hy & Hz & ->). apply in_flat_map. exists y. split; [apply zrange_In; lia|].
  apply in_map_iff. exists z. split; [ring|apply zrange_In; lia].
Qed.
Lemma zlen lo hi : Z.of_nat (length (zrange lo hi)) = Z.max 0 (hi - lo + 1).
Proof.
  unfold zrange. assert (X : forall n k, length (zseq k n) = n) by (induction n as [|n IH]; intros k; cbn; [reflexivity|rewrite IH; reflexivity]). rewrite X. lia.
Qed.
Lemma plane_size : Z.of_nat (length plane_sites) = l_wid la * l_hei la.
Proof.
  destruct B as (_ & B2 & B3 & _). unfold plane_sites.
  assert (X : forall l, length (flat_map (fun y => map (fun z => l_len la * (y + l_wid la * z)) (zrange 0 (l_hei la - 1))) l) = (length l * length (zrange 0 (l_hei la - 1)))%nat).
  { induction l as [|a l IH]; [reflexivity|]. cbn [flat_map length]. rewrite app_length, map_length, IH. lia. }
  rewrite X. rewrite Nat2Z.inj_mul. rewrite !zlen. lia.
Qed.

(** too many charges for the plane: no number of draws is enough *)
Lemma pick_sites_forever n : l_wid la * l_hei la < Z.of_nat n -> forall fuel k s, NoDup (ukeys s) -> (forall i, In i (ukeys s) -> first_plane i) ->
  pick_sites la raw fuel n k s = Bad Diverged.
Proof.
  intros Hn. induction fuel as [|fuel IH]; intros k s ND P.
  all: assert (Hl : (length s < n)%nat) by (assert (length (ukeys s) <= length plane_sites)%nat by (apply NoDup_incl_length; [exact ND|intros i Hi; apply plane_all; auto]);
    unfold ukeys in *; rewrite map_length in *; pose proof plane_size; lia).
  all: cbn [pick_sites]; destruct (Nat.ltb_spec (length s) n); [|lia].
  - reflexivity.
  - destruct (draw_first k) as (i & Ei & Pi). rewrite Ei. cbn [rbind]. apply IH; [apply uinsert_NoDup; exact ND|].
    intros j Hj. apply uinsert_In in Hj. destruct Hj as [->|Hj]; auto.
Qed.

(** draws that name enough sites suffice *)
Definition drawn (k : nat) (i : Z) : Prop := l_getRandomSite la YZ 0 (fst (raw k)) (snd (raw k)) = Ok i.
Lemma pick_sites_returns n K l : NoDup l -> (n <= length l)%nat -> (forall i, In i l -> exists k, (k < K)%nat /\ drawn k i) ->
  forall fuel k s, (k + fuel >= K)%nat -> (forall j i, (j < k)%nat -> drawn j i -> In i (ukeys s)) -> exists s', pick_sites la raw fuel n k s = Ok s'.
Proof.
  intros ND Hn HK. induction fuel as [|fuel IH]; intros k s Hk Hs; cbn [pick_sites]; destruct (Nat.ltb_spec (length s) n); eauto.
  - exfalso. assert (length l <= length (ukeys s))%nat; [|unfold ukeys in *; rewrite map_length in *; lia].
    apply NoDup_incl_length; [exact ND|]. intros i Hi. destruct (HK i Hi) as (j & Hj & D). apply (Hs j i); [lia|exact D].
  - destruct (draw_first k) as (i & Ei & Pi). rewrite Ei. cbn [rbind]. apply IH; [lia|].
    intros j i' Hj D. apply uinsert_In. destruct (Nat.eq_dec j k) as [->|Ne].
    + left. unfold drawn in D. congruence.
    + right. apply (Hs j i'); [lia|exact D].
Qed.

Lemma new_holes_spec sites : forall c holes walkers, new_holes c sites = (holes, walkers) ->
  length holes = length sites /\
  (forall i s, nth_error sites i = Some s -> nth_error holes i = Some (c + Z.of_nat i, c + Z.of_nat i)) /\
  map snd holes = ukeys walkers /\ (forall p, In p (ukeys walkers) -> c <= p) /\ NoDup (ukeys walkers) /\
  (forall p w, ulookup p walkers = Some w -> nth_error sites (Z.to_nat (p - c)) = Some (w_cur w)).
Proof.
  induction sites as [|a sites IH]; intros c holes walkers E; cbn in E.
  - inversion E; subst. split; [reflexivity|]. split; [intros [|] ? ?; discriminate|]. split; [reflexivity|]. split; [intros p []|]. split; [constructor|discriminate].
  - destruct (new_holes (c + 1) sites) as [hs ws] eqn:En. inversion E; subst; clear E.
    destruct (IH _ _ _ En) as (H1 & H2 & H3 & H4 & H5 & H6).
    split; [cbn; congruence|]. split; [|split; [|split; [|split]]].
    + intros [|i] s Es; cbn in *; [rewrite Z.add_0_r; reflexivity|]. rewrite (H2 i s Es). f_equal. f_equal; lia.
    + cbn. f_equal. exact H3.
    + intros p [<-|Hp]; [cbn; lia|]. apply H4 in Hp. lia.
    + cbn. constructor; [|exact H5]. intros Hc. apply H4 in Hc. lia.
    + intros p w Hl. cbn in Hl. destruct (Z.eqb_spec p c) as [->|Ne].
      * inversion Hl; subst. rewrite Z.sub_diag. reflexivity.
      * assert (Hp : c + 1 <= p). { apply H4. apply ulookup_In in Hl. apply (in_map fst) in Hl. exact Hl. }
        specialize (H6 p w Hl). replace (Z.to_nat (p - c)) with (S (Z.to_nat (p - (c + 1)))) by lia. exact H6.
Qed.

Lemma populate_spec fuel n holes walkers : tof_populate la raw fuel n = Ok (holes, walkers) ->
  length holes = n /\ (forall i p, is_hole holes i p <-> 0 <= i < Z.of_nat n /\ p = i) /\ map snd holes = ukeys walkers /\ NoDup (ukeys walkers) /\
  (forall p w, ulookup p walkers = Some w -> first_plane (w_cur w)) /\
  (forall p q w w', ulookup p walkers = Some w -> ulookup q walkers = Some w' -> w_cur w = w_cur w' -> p = q).
Proof.
  unfold tof_populate. intros E. destruct (pick_sites la raw fuel n 0 []) as [s|e|h] eqn:Ep; try discriminate. cbn in E. inversion E as [E']; clear E.
  destruct (pick_sites_spec n fuel 0 [] s Ep) as (Hn & ND & P); [cbn; lia|constructor|intros i []|].
  destruct (new_holes_spec (ukeys s) 0 holes walkers E') as (H1 & H2 & H3 & H4 & H5 & H6).
  assert (L : length (ukeys s) = n) by (unfold ukeys; rewrite map_length; exact Hn).
  assert (Hh : forall i, (i < n)%nat -> nth_error holes i = Some (Z.of_nat i, Z.of_nat i)).
  { intros i Hi. destruct (nth_error (ukeys s) i) as [k|] eqn:Ek; [rewrite (H2 i k Ek); reflexivity|].
    apply nth_error_None in Ek. lia. }
  split; [lia|]. split; [|split; [exact H3|split; [exact H5|split]]].
  - intros i p. split.
    + intros (Hi & id & En). assert (Z.to_nat i < n)%nat by (rewrite <- L, <- H1; apply nth_error_Some; congruence).
      rewrite Hh in En by assumption. inversion En; subst. lia.
    + intros (Hi & ->). split; [lia|]. exists i. rewrite Hh by lia. rewrite Z2Nat.id by lia. reflexivity.
  - intros p w Hw. apply P. eapply nth_error_In. apply (H6 p w Hw).
  - intros p q w w' Hw Hw' Ec. pose proof (H6 p w Hw) as A. pose proof (H6 q w' Hw') as A'. rewrite Ec in A.
    assert (X : Z.to_nat (p - 0) = Z.to_nat (q - 0)).
    { apply (proj1 (NoDup_nth_error (ukeys s)) ND); [apply nth_error_Some; congruence|congruence]. }
    assert (0 <= p) by (apply H4; apply ulookup_In in Hw; apply (in_map fst) in Hw; exact Hw).
    assert (0 <= q) by (apply H4; apply ulookup_In in Hw'; apply (in_map fst) in Hw'; exact Hw'). lia.
Qed.

Lemma populate_released fuel n holes walkers : tof_populate la raw fuel n = Ok (holes, walkers) -> released la holes walkers.
Proof.
  intros E. destruct (populate_spec fuel n holes walkers E) as (_ & _ & H3 & ND & P & Inj). split; [rewrite H3; exact ND|]. split.
  - intros p Hp. rewrite H3 in Hp. destruct (ulookup p walkers) as [w|] eqn:Ew; [|apply ulookup_None in Ew; contradiction].
    exists w. split; [reflexivity|]. destruct (P p w Ew) as (y & z & A). apply (getXYZ_ok la B _ _ _ _ A).
  - intros p q w w' _ _. apply Inj.
Qed.
End Start.
