(** * The transient current and the displacement of the holes *)
From Coq Require Import ZArith List Bool Reals Lra Lia Permutation.
From Verif Require Import Base Num BaseProofs RSum QueueModel WalkerModel SiteModel ClusterModel ContainerModel BasinModel SystemModel SystemSpec LatticeModel LatticeSpec TofLoop TofLoopSpec TofLoopProofs.
Import ListNotations.
Open Scope R_scope.

Section Charge.
Context {I : Impl} {G : @Rng XR} {U : @Ugly XR}.
Variable clk : Z -> Z.
Variable la : @lattice XR.
Variable lits : @literals XR.
Variable holes : list (Z * Z).
Variable fuel : nat.
Variables nm q inc : R.
Hypothesis Lits : nm_to_cm lits = Fin nm /\ q_e lits = Fin q /\ increment lits = Fin inc.
Hypothesis Pos : 0 < nm /\ 0 < inc.
Hypothesis Built : built la.
Hypothesis HD : NoDup (map snd holes).

Definition vol : R := IZR (l_len la * l_wid la * l_hei la) * nm * nm * nm.
Lemma vol_pos : 0 < vol.
Proof.
  destruct Built as (H1 & H2 & H3 & _). unfold vol. assert (0 < l_len la * l_wid la * l_hei la)%Z by (repeat apply Z.mul_pos_pos; assumption).
  apply IZR_lt in H. destruct Pos. repeat apply Rmult_lt_0_compat; assumption.
Qed.
Lemma volume_vol : volume la lits = Fin vol.
Proof. unfold volume. destruct Lits as (-> & _). reflexivity. Qed.
Lemma current_some d n : (0 < n)%Z -> exists j, current_of la lits (Fin d) n = Fin j /\ j * (vol * inc) = q * nm * d.
Proof.
  intros Hn. apply IZR_lt in Hn. pose proof vol_pos. destruct Pos as [P1 P2]. unfold current_of. rewrite volume_vol. destruct Lits as (-> & -> & ->).
  change (@nofZ XR n) with (Fin (IZR n)). change (@nmul XR (Fin d) (Fin nm)) with (Fin (d * nm)).
  change (@nmul XR (Fin (IZR n)) (Fin inc)) with (Fin (IZR n * inc)). change (@nmul XR (Fin q) (Fin (IZR n))) with (Fin (q * IZR n)).
  assert (IZR n * inc <> 0) by (apply Rgt_not_eq, Rmult_lt_0_compat; assumption).
  rewrite !xdiv_Fin by lra. eexists. split; [reflexivity|]. field. repeat split; lra.
Qed.
Lemma current_none d : current_of la lits (Fin d) 0 = XNaN.
Proof.
  pose proof vol_pos. unfold current_of. rewrite volume_vol. destruct Lits as (-> & -> & ->).
  change (@nofZ XR 0) with (Fin 0). change (@nmul XR (Fin d) (Fin nm)) with (Fin (d * nm)).
  change (@nmul XR (Fin 0) (Fin inc)) with (Fin (0 * inc)). change (@nmul XR (Fin q) (Fin 0)) with (Fin (q * 0)).
  rewrite (xdiv_Fin _ vol) by lra. replace (q * 0 / vol) with 0 by (field; lra). rewrite Rmult_0_l. cbn [ndiv XR xdiv].
  unfold Reqb at 1. destruct (Req_EM_T 0 0); [|lra].
  assert (Z0 : xscale 0 true = XNaN /\ xscale 0 false = XNaN).
  { unfold xscale, Reqb, Rltb. destruct (Req_EM_T 0 0); [auto|lra]. }
  destruct (Reqb (d * nm) 0); [reflexivity|]. destruct (Rltb 0 (d * nm)); cbn; apply Z0.
Qed.

(** the account: [js] are the samples so far *)
Definition rsum (l : list R) : R := fold_right Rplus 0 l.
Lemma rsum_app a b : rsum (a ++ b) = rsum a + rsum b.
Proof. unfold rsum. induction a as [|x a IH]; cbn; [ring|]. rewrite IH. ring. Qed.
Inductive account (s : @tof XR G) : Prop :=
| ac_in js X X0 : in_sample s = true -> transient_current s = map Fin js -> total_x la holes s X ->
    deltaX s = Fin (IZR (X - X0)) -> rsum js * (vol * inc) = q * nm * IZR X0 -> account s
| ac_out js X : in_sample s = false -> q_list (f_queue s) <> [] -> transient_current s = map Fin js -> total_x la holes s X ->
    rsum js * (vol * inc) = q * nm * IZR X -> account s
| ac_done js : in_sample s = false -> q_list (f_queue s) = [] -> transient_current s = map Fin js ++ [XNaN : @num XR] -> account s.
Lemma account_event rates s cs ws b s' : book clk la lits holes rates s cs ws -> event clk la lits holes fuel s b s' -> account s -> account s'.
Proof.
  intros B E A. destruct E as [s' Ei Du E|Ei Nd|Ei Du|Ei Nd].
  - destruct A as [js X X0 _ Et Tx Ed Ej|? ? A|? A]; [|congruence|congruence].
    apply tof_hop_inv in E. destruct E as (e & l & p & x0 & x1 & w1 & g1 & T).
    pose proof (total_turn clk la lits holes fuel HD _ _ _ _ _ _ _ _ _ _ _ _ _ B T Tx) as Tx'. destruct (u_same _ _ _ _ _ _ _ _ _ _ _ _ _ T) as (_ & E1 & _ & E2).
    apply (ac_in s' js (X + (x1 - x0)) X0); [congruence|congruence|exact Tx'| |exact Ej].
    rewrite (u_delta _ _ _ _ _ _ _ _ _ _ _ _ _ T), Ed. change (Fin (IZR (X - X0) + IZR (x1 - x0)) = Fin (IZR (X + (x1 - x0) - X0))).
    rewrite <- plus_IZR. do 2 f_equal. lia.
  - destruct A as [js X X0 _ Et Tx Ed Ej|? ? A|? A]; [|congruence|congruence]. rewrite Ed.
    destruct (q_list (f_queue s)) as [|e l] eqn:El.
    + apply (ac_done _ js); cbn [in_sample f_queue transient_current]; [reflexivity|exact El|]. rewrite Et. change (Z.of_nat (length [])) with 0%Z. rewrite current_none. reflexivity.
    + destruct (current_some (IZR (X - X0)) (Z.of_nat (length (e :: l)))) as (j & Ej1 & Ej2); [cbn [length]; lia|]. rewrite Ej1.
      apply (ac_out _ (js ++ [j]) X); cbn [in_sample f_queue transient_current]; [reflexivity|congruence| |eapply total_same; [|exact Tx]; reflexivity|].
      * rewrite Et, map_app. reflexivity.
      * rewrite rsum_app, Rmult_plus_distr_r. cbn. rewrite Rplus_0_r, Ej2, Ej, minus_IZR. ring.
  - destruct A as [? ? ? A|js X _ Nq Et Tx Ej|js _ Eq]; [congruence| |destruct Du as (? & ? & ? & _); congruence].
    apply (ac_in _ js X X); cbn; [reflexivity|exact Et|eapply total_same; [|exact Tx]; reflexivity| |exact Ej]. rewrite Z.sub_diag. reflexivity.
  - exact A.
Qed.
Lemma account_steps rates n : forall s cs ws b s', book clk la lits holes rates s cs ws -> account s ->
  tof_steps clk la lits holes fuel n s = Ret b s' -> account s'.
Proof.
  induction n as [|n IH]; intros s cs ws b s' B A E; cbn [tof_steps] in E; [inversion E; subst; exact A|].
  apply bind_ret_inv in E. destruct E as (c & s1 & E1 & E). apply tof_step_inv in E1.
  pose proof (account_event _ _ _ _ _ _ B E1 A) as A1. destruct (book_event clk la lits holes fuel HD _ _ _ _ _ _ B E1) as (cs1 & ws1 & B1). destruct c.
  - eapply IH; eauto.
  - inversion E; subst. exact A1.
Qed.
Theorem account_main rates walkers h count tick n b s : NoDup (ukeys walkers) -> (0 <= count)%Z -> map_of_maps rates -> released la holes walkers ->
  (2 <= l_len la)%Z -> tof_main clk la lits holes fuel rates n (world_new walkers h count tick) = Ret b s -> account s.
Proof.
  intros H1 H2 H3 H4 H5 E. unfold tof_main in E. apply bind_ret_inv in E. destruct E as ([] & s0 & E0 & E).
  destruct (tof_setup_inv clk la lits holes HD _ _ _ _ _ _ H1 H2 H3 H4 H5 E0) as (B & _ & _ & _ & _ & _ & Ei & Et & (e & l & El & _) & Pl & _).
  eapply account_steps; [exact B| |exact E]. apply (ac_out s0 [] 0); [exact Ei|congruence|exact Et|apply total_start, Pl|]. cbn. ring.
Qed.
End Charge.
