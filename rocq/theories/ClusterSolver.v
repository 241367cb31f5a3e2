(** * What the master-equation solver computes *)
From Coq Require Import ZArith List Bool Reals Lra Lia Permutation.
From Verif Require Import Base BaseProofs Num OrdLaws RSum SiteModel SiteSpec ClusterModel ClusterSpec ClusterHist
  ClusterFrame ClusterOps MasterEq ClusterReal ClusterProofs.
Import ListNotations.
Open Scope R_scope.

Section Solver.
Context {I : Impl} {G : @Rng XR}.
Implicit Types (c : @cluster XR G) (sites : umap (@site XR G)).

Lemma step_relax h sites P k : step (ukeys sites) (mprob h sites) P k = relax h sites P k.
Proof. reflexivity. Qed.
Lemma steps_relaxed h sites n : forall m, steps (ukeys sites) (mprob h sites) n (relaxed h sites m) = relaxed h sites (n + m).
Proof.
  induction n as [|n IH]; intros m; [reflexivity|]. cbn [steps]. change (step (ukeys sites) (mprob h sites) (relaxed h sites m)) with (relaxed h sites (S m)).
  rewrite IH. f_equal. lia.
Qed.

(** the tolerance loop, from the [m]-th distribution on *)
Lemma tol_count h sites t fuel : members_ok h sites -> mutual sites -> sites <> [] -> has_link sites ->
  forall m err pon pon', pon_is sites pon (relaxed h sites m) -> dist (ukeys sites) (relaxed h sites m) ->
  (forall k, In k (ukeys pon) -> In k (ukeys sites)) -> t < err ->
  iterate_tol fuel (Fin t) (Fin err) sites pon = Ok pon' ->
  exists n, (m <= n)%nat /\ pon_is sites pon' (relaxed h sites (S n)) /\ change h sites n <= t /\
    forall j, (m <= j < n)%nat -> t < change h sites j.
Proof.
  intros Hm Hmut Hne Hl. induction fuel as [|f IH]; intros m err pon pon' HP HD HK Ht; cbn [iterate_tol].
  - replace (@nltb XR (Fin t) (Fin err)) with true; [discriminate|]. symmetry. apply Rltb_true. exact Ht.
  - replace (@nltb XR (Fin t) (Fin err)) with true; [|symmetry; apply Rltb_true; exact Ht].
    destruct (iterate_val h sites pon (relaxed h sites m) Hm Hmut Hne Hl HP HD) as (pon1 & -> & HP1 & HD1 & K1). cbn [rbind].
    rewrite (iter_error_val sites pon pon1 _ _ HP HP1 HK (proj1 Hm)).
    change (sqrt _) with (change h sites m). intros E.
    destruct (Rlt_le_dec t (change h sites m)) as [X|X].
    + destruct (IH (S m) (change h sites m) pon1 pon') as (n & A & B & C & D); auto.
      { intros k Hk. apply HK, K1, Hk. }
      exists n. split; [lia|]. split; [exact B|]. split; [exact C|]. intros j Hj.
      destruct (Nat.eq_dec j m) as [->|]; [exact X | apply D; lia].
    + assert (Ef : iterate_tol f (Fin t) (Fin (change h sites m)) sites pon1 = Ok pon1).
      { destruct f; cbn [iterate_tol]; (replace (@nltb XR (Fin t) (Fin (change h sites m))) with false; [reflexivity|]);
          symmetry; apply Rltb_false; exact X. }
      rewrite Ef in E. assert (pon1 = pon') by congruence. subst.
      exists m. split; [lia|]. split; [exact HP1|]. split; [exact X|]. intros j Hj. lia.
Qed.

Lemma solver_result fuel h c c' : built c -> members_ok h (c_sites c) -> mutual (c_sites c) -> has_link (c_sites c) ->
  c_sites c <> [] -> c_update fuel h c = Ret tt c' ->
  exists n, (forall k, In k (c_siteIds c) -> c_probOn k c' = Ret (Fin (relaxed h (c_sites c) n k)) c') /\
    match c_method c with
    | PerCluster => n = Z.to_nat (c_iters c)
    | PerSite => n = Z.to_nat (c_iters c * Z.of_nat (length (c_sites c)))
    | ByTolerance => forall t, c_tol c = Fin t -> 0 < t ->
        exists m, n = S m /\ change h (c_sites c) m <= t /\ forall j, (j < m)%nat -> t < change h (c_sites c) j
    end.
Proof.
  intros Hb Hm Hmut Hlk Hne E. destruct (update_pon fuel h c c' E) as [Es Esi].
  destruct (occupation fuel h c c' Hb Hm Hmut Hlk Hne E) as (P0 & _ & NP & KP & LP & _).
  destruct (built_tidy c Hb) as [A B C].
  destruct (init_pon_val (c_sites c) (c_pon c) (proj1 Hm) Hne A) as (X & Y & Z0).
  assert (Z1 : forall k, In k (ukeys (init_pon (c_sites c) (c_pon c))) -> In k (ukeys (c_sites c))) by (intros k Hk; apply Z0 in Hk; intuition).
  assert (R : exists n, pon_is (c_sites c) (c_pon c') (relaxed h (c_sites c) n) /\
    match c_method c with
    | PerCluster => n = Z.to_nat (c_iters c)
    | PerSite => n = Z.to_nat (c_iters c * Z.of_nat (length (c_sites c)))
    | ByTolerance => forall t, c_tol c = Fin t -> 0 < t ->
        exists m, n = S m /\ change h (c_sites c) m <= t /\ forall j, (j < m)%nat -> t < change h (c_sites c) j
    end).
  { unfold solve_pon in Es. destruct (c_method c).
    - destruct (iterate_n_val h (c_sites c) (Z.to_nat (c_iters c)) Hm Hmut Hne Hlk _ _ X Y) as (p & Ep & Q & _).
      exists (Z.to_nat (c_iters c)). split; [|reflexivity]. rewrite Ep in Es. injection Es as <-.
      change (fun _ : Z => / INR (length (c_sites c))) with (relaxed h (c_sites c) 0) in Q. rewrite steps_relaxed, Nat.add_0_r in Q. exact Q.
    - destruct (iterate_n_val h (c_sites c) (Z.to_nat (c_iters c * Z.of_nat (length (c_sites c)))) Hm Hmut Hne Hlk _ _ X Y) as (p & Ep & Q & _).
      exists (Z.to_nat (c_iters c * Z.of_nat (length (c_sites c)))). split; [|reflexivity]. rewrite Ep in Es. injection Es as <-.
      change (fun _ : Z => / INR (length (c_sites c))) with (relaxed h (c_sites c) 0) in Q. rewrite steps_relaxed, Nat.add_0_r in Q. exact Q.
    - destruct (Classical_Prop.classic (exists t, c_tol c = Fin t /\ 0 < t)) as [(t & Et & Ht)|No].
      + rewrite Et in Es. 
        assert (M : @nmul XR (Fin t) (nlit 11 10) = Fin (t * (11 / 10))).
        { cbn [nmul XR nlit]. cbn [xmul]. reflexivity. }
        rewrite M in Es.
        assert (Lt : t < t * (11 / 10)) by lra.
        destruct (tol_count h (c_sites c) t fuel Hm Hmut Hne Hlk O (t * (11 / 10)) _ _ X Y Z1 Lt Es) as (n & _ & Q & S1 & S2).
        exists (S n). split; [exact Q|]. intros t' Et' Ht'. assert (t' = t) by congruence. subst.
        exists n. split; [reflexivity|]. split; [exact S1|]. intros j Hj. apply S2. lia.
      + (* some number of steps *)
        assert (R : forall f m err pon, pon_is (c_sites c) pon (relaxed h (c_sites c) m) -> dist (ukeys (c_sites c)) (relaxed h (c_sites c) m) ->
          iterate_tol f (c_tol c) err (c_sites c) pon = Ok (c_pon c') -> exists n, pon_is (c_sites c) (c_pon c') (relaxed h (c_sites c) n)).
        { induction f as [|f IH]; intros m err pon HP HD; cbn [iterate_tol]; destruct (nltb (c_tol c) err); try discriminate.
          - intros Q; injection Q as ->; eauto.
          - destruct (iterate_val h (c_sites c) pon _ Hm Hmut Hne Hlk HP HD) as (pon1 & -> & HP1 & HD1 & K1). cbn [rbind].
            apply (IH (S m)); assumption.
          - intros Q; injection Q as ->; eauto. }
        destruct (R fuel O _ _ X Y Es) as (n & Q). exists n. split; [exact Q|]. intros t Et Ht. destruct No. eauto. }
  destruct R as (n & [_ Q] & Hn). exists n. split; [|exact Hn]. intros k Hk.
  assert (M1 : umem k (c_sites c') = true) by (rewrite Esi; apply umem_In; exact Hk).
  assert (M2 : umem k (c_pon c') = true) by (apply umem_In, KP; exact Hk).
  unfold c_probOn, bind, gets, cassert. rewrite M1. unfold ret. rewrite M2. unfold uget. rewrite (Q k Hk). reflexivity.
Qed.

(** a distribution the solver does not change any more is quasi-stationary *)
Lemma relax_fixed h sites P : Rsum (in_flow h sites P) (ukeys sites) <> 0 ->
  (forall k, In k (ukeys sites) -> relax h sites P k = P k) <->
  (forall k, In k (ukeys sites) -> in_flow h sites P k = Rsum (in_flow h sites P) (ukeys sites) * P k).
Proof.
  intros HS. split; intros X k Hk; specialize (X k Hk); unfold relax in *.
  - apply (f_equal (fun v => v * 2 - P k)) in X. 
    assert (Y : in_flow h sites P k / Rsum (in_flow h sites P) (ukeys sites) = P k) by lra.
    rewrite <- Y. field. exact HS.
  - rewrite X. field. exact HS.
Qed.
End Solver.
