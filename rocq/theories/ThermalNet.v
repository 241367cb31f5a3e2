(** * Concrete clusters for thermal equilibrium *)
From Coq Require Import ZArith List Bool Reals Lra Lia Permutation Relations.
From Verif Require Import Base BaseProofs Num OrdLaws RSum MarcusModel MarcusProofs SiteModel SiteSpec SiteProofs
  ClusterModel ClusterSpec ClusterHist ClusterOps MasterEq MasterLimit ClusterReal ClusterTables ClusterUpdate ClusterPick
  ClusterNet EscapeSpec EscapeProofs EscapeNet ThermalSpec ThermalProofs.
Import ListNotations.
Open Scope R_scope.

(** cell 0 holds [a], the others [b] *)
Definition duo_heap (a b : R) : @heap XR := fun i => Fin (if Z.eqb i 0 then a else b).
(** two sites; each has an outside neighbour with the rate of its inner hop *)
Definition duo_rnet : rnet := [(1, [(2, 0); (3, 0)]); (2, [(1, 1); (4, 1)])]%Z.
(** two sites; only site 2 has an outside neighbour *)
Definition lop_rnet : rnet := [(1, [(2, 0)]); (2, [(1, 0); (3, 1)])]%Z.
Lemma duo_good a b : 0 < a -> 0 < b -> good_rnet (duo_heap a b) duo_rnet.
Proof.
  intros Ha Hb. split; [nd|]. intros k r [X|[X|[]]]; injection X as <- <-; (split; [discriminate|]; split; [nd|]); intros n i Hin;
    (exists (if Z.eqb i 0 then a else b); split; [reflexivity | destruct (Z.eqb i 0); assumption]).
Qed.
Lemma lop_good a b : 0 < a -> 0 < b -> good_rnet (duo_heap a b) lop_rnet.
Proof.
  intros Ha Hb. split; [nd|]. intros k r [X|[X|[]]]; injection X as <- <-; (split; [discriminate|]; split; [nd|]); intros n i Hin;
    (exists (if Z.eqb i 0 then a else b); split; [reflexivity | destruct (Z.eqb i 0); assumption]).
Qed.

Section Witness.
Context {I : Impl} {G : @Rng XR}.

(** two sites that know each other, with any number of iterations *)
Lemma two_r h (t : rnet) (i clock : Z) : good_rnet h t -> map fst t = [1; 2]%Z ->
  (exists r, In (1%Z, r) t /\ In 2%Z (ukeys r)) -> (exists r, In (2%Z, r) t /\ In 1%Z (ukeys r)) ->
  (forall k r, In (k, r) t -> ~ In k (ukeys r)) -> (exists j r k, In (j, r) t /\ In k (ukeys r) /\ ~ In k (map fst t)) ->
  exists c : @cluster XR G, never_updated c /\ rmade h t (c_sites c) /\ joined (c_sites c) /\ sound h c /\
    forall N, exists c1 c', c_sites c1 = c_sites c /\ never_updated c1 /\ c_method c1 = PerSite /\ (N <= c_iters c1)%Z /\ c_update 0 h c1 = Ret tt c'.
Proof.
  intros Hg Hk H12 H21 Hno Hex. destruct (build_rnet (G := G) h i clock t Hg) as (c & Hnu & Hm & Em).
  assert (E12 : internal_edge (c_sites c) 1 2).
  { apply (rmade_edge _ _ _ Hg Hm). destruct H12 as (r & A & B). exists r. rewrite Hk. simpl. auto 10. }
  assert (E21 : internal_edge (c_sites c) 2 1).
  { apply (rmade_edge _ _ _ Hg Hm). destruct H21 as (r & A & B). exists r. rewrite Hk. simpl. auto 10. }
  assert (J : joined (c_sites c)).
  { intros j k Hj Hk'. apply (rmade_in _ _ _ Hm) in Hj, Hk'. rewrite Hk in Hj, Hk'. simpl in Hj, Hk'.
    destruct Hj as [<-|[<-|[]]]; destruct Hk' as [<-|[<-|[]]]; try apply rt_refl; apply rt_step; assumption. }
  assert (L2 : length t = 2%nat) by (rewrite <- (map_length fst), Hk; reflexivity).
  assert (So : sound h c).
  { apply (rnet_sound h t c Hg Hm); [lia | | exact J | exact Hex].
    intros x y H. apply (rmade_edge _ _ _ Hg Hm) in H. destruct H as (r & A & B & C). assert (X : In x (map fst t)) by (apply (in_map fst) in A; exact A).
    rewrite Hk in X, C. simpl in X, C. destruct X as [<-|[<-|[]]]; destruct C as [<-|[<-|[]]]; try assumption; exfalso; eapply Hno; eassumption. }
  exists c. split; [exact Hnu|]. split; [exact Hm|]. split; [exact J|]. split; [exact So|]. intros N. set (n := Z.max N 1). set (c1 := c_with_iters n c).
  assert (E1 : c_setIterations n c = Ret tt c1).
  { unfold c_setIterations, bind, cassert. assert (L : (0 <? n)%Z = true) by (apply Z.ltb_lt; unfold n; lia). rewrite L. reflexivity. }
  assert (Hnu1 : never_updated c1) by (eapply nu_iters; [exact Hnu | exact E1]).
  assert (So1 : sound h c1) by (destruct So; constructor; assumption).
  destruct (first_update 0 h c1 Hnu1 So1 Em) as (c' & E). exists c1, c'. split; [reflexivity|]. split; [exact Hnu1|]. split; [exact Em|]. split; [|exact E].
  cbn [c_iters c_with_iters c1]. unfold n. lia.
Qed.

Section Duo.
Variables (t : rnet) (h : @heap XR) (m : umap (@site XR G)).
Hypotheses (Hg : good_rnet h t) (Hm : rmade h t m).
Lemma rmade_mrate k r n : In (k, r) t -> mrate h m k n = match ulookup n r with Some a => realv (h a) | None => 0 end.
Proof.
  intros Hin. pose proof (rmade_members h t m Hg Hm) as Mo. destruct (rmade_site h t m Hg Hm k r Hin) as (s & Hs & P).
  unfold mrate. rewrite (In_ulookup k s m (proj1 Mo) Hs). unfold site_rate.
  assert (ND : NoDup (ukeys (s_neigh s))) by (apply (neigh_NoDup h), (proj2 Mo k s Hs)).
  rewrite (ulookup_perm (s_neigh s) r n ND P). reflexivity.
Qed.
End Duo.

Lemma duo_marcus lambda T (E : Z -> R) J0 N tol : 0 < lambda -> 0 < T -> J0 <> 0 ->
  exists h (c : @cluster XR G) c', never_updated c /\ members_ok h (c_sites c) /\ mutual (c_sites c) /\ joined (c_sites c) /\ (2 <= length (c_sites c))%nat /\
    has_exit (c_sites c) /\ marcus_rates h (c_sites c) lambda T E (fun _ _ => J0) /\ even_exits h (c_sites c) (1 / 2) /\
    finer N tol c /\ c_update 0 h c = Ret tt c'.
Proof.
  intros Hl HT HJ. set (a := marcus_getRate (marcus_new lambda T) (E 1%Z) (E 2%Z) J0). set (b := marcus_getRate (marcus_new lambda T) (E 2%Z) (E 1%Z) J0).
  assert (Ha : 0 < a) by (apply rate_positive; assumption). assert (Hb : 0 < b) by (apply rate_positive; assumption).
  pose proof (duo_good a b Ha Hb) as Hg. destruct (two_r (duo_heap a b) duo_rnet 0 0 Hg) as (c & _ & Hm & J & So & Hn); try reflexivity.
  { exists [(2, 0); (3, 0)]%Z. simpl. auto 10. }
  { exists [(1, 1); (4, 1)]%Z. simpl. auto 10. }
  { intros k r [X|[X|[]]]; injection X as <- <-; simpl; intuition discriminate. }
  { exists 1%Z, [(2, 0); (3, 0)]%Z, 3%Z. simpl. intuition discriminate. }
  destruct (Hn N) as (c1 & c' & Es & Hnu & Em & Hi & Eu). destruct So as [So1 So2 So3 So4 So5]. exists (duo_heap a b), c1, c'. rewrite Es.
  assert (A1 : In (1%Z, [(2, 0); (3, 0)]%Z) duo_rnet) by (simpl; auto 10). assert (A2 : In (2%Z, [(1, 1); (4, 1)]%Z) duo_rnet) by (simpl; auto 10).
  split; [exact Hnu|]. split; [exact So1|]. split; [exact So2|]. split; [exact J|]. split; [exact So5|]. split; [exact So4|]. split.
  { split; [reflexivity|]. intros i k He. apply (rmade_edge _ _ _ Hg Hm) in He. destruct He as (r & A & B & C). simpl in C.
    destruct A as [A|[A|[]]]; injection A as <- <-; simpl in B; destruct B as [<-|[<-|[]]]; destruct C as [C|[C|[]]]; try discriminate C.
    - rewrite (rmade_mrate _ _ _ Hg Hm _ _ _ A1). reflexivity.
    - rewrite (rmade_mrate _ _ _ Hg Hm _ _ _ A2). reflexivity. }
  split.
  { intros k Hk. pose proof (off_in_tau (duo_heap a b) (c_sites c) k So1 Hk) as X. pose proof (mtau_pos (duo_heap a b) (c_sites c) So1 k Hk) as Tp.
    assert (Y : moff (duo_heap a b) (c_sites c) k * mtau (duo_heap a b) (c_sites c) k = / 2).
    { apply (rmade_in _ _ _ Hm) in Hk. simpl in Hk. destruct Hk as [<-|[<-|[]]].
      - rewrite (rmade_moff _ _ _ Hg Hm _ _ A1), (rmade_mtau _ _ _ Hg Hm _ _ A1). simpl. field. lra.
      - rewrite (rmade_moff _ _ _ Hg Hm _ _ A2), (rmade_mtau _ _ _ Hg Hm _ _ A2). simpl. field. lra. }
    apply Rmult_eq_reg_r with (mtau (duo_heap a b) (c_sites c) k); lra. }
  split; [unfold finer; rewrite Em; exact Hi | exact Eu].
Qed.

(** only site 2 has an exit: most internal picks yield site 1 *)
Lemma lop_marcus lambda T J0 N tol : 0 < lambda -> 0 < T -> J0 <> 0 ->
  exists h (c : @cluster XR G) c' x, never_updated c /\ sound h c /\ joined (c_sites c) /\ (forall k, In k (ukeys (c_sites c)) <-> k = 1%Z \/ k = 2%Z) /\
    marcus_rates h (c_sites c) lambda T (fun _ => 0) (fun _ _ => J0) /\
    finer N tol c /\ c_update 0 h c = Ret tt c' /\ internal_share c' 1 x /\ 3 / 5 < x.
Proof.
  intros Hl HT HJ. set (a := marcus_getRate (marcus_new lambda T) 0 0 J0).
  assert (Ha : 0 < a) by (apply rate_positive; assumption). assert (Hb : 0 < 3 * a) by lra.
  pose proof (lop_good a (3 * a) Ha Hb) as Hg. set (h := duo_heap a (3 * a)) in *. destruct (two_r h lop_rnet 0 0 Hg) as (c & _ & Hm & J & So & Hn); try reflexivity.
  { exists [(2, 0)]%Z. simpl. auto 10. }
  { exists [(1, 0); (3, 1)]%Z. simpl. auto 10. }
  { intros k r [X|[X|[]]]; injection X as <- <-; simpl; intuition discriminate. }
  { exists 2%Z, [(1, 0); (3, 1)]%Z, 3%Z. simpl. intuition discriminate. }
  pose proof So as [So1 So2 So3 So4 So5].
  destruct (shares_limit h (c_sites c) So1 So2 J So5 So4) as (Q & (QP & QS & QF) & Lim).
  assert (A1 : In (1%Z, [(2, 0)]%Z) lop_rnet) by (simpl; auto 10). assert (A2 : In (2%Z, [(1, 0); (3, 1)]%Z) lop_rnet) by (simpl; auto 10).
  assert (Hkeys : forall k, In k (ukeys (c_sites c)) <-> k = 1%Z \/ k = 2%Z) by (intros k; rewrite (rmade_in _ _ _ Hm k); simpl; intuition).
  assert (K1 : In 1%Z (ukeys (c_sites c))) by (apply Hkeys; auto). assert (K2 : In 2%Z (ukeys (c_sites c))) by (apply Hkeys; auto).
  assert (W1 : wint h (c_sites c) Q 1 = 2 / 3).
  { assert (P12 : mprob h (c_sites c) 1 2 = 1) by (rewrite (rmade_mprob _ _ _ Hg Hm 1 _ _ A1); simpl; field; lra).
    assert (P11 : mprob h (c_sites c) 1 1 = 0) by (rewrite (rmade_mprob _ _ _ Hg Hm 1 _ _ A1); simpl; field; lra).
    assert (P21 : mprob h (c_sites c) 2 1 = / 4) by (rewrite (rmade_mprob _ _ _ Hg Hm 2 _ _ A2); simpl; field; lra).
    assert (P22 : mprob h (c_sites c) 2 2 = 0) by (rewrite (rmade_mprob _ _ _ Hg Hm 2 _ _ A2); simpl; field; lra).
    assert (T1 : mtau h (c_sites c) 1 = / a) by (rewrite (rmade_mtau _ _ _ Hg Hm 1 _ A1); simpl; f_equal; lra).
    assert (T2 : mtau h (c_sites c) 2 = / a / 4) by (rewrite (rmade_mtau _ _ _ Hg Hm 2 _ A2); simpl; field; lra).
    assert (Sum : forall f, Rsum f (ukeys (c_sites c)) = f 1%Z + f 2%Z) by (intros f; rewrite (rsum_keys _ _ _ Hm); simpl; lra).
    assert (F1 : in_flow h (c_sites c) Q 1 = Q 2%Z / 4) by (unfold in_flow; rewrite Sum, P11, P21; lra).
    assert (F2 : in_flow h (c_sites c) Q 2 = Q 1%Z) by (unfold in_flow; rewrite Sum, P12, P22; lra).
    pose proof (QF 1%Z K1) as G1. pose proof (QF 2%Z K2) as G2. rewrite Sum, F1, F2 in G1, G2. rewrite Sum in QS. pose proof (QP 1%Z K1) as Q1. pose proof (QP 2%Z K2) as Q2.
    set (x := Q 1%Z) in *. set (y := Q 2%Z) in *. assert (E : y = 2 * x).
    { assert (X : (y - 2 * x) * (y + 2 * x) = 0).
      { set (l := y / 4 + x) in *. assert (Y1 : x * x = l * y * x) by (rewrite <- G2; ring).
        assert (Y2 : y / 4 * y = l * x * y) by (rewrite <- G1; ring). lra. }
      apply Rmult_integral in X. lra. }
    unfold wint, WT. rewrite Sum, T1, T2. fold x y. rewrite E. field. split; lra. }
  destruct (Lim (1 / 15) ltac:(lra)) as (N0 & t0 & _ & H0). destruct (Hn (Z.max N N0)) as (c1 & c' & Es & Hnu & Em & Hi & Eu).
  destruct (H0 0%nat c1 c' Hnu Es ltac:(unfold finer; rewrite Em; lia) Eu 1%Z K1) as (x & _ & Sh & Cl). rewrite W1 in Cl.
  exists h, c1, c', x. rewrite Es. split; [exact Hnu|]. split; [constructor; rewrite Es; assumption|]. split; [exact J|]. split; [exact Hkeys|]. split.
  { split; [reflexivity|]. intros i k He. apply (rmade_edge _ _ _ Hg Hm) in He. destruct He as (r & A & B & C). simpl in C.
    destruct A as [A|[A|[]]]; injection A as <- <-; simpl in B.
    - destruct B as [<-|[]]. rewrite (rmade_mrate _ _ _ Hg Hm _ _ _ A1). reflexivity.
    - destruct B as [<-|[<-|[]]]; [|destruct C as [C|[C|[]]]; discriminate C]. rewrite (rmade_mrate _ _ _ Hg Hm _ _ _ A2). reflexivity. }
  split; [unfold finer; rewrite Em; lia|]. split; [exact Eu|]. split; [exact Sh|]. apply Rabs_def2 in Cl. lra.
Qed.
End Witness.
