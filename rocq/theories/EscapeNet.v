(** * Concrete clusters for the comparison with a hop-by-hop walker *)
From Coq Require Import ZArith List Bool Reals Lra Lia Permutation Relations.
From Verif Require Import Base BaseProofs Num OrdLaws RSum LatticeReal SiteModel SiteSpec SiteProofs
  ClusterModel ClusterSpec ClusterFrame ClusterHist ClusterOps MasterEq MasterLimit ClusterReal ClusterTables ClusterUpdate ClusterProofs ClusterPick
  ClusterSolver ClusterNet EscapeSpec EscapeProofs.
Import ListNotations.
Open Scope R_scope.

(** a network with rates: site ids with neighbours and addresses of rates *)
Definition rnet := list (Z * umap Z).

Lemma ulookup_perm {V} (l l' : umap V) n : NoDup (ukeys l) -> Permutation l l' -> ulookup n l = ulookup n l'.
Proof.
  intros ND P. assert (ND' : NoDup (ukeys l')) by (eapply Permutation_NoDup; [apply Permutation_map; exact P | exact ND]).
  destruct (ulookup n l) as [v|] eqn:E.
  - symmetry. apply In_ulookup; [exact ND'|]. eapply Permutation_in; [exact P | apply ulookup_In; exact E].
  - destruct (ulookup n l') as [v|] eqn:E'; [|reflexivity]. apply ulookup_In in E'.
    eapply Permutation_in in E'; [|symmetry; exact P]. rewrite (In_ulookup n v l ND E') in E. discriminate.
Qed.

Section RNet.
Context {I : Impl} {G : @Rng XR}.
Implicit Types (c : @cluster XR G) (m : umap (@site XR G)).
Variable h : @heap XR.
Definition good_rnet (t : rnet) : Prop := NoDup (map fst t) /\ forall k r, In (k, r) t -> good_rates h r.

Lemma make_rsite (clock : Z) i r : good_rates h r ->
  exists s, (s_setId i ;; s_setRates h r) (@site_new XR G clock) = Ret tt s /\
    s_id s = Some i /\ Permutation (s_neigh s) r /\ site_ok h s.
Proof.
  intros Hg. unfold bind, s_setId. rewrite modify_eq.
  destruct (setRates_fresh h r (s_with_id (Some i) (@site_new XR G clock)) eq_refl Hg) as (nb & l & E & Pn & Pl & Sl).
  eexists. split; [exact E|]. split; [reflexivity|]. split; [exact Pn|].
  pose proof (good_perm _ _ _ (Permutation_sym Pn) Hg) as Hg'. split; [exact Hg'|].
  cbn [s_neigh s_with_prob s_with_tau s_with_neigh].
  assert (T : total_rate h nb = total_rate h r) by (apply Rsum_perm; exact Pn).
  apply table_reads; [exact Hg' | reflexivity | | rewrite T; reflexivity].
  split; [|exact Sl]. rewrite T, Pl. apply Permutation_map. symmetry; exact Pn.
Qed.

Definition rmade (t : rnet) m : Prop :=
  Permutation (ukeys m) (map fst t) /\ forall k s, In (k, s) m -> exists r, In (k, r) t /\ Permutation (s_neigh s) r /\ site_ok h s.

Lemma add_rnet (clock : Z) t : forall t0 c, rmade t0 (c_sites c) -> good_rnet (t0 ++ t) ->
  exists l m', c_addSites l c = Ret tt (c_with_sites m' c) /\ rmade (t0 ++ t) m'.
Proof.
  induction t as [|[k r] t IH]; intros t0 c Hm Hg.
  - exists [], (c_sites c). rewrite app_nil_r. split; [destruct c; reflexivity | exact Hm].
  - destruct (make_rsite clock k r) as (s & Es & Ei & Pn & Ok); [apply (proj2 Hg k); apply in_or_app; simpl; auto|].
    set (m1 := uset (c_sites c) k (s_with_cluster (c_id c) s)).
    assert (Hk : umem k (c_sites c) = false).
    { apply umem_false. intros Hin. eapply Permutation_in in Hin; [|apply Hm].
      destruct Hg as [NDa _]. rewrite map_app in NDa. cbn [map fst] in NDa. apply NoDup_remove_2 in NDa. apply NDa. apply in_or_app; auto. }
    assert (M1 : rmade (t0 ++ [(k, r)]) m1).
    { pose proof (uset_perm_new (c_sites c) k (s_with_cluster (c_id c) s)) as U.
      specialize (U Hk). split.
      - unfold m1. rewrite map_app. cbn [map fst]. unfold ukeys. rewrite (Permutation_map fst U). cbn [map fst].
        etransitivity; [|apply Permutation_cons_append]. constructor. apply Hm.
      - intros j s' Hin. eapply Permutation_in in Hin; [|exact U]. destruct Hin as [E|Hin].
        + inversion E; subst. exists r. split; [apply in_or_app; simpl; auto|]. split; [exact Pn | exact Ok].
        + destruct Hm as [_ Hm]. destruct (Hm j s' Hin) as (n2 & A & B). exists n2. split; [apply in_or_app; auto | exact B]. }
    destruct (IH (t0 ++ [(k, r)]) (c_with_sites m1 c)) as (l & m' & E & Mm); [exact M1 | rewrite <- app_assoc; exact Hg|].
    exists (s :: l), m'. rewrite <- app_assoc in Mm. split; [|exact Mm].
    unfold c_addSites in *. cbn [mfor]. unfold c_addSite, s_getId. rewrite Ei. unfold bind at 1 2, lift, gets, cassert.
    unfold bind at 1 2 3. rewrite Hk. unfold bind, ret, modify. cbn [negb]. fold m1. exact E.
Qed.
Lemma build_rnet (i clock : Z) (t : rnet) : good_rnet t ->
  exists c : @cluster XR G, never_updated c /\ rmade t (c_sites c) /\ c_method c = PerSite.
Proof.
  intros Hg. destruct (add_rnet clock t [] (cluster_new i clock)) as (l & m' & E & M); [split; [reflexivity | intros k s []] | exact Hg|].
  exists (c_with_sites m' (cluster_new i clock)). split; [eapply nu_add; [apply nu_new | exact E]|]. split; [exact M | reflexivity].
Qed.

Section Read.
Variables (t : rnet) (m : umap (@site XR G)).
Hypothesis (Hg : good_rnet t) (Hm : rmade t m).
Lemma rmade_in k : In k (ukeys m) <-> In k (map fst t).
Proof. split; apply Permutation_in; [apply Hm | symmetry; apply Hm]. Qed.
Lemma rmade_members : members_ok h m.
Proof.
  split; [eapply Permutation_NoDup; [symmetry; apply Hm | apply Hg]|]. intros k s Hin. destruct (proj2 Hm k s Hin) as (r & _ & _ & A). exact A.
Qed.
Lemma rmade_site k r : In (k, r) t -> exists s, In (k, s) m /\ Permutation (s_neigh s) r.
Proof.
  intros Hin. assert (Hk : In k (ukeys m)) by (apply rmade_in; apply (in_map fst) in Hin; exact Hin).
  destruct (keys_In m k Hk) as [s Hs]. exists s. split; [exact Hs|]. destruct (proj2 Hm k s Hs) as (r2 & A & B & _).
  pose proof (In_ulookup k r t (proj1 Hg) Hin) as E1. rewrite (In_ulookup k r2 t (proj1 Hg) A) in E1. injection E1 as ->. exact B.
Qed.
Lemma rmade_edge i k : internal_edge m i k <-> exists r, In (i, r) t /\ In k (ukeys r) /\ In k (map fst t).
Proof.
  split.
  - intros (s & Hin & Hn & Hk). destruct (proj2 Hm i s Hin) as (r & A & B & _). exists r. split; [exact A|].
    split; [|apply rmade_in; exact Hk]. eapply Permutation_in; [apply Permutation_map; exact B | exact Hn].
  - intros (r & A & B & C). destruct (rmade_site i r A) as (s & Hs & P). exists s. split; [exact Hs|].
    split; [eapply Permutation_in; [apply Permutation_map; symmetry; exact P | exact B] | apply rmade_in; exact C].
Qed.
Lemma rumem n : umem n m = zin n (map fst t).
Proof.
  destruct (zin n (map fst t)) eqn:E.
  - apply umem_In, rmade_in. unfold zin in E. apply existsb_exists in E. destruct E as (x & Hx & Ex). apply Z.eqb_eq in Ex. subst; exact Hx.
  - apply umem_false. rewrite rmade_in. intros Hin. assert (zin n (map fst t) = true); [|congruence].
    unfold zin. apply existsb_exists. exists n. split; [exact Hin | apply Z.eqb_refl].
Qed.
Lemma rmade_moff k r : In (k, r) t -> moff h m k = Rsum (fun na => if zin (fst na) (map fst t) then 0 else realv (h (snd na))) r.
Proof.
  intros Hin. destruct (rmade_site k r Hin) as (s & Hs & P). rewrite (moff_in h m rmade_members k s Hs).
  unfold off_rate. rewrite (Rsum_perm _ _ _ P). apply Rsum_ext. intros na _. rewrite rumem. reflexivity.
Qed.
Lemma rmade_mtau k r : In (k, r) t -> mtau h m k = / Rsum (fun na => realv (h (snd na))) r.
Proof.
  intros Hin. destruct (rmade_site k r Hin) as (s & Hs & P). rewrite (mtau_in h m rmade_members k s Hs).
  f_equal. unfold total_rate. apply Rsum_perm. exact P.
Qed.
Lemma rmade_mprob k r n : In (k, r) t -> mprob h m k n =
  (match ulookup n r with Some a => realv (h a) | None => 0 end) / Rsum (fun na => realv (h (snd na))) r.
Proof.
  intros Hin. destruct (rmade_site k r Hin) as (s & Hs & P). rewrite (qq_in h m k n s rmade_members Hs). unfold site_prob, site_rate.
  assert (ND : NoDup (ukeys (s_neigh s))) by (apply (neigh_NoDup h), (proj2 rmade_members k s Hs)).
  f_equal; [|f_equal; unfold total_rate; apply Rsum_perm; exact P].
  rewrite (ulookup_perm (s_neigh s) r n ND P). reflexivity.
Qed.
Lemma rsum_keys (f : Z -> R) : Rsum f (ukeys m) = Rsum f (map fst t).
Proof. apply Rsum_perm. apply Hm. Qed.
Lemma rlength : length m = length t.
Proof. destruct Hm as [P _]. apply Permutation_length in P. unfold ukeys in P. rewrite !map_length in P. exact P. Qed.
End Read.
End RNet.

(** two sites with unit rates, and an outside neighbour each *)
Definition pair_rnet : rnet := [(1, [(2, 0); (3, 0)]); (2, [(1, 0); (4, 0)])]%Z.
(** a trap in the middle: the rates of site 2 are in cell 1 *)
Definition trap_rnet : rnet := [(1, [(2, 0); (4, 0)]); (2, [(1, 1); (3, 1)]); (3, [(2, 0); (5, 0)])]%Z.
Definition trap_heap (e : R) : @heap XR := fun a => Fin (if Z.eqb a 0 then 1 else e).

Ltac nd := repeat constructor; simpl; intuition discriminate.
Lemma pair_good : good_rnet unit_heap pair_rnet.
Proof.
  split; [nd|]. intros k r [X|[X|[]]]; injection X as <- <-; (split; [discriminate|]; split; [nd|]); intros n a _; exists 1; (split; [reflexivity | lra]).
Qed.
Lemma trap_good e : 0 < e -> good_rnet (trap_heap e) trap_rnet.
Proof.
  intros He. split; [nd|]. intros k r [X|[X|[X|[]]]]; injection X as <- <-; (split; [discriminate|]; split; [nd|]); intros n a Hin;
    (exists (if Z.eqb a 0 then 1 else e); split; [reflexivity | destruct (Z.eqb a 0); lra]).
Qed.

Section Witness.
Context {I : Impl} {G : @Rng XR}.

Lemma rnet_sound h (t : rnet) (c : @cluster XR G) : good_rnet h t -> rmade h t (c_sites c) -> (2 <= length t)%nat ->
  (forall i k, internal_edge (c_sites c) i k -> internal_edge (c_sites c) k i) -> joined (c_sites c) ->
  (exists i r k, In (i, r) t /\ In k (ukeys r) /\ ~ In k (map fst t)) -> sound h c.
Proof.
  intros Hg Hm H2 Hmut Hj (i & r & k & A & B & C). pose proof (rmade_members h t _ Hg Hm) as Hme. pose proof (rlength h t _ Hm) as Hlen.
  constructor; [exact Hme | exact Hmut | | | lia].
  - apply joined_linked; [apply Hme | exact Hj | lia].
  - destruct (rmade_site h t _ Hg Hm i r A) as (s & Hs & P). exists i, s, k. split; [exact Hs|].
    split; [eapply Permutation_in; [apply Permutation_map; symmetry; exact P | exact B]|]. rewrite (rmade_in h t _ Hm). exact C.
Qed.
Lemma first_update fuel h (c : @cluster XR G) : never_updated c -> sound h c -> c_method c = PerSite -> exists c', c_update fuel h c = Ret tt c'.
Proof.
  intros Hnu So Em. pose proof (built_tidy c (never_updated_built c Hnu)) as Ti.
  destruct (never_updated_empty c Hnu) as (_ & _ & _ & _ & V & _ & _ & V1 & V2 & V3).
  destruct (update_val fuel h c [] c So Ti) as [(P & c' & E & _)|(X & _)]; [| |eauto|congruence].
  { rewrite V. reflexivity. }
  { left; reflexivity. }
Qed.

Lemma pair_r (i clock : Z) : exists (c c' : @cluster XR G), never_updated c /\ c_method c = PerSite /\ rmade unit_heap pair_rnet (c_sites c) /\ sound unit_heap c /\
  joined (c_sites c) /\ c_update 0 unit_heap c = Ret tt c'.
Proof.
  destruct (build_rnet (G := G) unit_heap i clock pair_rnet pair_good) as (c & Hnu & Hm & Em).
  assert (E12 : internal_edge (c_sites c) 1 2) by (apply (rmade_edge _ _ _ pair_good Hm); exists [(2, 0); (3, 0)]%Z; simpl; auto 10).
  assert (E21 : internal_edge (c_sites c) 2 1) by (apply (rmade_edge _ _ _ pair_good Hm); exists [(1, 0); (4, 0)]%Z; simpl; auto 10).
  assert (J : joined (c_sites c)).
  { intros j k Hj Hk. apply (rmade_in _ _ _ Hm) in Hj, Hk. simpl in Hj, Hk.
    destruct Hj as [<-|[<-|[]]]; destruct Hk as [<-|[<-|[]]]; try apply rt_refl; apply rt_step; assumption. }
  assert (So : sound unit_heap c).
  { apply (rnet_sound unit_heap pair_rnet c pair_good Hm); [simpl; lia | | exact J |].
    - intros x y H. apply (rmade_edge _ _ _ pair_good Hm) in H. destruct H as (r & A & B & C). simpl in A, C.
      destruct A as [A|[A|[]]]; injection A as <- <-; simpl in B; destruct B as [<-|[<-|[]]]; destruct C as [C|[C|[]]]; try discriminate C; assumption.
    - exists 1%Z, [(2, 0); (3, 0)]%Z, 3%Z. simpl. intuition discriminate. }
  destruct (first_update 0 unit_heap c Hnu So Em) as (c' & E). exists c, c'. auto 10.
Qed.
Lemma trap_r e (i clock : Z) : 0 < e -> exists (c c' : @cluster XR G), never_updated c /\ rmade (trap_heap e) trap_rnet (c_sites c) /\ sound (trap_heap e) c /\
  joined (c_sites c) /\ c_update 0 (trap_heap e) c = Ret tt c'.
Proof.
  intros He. pose proof (trap_good e He) as Hg. destruct (build_rnet (G := G) (trap_heap e) i clock trap_rnet Hg) as (c & Hnu & Hm & Em).
  assert (E12 : internal_edge (c_sites c) 1 2) by (apply (rmade_edge _ _ _ Hg Hm); exists [(2, 0); (4, 0)]%Z; simpl; auto 10).
  assert (E21 : internal_edge (c_sites c) 2 1) by (apply (rmade_edge _ _ _ Hg Hm); exists [(1, 1); (3, 1)]%Z; simpl; auto 10).
  assert (E23 : internal_edge (c_sites c) 2 3) by (apply (rmade_edge _ _ _ Hg Hm); exists [(1, 1); (3, 1)]%Z; simpl; auto 10).
  assert (E32 : internal_edge (c_sites c) 3 2) by (apply (rmade_edge _ _ _ Hg Hm); exists [(2, 0); (5, 0)]%Z; simpl; auto 10).
  assert (J : joined (c_sites c)).
  { intros j k Hj Hk. apply (rmade_in _ _ _ Hm) in Hj, Hk. simpl in Hj, Hk.
    assert (To : clos_refl_trans Z (internal_edge (c_sites c)) j 2%Z).
    { destruct Hj as [<-|[<-|[<-|[]]]]; [apply rt_step; exact E12 | apply rt_refl | apply rt_step; exact E32]. }
    eapply rt_trans; [exact To|]. destruct Hk as [<-|[<-|[<-|[]]]]; [apply rt_step; exact E21 | apply rt_refl | apply rt_step; exact E23]. }
  assert (So : sound (trap_heap e) c).
  { apply (rnet_sound (trap_heap e) trap_rnet c Hg Hm); [simpl; lia | | exact J |].
    - intros x y H. apply (rmade_edge _ _ _ Hg Hm) in H. destruct H as (r & A & B & C). simpl in A, C.
      destruct A as [A|[A|[A|[]]]]; injection A as <- <-; simpl in B; destruct B as [<-|[<-|[]]]; destruct C as [C|[C|[C|[]]]]; try discriminate C; assumption.
    - exists 1%Z, [(2, 0); (4, 0)]%Z, 4%Z. simpl. intuition discriminate. }
  destruct (first_update 0 (trap_heap e) c Hnu So Em) as (c' & E). exists c, c'. auto 10.
Qed.

(** ** The pair *)
Section Pair.
Variable m : umap (@site XR G).
Hypothesis Hm : rmade unit_heap pair_rnet m.
Lemma pair_prob : mprob unit_heap m 1 1 = 0 /\ mprob unit_heap m 1 2 = / 2 /\ mprob unit_heap m 1 3 = / 2 /\
  mprob unit_heap m 2 1 = / 2 /\ mprob unit_heap m 2 2 = 0 /\ mprob unit_heap m 2 3 = 0.
Proof.
  assert (A1 : In (1%Z, [(2, 0); (3, 0)]%Z) pair_rnet) by (simpl; auto 10). assert (A2 : In (2%Z, [(1, 0); (4, 0)]%Z) pair_rnet) by (simpl; auto 10).
  rewrite !(rmade_mprob _ _ _ pair_good Hm 1 _ _ A1), !(rmade_mprob _ _ _ pair_good Hm 2 _ _ A2). simpl. repeat split; lra.
Qed.
Lemma pair_tau : mtau unit_heap m 1 = / 2 /\ mtau unit_heap m 2 = / 2.
Proof.
  assert (A1 : In (1%Z, [(2, 0); (3, 0)]%Z) pair_rnet) by (simpl; auto 10). assert (A2 : In (2%Z, [(1, 0); (4, 0)]%Z) pair_rnet) by (simpl; auto 10).
  rewrite (rmade_mtau _ _ _ pair_good Hm 1 _ A1), (rmade_mtau _ _ _ pair_good Hm 2 _ A2). simpl. split; f_equal; lra.
Qed.
Lemma pair_flow P : in_flow unit_heap m P 1 = P 2%Z / 2 /\ in_flow unit_heap m P 2 = P 1%Z / 2.
Proof.
  destruct pair_prob as (A & B & C & D & E & F). unfold in_flow. rewrite !(rsum_keys _ _ _ Hm). simpl. rewrite A, B, D, E. split; lra.
Qed.
Lemma pair_sum (f : Z -> R) : Rsum f (ukeys m) = f 1%Z + f 2%Z.
Proof. rewrite (rsum_keys _ _ _ Hm). simpl. lra. Qed.
Lemma pair_qs Q : quasi_stationary unit_heap m Q -> Q 1%Z = / 2 /\ Q 2%Z = / 2 /\ stay_prob unit_heap m Q = / 2.
Proof.
  intros (HP & HS & HQ). rewrite pair_sum in HS. destruct (pair_flow Q) as [F1 F2].
  assert (K1 : In 1%Z (ukeys m)) by (apply (rmade_in _ _ _ Hm); simpl; auto 10). assert (K2 : In 2%Z (ukeys m)) by (apply (rmade_in _ _ _ Hm); simpl; auto 10).
  pose proof (HQ 1%Z K1) as H1. pose proof (HQ 2%Z K2) as H2. rewrite !pair_sum, F1, F2 in *. pose proof (HP 1%Z K1). pose proof (HP 2%Z K2).
  unfold stay_prob. rewrite pair_sum, F1, F2. assert (X : Q 2%Z / 2 + Q 1%Z / 2 = / 2) by lra. rewrite X in *. repeat split; lra.
Qed.
Lemma pair_half n k : In k (ukeys m) -> relaxed unit_heap m n k = / 2.
Proof.
  revert k. induction n as [|n IH]; intros k Hk.
  - cbn [relaxed]. rewrite (rlength _ _ _ Hm). simpl. reflexivity.
  - cbn [relaxed]. unfold relax. rewrite pair_sum. destruct (pair_flow (relaxed unit_heap m n)) as [F1 F2].
    assert (K1 : In 1%Z (ukeys m)) by (apply (rmade_in _ _ _ Hm); simpl; auto 10). assert (K2 : In 2%Z (ukeys m)) by (apply (rmade_in _ _ _ Hm); simpl; auto 10).
    rewrite F1, F2, !IH by assumption. apply (rmade_in _ _ _ Hm) in Hk. simpl in Hk. destruct Hk as [<-|[<-|[]]]; rewrite ?F1, ?F2, !IH by assumption; field.
Qed.
(** after 2 j hops a walker from 1 is on 1 with probability 4^-j, after 2 j + 1 hops on 2 *)
Lemma pair_walk k n : (k = 1 \/ k = 2)%Z -> still_in unit_heap m (on k) n 1 = (if Z.eqb k 1 then if Nat.even n then (/ 2) ^ n else 0 else if Nat.even n then 0 else (/ 2) ^ n) /\
  still_in unit_heap m (on k) n 2 = (if Z.eqb k 1 then if Nat.even n then 0 else (/ 2) ^ n else if Nat.even n then (/ 2) ^ n else 0).
Proof.
  intros Hk. induction n as [|n [IH1 IH2]].
  - destruct Hk as [-> | ->]; cbn; split; reflexivity.
  - cbn [still_in]. destruct (pair_flow (still_in unit_heap m (on k) n)) as [F1 F2]. rewrite F1, F2, IH1, IH2.
    rewrite Nat.even_succ, <- Nat.negb_even. destruct (Z.eqb k 1), (Nat.even n); cbn [negb pow]; split; lra.
Qed.
End Pair.

(** alternating series *)
Lemma even_series b : infinite_sum (fun n => (if Bool.eqb (Nat.even n) b then (/ 2) ^ n else 0) * / 2) (if b then 2 / 3 else 1 / 3).
Proof.
  pose proof (geo (/ 2) (/ 2) ltac:(lra)) as G1.
  pose proof (GP_infinite (- / 2) ltac:(rewrite Rabs_Ropp, Rabs_pos_eq; lra)) as G2.
  set (x := if b then 1 else -1).
  assert (C : Un_cv (fun N => / 2 * sum_f_R0 (fun n => (/ 2) ^ n * / 2) N + x * / 4 * sum_f_R0 (fun n => 1 * (- / 2) ^ n) N) (/ 2 * (/ 2 / (1 - / 2)) + x * / 4 * / (1 - - / 2))).
  { apply CV_plus; [apply (CV_mult (fun _ => / 2)); [apply Un_cv_const | exact G1] | apply (CV_mult (fun _ => x * / 4)); [apply Un_cv_const | exact G2]]. }
  replace (if b then 2 / 3 else 1 / 3) with (/ 2 * (/ 2 / (1 - / 2)) + x * / 4 * / (1 - - / 2)) by (unfold x; destruct b; field).
  refine (Un_cv_ext _ _ _ _ C). intros N. rewrite !scal_sum, <- sum_plus. apply sum_eq. intros n _.
  assert (E : (- / 2) ^ n = (if Nat.even n then (/ 2) ^ n else - (/ 2) ^ n)).
  { induction n as [|n IH]; [simpl; reflexivity|]. cbn [pow]. rewrite IH, Nat.even_succ, <- Nat.negb_even. destruct (Nat.even n); cbn [negb]; ring. }
  rewrite E. unfold x. destruct b, (Nat.even n); cbn [Bool.eqb]; lra.
Qed.
Lemma pair_leaves m k : rmade unit_heap pair_rnet m -> (k = 1 \/ k = 2)%Z -> leaves unit_heap m (on k) 3 (if Z.eqb k 1 then 2 / 3 else 1 / 3).
Proof.
  intros Hm Hk. refine (infinite_sum_ext _ _ _ _ (even_series (Z.eqb k 1))). intros n. unfold leave_to. rewrite (pair_sum m Hm).
  destruct (pair_prob m Hm) as (_ & _ & C & _ & _ & F). destruct (pair_walk m Hm k n Hk) as [W1 W2]. rewrite C, F, W1, W2.
  destruct Hk as [-> | ->]; cbn [Z.eqb Pos.eqb]; destruct (Nat.even n); cbn [Bool.eqb]; lra.
Qed.

(** C68: the cluster forgets where the walker came in *)
Lemma entry_forgotten (i clock : Z) : exists (c c' : @cluster XR G), never_updated c /\ sound unit_heap c /\ joined (c_sites c) /\ c_update 0 unit_heap c = Ret tt c' /\
  In 1%Z (c_siteIds c) /\ In 2%Z (c_siteIds c) /\ outside (c_sites c) 3 /\
  leaves unit_heap (c_sites c) (on 1) 3 (2 / 3) /\ leaves unit_heap (c_sites c) (on 2) 3 (1 / 3) /\ c_probToNeighbor c' 3 = Ok (Fin (1 / 2)).
Proof.
  destruct (pair_r i clock) as (c & c' & Hnu & Em & Hm & So & J & E). exists c, c'. split; [exact Hnu|]. split; [exact So|]. split; [exact J|]. split; [exact E|].
  assert (K1 : In 1%Z (c_siteIds c)) by (apply (rmade_in _ _ _ Hm); simpl; auto 10). assert (K2 : In 2%Z (c_siteIds c)) by (apply (rmade_in _ _ _ Hm); simpl; auto 10).
  assert (O3 : outside (c_sites c) 3).
  { split; [rewrite (rmade_in _ _ _ Hm); simpl; intuition discriminate|].
    destruct (rmade_site _ _ _ pair_good Hm 1%Z [(2, 0); (3, 0)]%Z) as (s & Hs & P); [simpl; auto|]. exists 1%Z, s. split; [exact Hs|].
    eapply Permutation_in; [apply Permutation_map; symmetry; exact P | simpl; auto]. }
  split; [exact K1|]. split; [exact K2|]. split; [exact O3|].
  split; [exact (pair_leaves _ 1 Hm (or_introl eq_refl))|]. split; [exact (pair_leaves _ 2 Hm (or_intror eq_refl))|].
  pose proof (never_updated_built c Hnu) as Hb. pose proof So as [Mo Hmut Hlk Hex H2].
  destruct (update_solved 0 unit_heap c c' (built_tidy c Hb) So E) as (P & S).
  destruct (solver_result 0 unit_heap c c' Hb Mo Hmut (linked_has _ ltac:(intros X; rewrite X in H2; simpl in H2; lia) Hlk) ltac:(intros X; rewrite X in H2; simpl in H2; lia) E) as (n & Hn & _).
  assert (EP : forall k, In k (c_siteIds c) -> P k = / 2).
  { intros k Hk. pose proof (Hn k Hk) as X. rewrite (solved_probOn unit_heap c c' P Mo S k Hk) in X. injection X as ->. apply pair_half; [exact Hm | exact Hk]. }
  destruct (sv_nbr _ _ _ _ S) as (K3 & ND3 & O & En). unfold c_probToNeighbor. rewrite En, (tab_lookup _ K3 3) by (apply O; exact O3).
  rewrite (exit_total unit_heap (c_sites c) P K3 Mo ND3 O). do 2 f_equal.
  assert (EW : WO unit_heap (c_sites c) P = / 2).
  { rewrite WO_stay by (try exact Mo; apply (sv_dist _ _ _ _ S)). rewrite <- stay_SI by exact Mo. unfold stay_prob. rewrite (pair_sum _ Hm).
    destruct (pair_flow _ Hm P) as [-> ->]. rewrite !EP by assumption. lra. }
  rewrite EW. unfold wexit. rewrite (pair_sum _ Hm). destruct (pair_prob _ Hm) as (_ & _ & -> & _ & _ & ->). rewrite !EP by assumption. field.
Qed.

(** C69: too long *)
Lemma stay_doubled (i clock : Z) : exists (c c' : @cluster XR G) Q, never_updated c /\ sound unit_heap c /\ joined (c_sites c) /\ c_update 0 unit_heap c = Ret tt c' /\
  quasi_stationary unit_heap (c_sites c) Q /\ mean_stay unit_heap (c_sites c) Q 1 /\ c_getTimeConstant c' = Fin 2.
Proof.
  destruct (pair_r i clock) as (c & c' & Hnu & Em & Hm & So & J & E). pose proof So as [Mo Hmut Hlk Hex H2].
  destruct (solver_limit unit_heap (c_sites c) Mo Hmut J H2) as (Q & HQ & _). exists c, c', Q.
  split; [exact Hnu|]. split; [exact So|]. split; [exact J|]. split; [exact E|]. split; [exact HQ|].
  assert (K1 : In 1%Z (c_siteIds c)) by (apply (rmade_in _ _ _ Hm); simpl; auto 10). assert (K2 : In 2%Z (c_siteIds c)) by (apply (rmade_in _ _ _ Hm); simpl; auto 10).
  destruct (pair_qs _ Hm Q HQ) as (Q1 & Q2 & Qs). destruct (pair_tau _ Hm) as [T1 T2]. split.
  - pose proof (qs_mean_time unit_heap (c_sites c) Q (fun _ => true) ltac:(rewrite Qs; lra) HQ) as X. rewrite (pair_sum _ Hm), Qs, Q1, Q2, T1, T2 in X.
    unfold mean_stay. replace 1 with ((/ 2 * / 2 + / 2 * / 2) / (1 - / 2)) by field. exact X.
  - destruct (update_solved 0 unit_heap c c' (built_tidy c (never_updated_built c Hnu)) So E) as (P & S).
    destruct (solver_result 0 unit_heap c c' (never_updated_built c Hnu) Mo Hmut (linked_has _ ltac:(intros X; rewrite X in H2; simpl in H2; lia) Hlk) ltac:(intros X; rewrite X in H2; simpl in H2; lia) E) as (n & Hn & _).
    assert (EP : forall k, In k (c_siteIds c) -> P k = / 2).
    { intros k Hk. pose proof (Hn k Hk) as X. rewrite (solved_probOn unit_heap c c' P Mo S k Hk) in X. injection X as ->. apply pair_half; [exact Hm | exact Hk]. }
    unfold c_getTimeConstant. refine (eq_trans (sv_tau _ _ _ _ S) _). f_equal. pose proof (sv_dist _ _ _ _ S) as D. rewrite (TAU_eq _ _ _ Mo Hex Hlk D).
    assert (ES : SI unit_heap (c_sites c) P = / 2).
    { rewrite <- stay_SI by exact Mo. unfold stay_prob. rewrite (pair_sum _ Hm). destruct (pair_flow _ Hm P) as [-> ->]. rewrite !EP by assumption. lra. }
    rewrite (WO_stay _ _ _ Mo (proj2 D)), ES, (pair_sum _ Hm), !EP, T1, T2 by assumption. unfold edge_member.
    rewrite (rmade_moff _ _ _ pair_good Hm 1 [(2, 0); (3, 0)]%Z) by (simpl; auto 10). rewrite (rmade_moff _ _ _ pair_good Hm 2 [(1, 0); (4, 0)]%Z) by (simpl; auto 10). simpl.
    replace (0 + (1 + 0)) with 1 by lra. destruct (Rltb 0 1) eqn:X; [field | apply Rltb_false in X; lra].
Qed.

(** C69: too short, by any factor *)
Lemma trap_ignored (i clock : Z) B : exists (h : @heap XR) (c : @cluster XR G) c0 Q T, never_updated c /\ sound h c /\ joined (c_sites c) /\ c_update 0 h c = Ret tt c0 /\
  quasi_stationary h (c_sites c) Q /\ mean_stay h (c_sites c) Q T /\ B <= T /\
  forall fuel c1 c', built c1 -> c_sites c1 = c_sites c -> c_update fuel h c1 = Ret tt c' -> exists tau, c_getTimeConstant c' = Fin tau /\ tau <= 2.
Proof.
  set (B' := Rmax B 1). assert (HB : 1 <= B') by apply Rmax_r. set (e := / (6 * B')).
  assert (He : 0 < e) by (unfold e; apply Rinv_0_lt_compat; lra). pose proof (trap_good e He) as Hg.
  destruct (trap_r e i clock He) as (c & c0 & Hnu & Hm & So & J & E). pose proof So as [Mo Hmut Hlk Hex H2].
  destruct (solver_limit (trap_heap e) (c_sites c) Mo Hmut J H2) as (Q & HQ & _).
  pose proof (qs_bounds _ _ Q Mo Hlk Hex HQ) as Hl.
  pose proof (qs_mean_time (trap_heap e) (c_sites c) Q (fun _ => true) Hl HQ) as MT.
  assert (A1 : In (1%Z, [(2, 0); (4, 0)]%Z) trap_rnet) by (simpl; auto 10). assert (A2 : In (2%Z, [(1, 1); (3, 1)]%Z) trap_rnet) by (simpl; auto 10).
  assert (A3 : In (3%Z, [(2, 0); (5, 0)]%Z) trap_rnet) by (simpl; auto 10).
  assert (Ks : forall f : Z -> R, Rsum f (ukeys (c_sites c)) = f 1%Z + f 2%Z + f 3%Z) by (intros f; rewrite (rsum_keys _ _ _ Hm); simpl; lra).
  assert (K1 : In 1%Z (ukeys (c_sites c))) by (apply (rmade_in _ _ _ Hm); simpl; auto 10). assert (K2 : In 2%Z (ukeys (c_sites c))) by (apply (rmade_in _ _ _ Hm); simpl; auto 10).
  assert (K3 : In 3%Z (ukeys (c_sites c))) by (apply (rmade_in _ _ _ Hm); simpl; auto 10).
  assert (T1 : mtau (trap_heap e) (c_sites c) 1 = / 2) by (rewrite (rmade_mtau _ _ _ Hg Hm 1 _ A1); simpl; f_equal; lra).
  assert (T2 : mtau (trap_heap e) (c_sites c) 2 = / (2 * e)) by (rewrite (rmade_mtau _ _ _ Hg Hm 2 _ A2); simpl; f_equal; lra).
  assert (T3 : mtau (trap_heap e) (c_sites c) 3 = / 2) by (rewrite (rmade_mtau _ _ _ Hg Hm 3 _ A3); simpl; f_equal; lra).
  assert (M1 : moff (trap_heap e) (c_sites c) 1 = 1) by (rewrite (rmade_moff _ _ _ Hg Hm 1 _ A1); simpl; lra).
  assert (M2 : moff (trap_heap e) (c_sites c) 2 = 0) by (rewrite (rmade_moff _ _ _ Hg Hm 2 _ A2); simpl; lra).
  assert (M3 : moff (trap_heap e) (c_sites c) 3 = 1) by (rewrite (rmade_moff _ _ _ Hg Hm 3 _ A3); simpl; lra).
  exists (trap_heap e), c, c0, Q. eexists. split; [exact Hnu|]. split; [exact So|]. split; [exact J|]. split; [exact E|]. split; [exact HQ|]. split; [exact MT|]. split.
  - rewrite Ks, T1, T2, T3. pose proof HQ as (HP & HS & HF). rewrite Ks in HS.
    assert (F1 : in_flow (trap_heap e) (c_sites c) Q 1 = Q 2%Z / 2).
    { unfold in_flow. rewrite Ks, !(rmade_mprob _ _ _ Hg Hm 1 _ _ A1), !(rmade_mprob _ _ _ Hg Hm 2 _ _ A2), !(rmade_mprob _ _ _ Hg Hm 3 _ _ A3). simpl. field. lra. }
    assert (F2 : in_flow (trap_heap e) (c_sites c) Q 2 = (Q 1%Z + Q 3%Z) / 2).
    { unfold in_flow. rewrite Ks, !(rmade_mprob _ _ _ Hg Hm 1 _ _ A1), !(rmade_mprob _ _ _ Hg Hm 2 _ _ A2), !(rmade_mprob _ _ _ Hg Hm 3 _ _ A3). simpl. field. lra. }
    pose proof (HF 1%Z K1) as H1. pose proof (HF 2%Z K2) as H3. fold (stay_prob (trap_heap e) (c_sites c) Q) in H1, H3. rewrite F1 in H1. rewrite F2 in H3.
    set (lam := stay_prob (trap_heap e) (c_sites c) Q) in *. pose proof (HP 1%Z K1). pose proof (HP 2%Z K2). pose proof (HP 3%Z K3).
    assert (Q2 : / 3 <= Q 2%Z) by nra.
    assert (Ex : / (2 * e) = 3 * B') by (unfold e; field; lra). rewrite Ex.
    apply Rle_trans with B'; [apply Rmax_l|]. apply Rmult_le_reg_r with (1 - lam); [lra|]. unfold Rdiv. rewrite Rmult_assoc, Rinv_l by lra. nra.
  - intros fuel c1 c' Hb Es E1.
    assert (So1 : sound (trap_heap e) c1) by (constructor; rewrite Es; assumption).
    destruct (update_solved fuel _ c1 c' (built_tidy c1 Hb) So1 E1) as (P & S). pose proof (sv_dist _ _ _ _ S) as D. unfold c_siteIds in D. rewrite Es in D.
    exists (TAU (trap_heap e) (c_sites c) P). split; [unfold c_getTimeConstant; rewrite <- Es; exact (sv_tau _ _ _ _ S)|].
    rewrite (TAU_eq _ _ _ Mo Hex Hlk D). pose proof (WO_stay _ _ P Mo (proj2 D)) as W. pose proof (WO_pos _ _ P Mo D Hex) as W0. pose proof (SI_pos _ _ P Mo D Hlk Hex) as S0.
    assert (EA : Rsum (fun k => P k * (if edge_member (trap_heap e) (c_sites c) k then mtau (trap_heap e) (c_sites c) k else 0)) (ukeys (c_sites c)) = WO (trap_heap e) (c_sites c) P).
    { unfold WO. rewrite !Ks. unfold edge_member. rewrite M1, M2, M3, T1, T2, T3.
      destruct (Rltb 0 1) eqn:X; [|apply Rltb_false in X; lra]. destruct (Rltb 0 0) eqn:Y; [apply Rltb_true in Y; lra|]. ring. }
    rewrite EA. replace (WO (trap_heap e) (c_sites c) P / WO (trap_heap e) (c_sites c) P) with 1 by (field; lra).
    assert (Wh : WO (trap_heap e) (c_sites c) P <= / 2).
    { unfold WO. rewrite Ks, M1, M2, M3, T1, T3. destruct D as [Dp Ds]. rewrite Ks in Ds. pose proof (Dp 2%Z K2). lra. }
    assert (Sh : / 2 <= SI (trap_heap e) (c_sites c) P) by lra.
    unfold Rdiv. rewrite Rmult_1_l. replace 2 with (/ / 2) by field. apply Rinv_le_contravar; lra.
Qed.
End Witness.
