(** * Concrete clusters: networks in which every rate is 1 *)
From Coq Require Import ZArith List Bool Reals Lra Lia Permutation Relations.
From Verif Require Import Base BaseProofs Num OrdLaws RSum LatticeReal SiteModel SiteSpec SiteProofs
  ClusterModel ClusterSpec ClusterFrame ClusterHist ClusterOps ClusterStay ClusterTime MasterEq ClusterReal ClusterTables ClusterUpdate ClusterProofs ClusterPick.
Import ListNotations.
Open Scope R_scope.

Lemma Rround_IZR z : Rround (IZR z) = z.
Proof.
  unfold Rround. destruct (Rle_dec 0 (IZR z)).
  - apply Rfloor_unique. lra.
  - rewrite <- opp_IZR, (Rfloor_unique _ (- z)); [lia|]. lra.
Qed.
Lemma trunc_round z : in_int z = true -> @ntrunc XR (@nround XR (Fin (IZR z))) = Some z.
Proof.
  intros H0. change (@nround XR (Fin (IZR z))) with (Fin (IZR (Rround (IZR z))) : xn). rewrite Rround_IZR.
  change (@ntrunc XR (Fin (IZR z))) with (if in_int (Rtrunc (IZR z)) then Some (Rtrunc (IZR z)) else None).
  rewrite Rtrunc_IZR, H0. reflexivity.
Qed.

(** a network: site ids with their neighbours; all rates are in one memory
    cell that holds 1 *)
Definition unit_heap : @heap XR := fun _ => Fin 1.
Definition unit_rates (nbrs : list Z) : umap Z := map (fun n => (n, 0%Z)) nbrs.
Definition net := list (Z * list Z).
Definition good_net (t : net) : Prop :=
  NoDup (map fst t) /\ forall k nbrs, In (k, nbrs) t -> nbrs <> [] /\ NoDup nbrs.

Lemma unit_keys nbrs : ukeys (unit_rates nbrs) = nbrs.
Proof. unfold unit_rates, ukeys. rewrite map_map. apply map_id. Qed.
Lemma unit_good nbrs : nbrs <> [] -> NoDup nbrs -> good_rates unit_heap (unit_rates nbrs).
Proof.
  intros Hne ND. split; [destruct nbrs; [congruence | discriminate]|]. split; [rewrite unit_keys; exact ND|].
  intros n a _. exists 1. split; [reflexivity | lra].
Qed.

Section Net.
Context {I : Impl} {G : @Rng XR}.
Implicit Types (c : @cluster XR G) (m : umap (@site XR G)).

Lemma make_site clock i nbrs : nbrs <> [] -> NoDup nbrs ->
  exists s, (s_setId i ;; s_setRates unit_heap (unit_rates nbrs)) (@site_new XR G clock) = Ret tt s /\
    s_id s = Some i /\ s_occ s = 0%Z /\ Permutation (s_neigh s) (unit_rates nbrs) /\ site_ok unit_heap s.
Proof.
  intros Hne ND. pose proof (unit_good nbrs Hne ND) as Hg. unfold bind, s_setId. rewrite modify_eq.
  destruct (setRates_fresh unit_heap (unit_rates nbrs) (s_with_id (Some i) (@site_new XR G clock)) eq_refl Hg) as (nb & l & E & Pn & Pl & Sl).
  eexists. split; [exact E|]. split; [reflexivity|]. split; [reflexivity|]. split; [exact Pn|].
  pose proof (good_perm _ _ _ (Permutation_sym Pn) Hg) as Hg'. split; [exact Hg'|].
  cbn [s_neigh s_with_prob s_with_tau s_with_neigh].
  assert (T : total_rate unit_heap nb = total_rate unit_heap (unit_rates nbrs)) by (apply Rsum_perm; exact Pn).
  apply table_reads; [exact Hg' | reflexivity | | rewrite T; reflexivity].
  split; [|exact Sl]. rewrite T, Pl. apply Permutation_map. symmetry; exact Pn.
Qed.

(** the members of a cluster are the sites of a network *)
Definition made (t : net) m : Prop :=
  Permutation (ukeys m) (map fst t) /\
  forall k s, In (k, s) m -> exists nbrs, In (k, nbrs) t /\ Permutation (s_neigh s) (unit_rates nbrs) /\ site_ok unit_heap s /\ s_occ s = 0%Z.

Lemma made_nil : made [] [].
Proof. split; [reflexivity | intros k s []]. Qed.

Lemma add_net clock t : forall t0 c, made t0 (c_sites c) -> good_net (t0 ++ t) ->
  exists l m', c_addSites l c = Ret tt (c_with_sites m' c) /\ made (t0 ++ t) m' /\
    Forall2 (fun s kn => (s_setId (fst kn) ;; s_setRates unit_heap (unit_rates (snd kn))) (@site_new XR G clock) = Ret tt s) l t.
Proof.
  induction t as [|[k nbrs] t IH]; intros t0 c Hm Hg.
  - exists [], (c_sites c). rewrite app_nil_r. split; [destruct c; reflexivity|]. split; [exact Hm | constructor].
  - destruct (proj2 Hg k nbrs) as [Hne ND]; [apply in_or_app; simpl; auto|].
    destruct (make_site clock k nbrs Hne ND) as (s & Es & Ei & Eo & Pn & Ok).
    set (m1 := uset (c_sites c) k (s_with_cluster (c_id c) s)).
    assert (Hk : umem k (c_sites c) = false).
    { apply umem_false. intros Hin. eapply Permutation_in in Hin; [|apply Hm].
      destruct Hg as [NDa _]. rewrite map_app in NDa. cbn [map fst] in NDa. apply NoDup_remove_2 in NDa. apply NDa. apply in_or_app; auto. }
    assert (M1 : made (t0 ++ [(k, nbrs)]) m1).
    { pose proof (uset_perm_new (c_sites c) k (s_with_cluster (c_id c) s)) as U.
      specialize (U Hk). split.
      - unfold m1. rewrite map_app. cbn [map fst]. unfold ukeys. rewrite (Permutation_map fst U). cbn [map fst].
        etransitivity; [|apply Permutation_cons_append]. constructor. apply Hm.
      - intros j s' Hin. eapply Permutation_in in Hin; [|exact U]. destruct Hin as [E|Hin].
        + inversion E; subst. exists nbrs. split; [apply in_or_app; simpl; auto|]. split; [exact Pn|]. split; [exact Ok | exact Eo].
        + destruct Hm as [_ Hm]. destruct (Hm j s' Hin) as (n2 & A & B). exists n2. split; [apply in_or_app; auto | exact B]. }
    destruct (IH (t0 ++ [(k, nbrs)]) (c_with_sites m1 c)) as (l & m' & E & Mm & F).
    { exact M1. }
    { rewrite <- app_assoc. exact Hg. }
    exists (s :: l), m'. rewrite <- app_assoc in Mm. split; [|split; [exact Mm | constructor; [exact Es | exact F]]].
    unfold c_addSites in *. cbn [mfor]. unfold c_addSite, s_getId. rewrite Ei. unfold bind at 1 2, lift, gets, cassert.
    unfold bind at 1 2 3. rewrite Hk. unfold bind, ret, modify. cbn [negb]. fold m1. exact E.
Qed.

Lemma build_net (i clock : Z) (t : net) : good_net t ->
  exists c : @cluster XR G, never_updated c /\ made t (c_sites c) /\ c_method c = PerSite /\ c_tol c = Fin (1 / 100) /\ c_occ c = 0%Z.
Proof.
  intros Hg. destruct (add_net clock t [] (cluster_new i clock)) as (l & m' & E & M & _).
  { exact made_nil. }
  { exact Hg. }
  exists (c_with_sites m' (cluster_new i clock)). split; [eapply nu_add; [apply nu_new | exact E]|]. split; [exact M|]. split; [|split]; reflexivity.
Qed.

(** ** Reading a network *)
Section Read.
Variables (t : net) (m : umap (@site XR G)).
Hypothesis (Hg : good_net t) (Hm : made t m).
Lemma made_in k : In k (ukeys m) <-> In k (map fst t).
Proof. split; apply Permutation_in; [apply Hm | symmetry; apply Hm]. Qed.
Lemma made_ND : NoDup (ukeys m).
Proof. eapply Permutation_NoDup; [symmetry; apply Hm | apply Hg]. Qed.
Lemma made_members : members_ok unit_heap m.
Proof. split; [apply made_ND|]. intros k s Hin. destruct (proj2 Hm k s Hin) as (nbrs & _ & _ & A & _). exact A. Qed.
Lemma net_fun k n1 n2 : In (k, n1) t -> In (k, n2) t -> n1 = n2.
Proof.
  intros A B. destruct Hg as [ND _]. pose proof (In_ulookup k n1 t ND A). pose proof (In_ulookup k n2 t ND B). congruence.
Qed.
Lemma made_site k nbrs : In (k, nbrs) t -> exists s, In (k, s) m /\ Permutation (s_neigh s) (unit_rates nbrs) /\ (forall n, In n (s_neighIds s) <-> In n nbrs).
Proof.
  intros Hin. assert (Hk : In k (ukeys m)) by (apply made_in; apply (in_map fst) in Hin; exact Hin).
  apply in_map_iff in Hk. destruct Hk as ([k' s] & E & Hs). cbn [fst] in E. subst k'.
  destruct (proj2 Hm k s Hs) as (n2 & A & B & _). rewrite (net_fun k n2 nbrs A Hin) in B. exists s. split; [exact Hs|]. split; [exact B|].
  intros n. unfold s_neighIds. rewrite <- (unit_keys nbrs). split; apply Permutation_in; [|symmetry]; apply Permutation_map; exact B.
Qed.
Lemma made_edge i k : internal_edge m i k <-> exists nbrs, In (i, nbrs) t /\ In k nbrs /\ In k (map fst t).
Proof.
  split.
  - intros (s & Hin & Hn & Hk). destruct (proj2 Hm i s Hin) as (nbrs & A & B & _). exists nbrs. split; [exact A|].
    split; [|apply made_in; exact Hk]. rewrite <- (unit_keys nbrs). eapply Permutation_in; [apply Permutation_map; exact B | exact Hn].
  - intros (nbrs & A & B & C). destruct (made_site i nbrs A) as (s & Hs & _ & Hn). exists s. split; [exact Hs|].
    split; [apply Hn; exact B | apply made_in; exact C].
Qed.
Lemma made_outside n : outside m n <-> ~ In n (map fst t) /\ exists k nbrs, In (k, nbrs) t /\ In n nbrs.
Proof.
  unfold outside. rewrite made_in. split.
  - intros (A & k & s & Hin & Hn). split; [exact A|]. destruct (proj2 Hm k s Hin) as (nbrs & B & C & _). exists k, nbrs. split; [exact B|].
    rewrite <- (unit_keys nbrs). eapply Permutation_in; [apply Permutation_map; exact C | exact Hn].
  - intros (A & k & nbrs & B & C). split; [exact A|]. destruct (made_site k nbrs B) as (s & Hs & _ & Hn). exists k, s. split; [exact Hs | apply Hn; exact C].
Qed.
Definition zin (n : Z) (l : list Z) : bool := existsb (Z.eqb n) l.
Lemma umem_made n : umem n m = zin n (map fst t).
Proof.
  destruct (zin n (map fst t)) eqn:E.
  - apply umem_In, made_in. unfold zin in E. apply existsb_exists in E. destruct E as (x & Hx & Ex). apply Z.eqb_eq in Ex. subst; exact Hx.
  - apply umem_false. rewrite made_in. intros Hin. assert (zin n (map fst t) = true); [|congruence].
    unfold zin. apply existsb_exists. exists n. split; [exact Hin | apply Z.eqb_refl].
Qed.
(** number of exits and of internal neighbours *)
Definition n_off (nbrs : list Z) : R := Rsum (fun n => if zin n (map fst t) then 0 else 1) nbrs.
Definition n_in (nbrs : list Z) : R := Rsum (fun n => if zin n (map fst t) then 1 else 0) nbrs.
Definition n_all (nbrs : list Z) : R := Rsum (fun _ => 1) nbrs.
Lemma made_moff k nbrs : In (k, nbrs) t -> moff unit_heap m k = n_off nbrs.
Proof.
  intros Hin. destruct (made_site k nbrs Hin) as (s & Hs & P & _). rewrite (moff_in unit_heap m made_members k s Hs).
  unfold off_rate. rewrite (Rsum_perm _ _ _ P). unfold unit_rates. rewrite Rsum_map. apply Rsum_ext. intros n _. cbn [fst snd]. rewrite umem_made. reflexivity.
Qed.
Lemma made_minner k nbrs : In (k, nbrs) t -> minner unit_heap m k = n_in nbrs.
Proof.
  intros Hin. destruct (made_site k nbrs Hin) as (s & Hs & P & _). rewrite (minner_in unit_heap m made_members k s Hs).
  unfold inner_rate. rewrite (Rsum_perm _ _ _ P). unfold unit_rates. rewrite Rsum_map. apply Rsum_ext. intros n _. cbn [fst snd]. rewrite umem_made. reflexivity.
Qed.
Lemma made_mtau k nbrs : In (k, nbrs) t -> mtau unit_heap m k = / n_all nbrs.
Proof.
  intros Hin. destruct (made_site k nbrs Hin) as (s & Hs & P & _). rewrite (mtau_in unit_heap m made_members k s Hs).
  f_equal. unfold total_rate. rewrite (Rsum_perm _ _ _ P). unfold unit_rates. rewrite Rsum_map. reflexivity.
Qed.
Lemma made_in_net k : In k (ukeys m) -> exists nbrs, In (k, nbrs) t.
Proof. intros Hk. apply made_in in Hk. apply in_map_iff in Hk. destruct Hk as ([k' n] & E & Hin). cbn in E; subst. eauto. Qed.
End Read.

(** a network whose cluster can be updated *)
Record net_ok (t : net) : Prop := {
  nk_good : good_net t;
  nk_mutual : forall i nbrs k, In (i, nbrs) t -> In k nbrs -> In k (map fst t) -> exists nb, In (k, nb) t /\ In i nb;
  nk_linked : forall i nbrs, In (i, nbrs) t -> exists k, In k nbrs /\ In k (map fst t);
  nk_exit : exists i nbrs k, In (i, nbrs) t /\ In k nbrs /\ ~ In k (map fst t);
  nk_two : (2 <= length t)%nat;
  nk_small : forall i nbrs, In (i, nbrs) t -> (length nbrs <= 10)%nat }.
Lemma net_sound t c : net_ok t -> made t (c_sites c) -> sound unit_heap c.
Proof.
  intros [A B C D E F] Hm. constructor.
  - exact (made_members t _ A Hm).
  - intros i k H0. apply (made_edge t _ A Hm) in H0. destruct H0 as (nbrs & X & Y & Z0). apply (made_edge t _ A Hm).
    destruct (B i nbrs k X Y Z0) as (nb & P & Q). exists nb. split; [exact P|]. split; [exact Q|]. apply (in_map fst) in X; exact X.
  - intros k Hk. destruct (made_in_net t _ Hm k Hk) as (nbrs & X). destruct (C k nbrs X) as (n & Y & Z0). exists n. apply (made_edge t _ A Hm). eauto.
  - destruct D as (i & nbrs & k & X & Y & Z0). destruct (made_site t _ A Hm i nbrs X) as (s & Hs & _ & Hn).
    exists i, s, k. split; [exact Hs|]. split; [apply Hn; exact Y|]. rewrite (made_in t _ Hm). exact Z0.
  - destruct Hm as [P _]. apply Permutation_length in P. unfold ukeys in P. rewrite !map_length in P. lia.
Qed.
Lemma net_moderate t c : net_ok t -> made t (c_sites c) -> rates_moderate unit_heap c.
Proof.
  intros [A B C D E F] Hm k Hk. destruct (made_in_net t _ Hm k Hk) as (nbrs & X). rewrite (made_moff t _ A Hm k nbrs X).
  assert (L : n_off t nbrs <= INR (length nbrs)).
  { unfold n_off. clear. induction nbrs as [|n l IH]; [simpl; lra|]. cbn [Rsum length]. rewrite S_INR. destruct (zin _ _); lra. }
  specialize (F k nbrs X). apply le_INR in F. simpl in F.
  assert (Q : 2 ^ 4 < / dbl_min).
  { change dbl_min with (/ (2 ^ Pos.to_nat 1022)). rewrite Rinv_inv. apply Rlt_pow; [lra | lia]. }
  simpl in Q. lra.
Qed.
(** a first update of a network *)
Lemma net_update t c : net_ok t -> made t (c_sites c) -> never_updated c -> c_method c = PerSite ->
  exists P c', c_update 0 unit_heap c = Ret tt c' /\ solved unit_heap c c' P /\ c_sites c' = c_sites c /\ c_method c' = PerSite /\
    (forall k, In k (c_siteIds c) -> ulookup k (c_svisits c') = Some (Fin 0)) /\
    (forall k, In k (ukeys (c_svisits c')) -> In k (c_siteIds c)) /\ c_visits c' = c_prev c' /\ c_remaining c' = [].
Proof.
  intros Ht Hm Hnu Em. pose proof (net_sound t c Ht Hm) as So. pose proof (built_tidy c (never_updated_built c Hnu)) as Ti.
  destruct (never_updated_empty c Hnu) as (_ & _ & _ & _ & V & _ & _ & V1 & V2 & V3).
  destruct (update_val 0 unit_heap c [] c So Ti) as [(P & c' & E & S & ND & K & L & Ep)|(X & _)]; [| |eauto|congruence].
  { rewrite V. reflexivity. }
  { left; reflexivity. }
  exists P, c'. split; [exact E|]. split; [exact S|]. destruct (sv_core _ _ _ _ S).
  split; [assumption|]. split; [congruence|]. split; [exact L|]. split; [intros k; apply K|]. split; congruence.
Qed.
Lemma getVisits_zero k c : ulookup k (c_svisits c) = Some (Fin 0) -> c_visits c = c_prev c -> c_tau c <> Fin dbl_min ->
  (exists t, c_tau c = Fin t) -> c_getVisits k c = Ret 0%Z c.
Proof.
  intros L V Ht (t & Et). unfold c_getVisits, bind, gets, cassert.
  assert (M : umem k (c_svisits c) = true) by (apply umem_lookup; eauto). rewrite M. unfold ret at 1.
  assert (Et' : @neqb XR (c_tau c) unassigned_value = false).
  { rewrite Et in *. unfold unassigned_value. cbn [neqb XR ndblmin xeqb]. unfold Reqb. destruct (Req_EM_T t dbl_min); [subst; congruence | reflexivity]. }
  rewrite Et'. cbn [negb]. unfold ret at 1. rewrite V, Z.eqb_refl. unfold ret at 1. unfold uget. rewrite L.
  assert (Z0 : @ntrunc XR (@nround XR (Fin 0)) = Some 0%Z).
  { exact (trunc_round 0 eq_refl). }
  rewrite Z0. reflexivity.
Qed.
End Net.

(** ** Witnesses *)
Definition pair_net : net := [(1, [2; 3]); (2, [1; 4])]%Z.
Definition ab_net : net := [(1, [2; 3]); (2, [1; 3])]%Z.
Definition c_net : net := [(3, [1; 2; 4])]%Z.
Ltac nets := simpl in *; repeat match goal with
  | X : _ \/ _ |- _ => destruct X
  | X : False |- _ => destruct X
  | X : (_, _) = (_, _) |- _ => injection X as ? ?; subst
  | X : exists _, _ |- _ => destruct X
  | X : _ /\ _ |- _ => destruct X
  end; simpl in *.
Ltac net_ok_tac :=
  constructor;
  [ split; [repeat constructor; simpl; intuition discriminate
           | intros k nbrs X; nets; (split; [discriminate | repeat constructor; simpl; intuition discriminate])]
  | intros i nbrs k X Y Z0; nets; subst; try lia;
    solve [eexists; split; [left; reflexivity | simpl; intuition lia] | eexists; split; [right; left; reflexivity | simpl; intuition lia]
          | eexists; split; [right; right; left; reflexivity | simpl; intuition lia]]
  | intros i nbrs X; nets; solve [exists 1%Z; simpl; intuition lia | exists 2%Z; simpl; intuition lia | exists 3%Z; simpl; intuition lia]
  | idtac
  | simpl; lia
  | intros i nbrs X; nets; lia ].
Lemma pair_ok : net_ok pair_net.
Proof. unfold pair_net. net_ok_tac. exists 1%Z, [2; 3]%Z, 3%Z. simpl. intuition discriminate. Qed.
Lemma ab_ok : net_ok ab_net.
Proof. unfold ab_net. net_ok_tac. exists 1%Z, [2; 3]%Z, 3%Z. simpl. intuition discriminate. Qed.
Lemma abc_ok : net_ok (ab_net ++ c_net).
Proof. unfold ab_net, c_net. net_ok_tac. exists 3%Z, [1; 2; 4]%Z, 4%Z. simpl. intuition discriminate. Qed.

Section Witness.
Context {I : Impl} {G : @Rng XR}.

Lemma pair_cluster (i clock : Z) : exists (c : @cluster XR G) P c',
  never_updated c /\ sound unit_heap c /\ rates_moderate unit_heap c /\ joined (c_sites c) /\
  made pair_net (c_sites c) /\ c_tol c = Fin (1 / 100) /\ c_occ c = 0%Z /\ c_method c = PerSite /\
  c_update 0 unit_heap c = Ret tt c' /\ solved unit_heap c c' P /\
  (forall k, In k (c_siteIds c) -> ulookup k (c_svisits c') = Some (Fin 0)) /\ c_remaining c' = [].
Proof.
  destruct (build_net (G := G) i clock pair_net (nk_good _ pair_ok)) as (c & Hnu & Hm & Em & Et & Eo).
  destruct (net_update pair_net c pair_ok Hm Hnu Em) as (P & c' & E & S & _ & _ & V & _ & _ & R0).
  exists c, P, c'. split; [exact Hnu|]. split; [exact (net_sound _ c pair_ok Hm)|]. split; [exact (net_moderate _ c pair_ok Hm)|].
  split; [|split; [exact Hm|]; split; [exact Et|]; split; [exact Eo|]; split; [exact Em|]; split; [exact E|]; split; [exact S|]; split; [exact V | exact R0]].
  assert (E12 : internal_edge (c_sites c) 1 2).
  { apply (made_edge _ _ (nk_good _ pair_ok) Hm). exists [2; 3]%Z. simpl. auto. }
  assert (E21 : internal_edge (c_sites c) 2 1).
  { apply (made_edge _ _ (nk_good _ pair_ok) Hm). exists [1; 4]%Z. simpl. auto. }
  intros j k Hj Hk. apply (made_in _ _ Hm) in Hj, Hk. simpl in Hj, Hk.
  destruct Hj as [<-|[<-|[]]]; destruct Hk as [<-|[<-|[]]]; try apply rt_refl; apply rt_step; assumption.
Qed.

(** C25: both members leave the cluster with rate 1, the time constant is 2 *)
Lemma tau_doubled (i clock : Z) : exists (c c' : @cluster XR G),
  never_updated c /\ sound unit_heap c /\ made pair_net (c_sites c) /\ c_occ c = 0%Z /\ c_update 0 unit_heap c = Ret tt c' /\
  (forall k, In k (c_siteIds c) -> ulookup k (c_svisits c') = Some (Fin 0)) /\ same_core c c' /\ c_remaining c' = [] /\
  (forall k, In k (c_siteIds c) -> moff unit_heap (c_sites c) k = 1) /\ c_getTimeConstant c' = Fin 2.
Proof.
  destruct (pair_cluster i clock) as (c & P & c' & Hnu & So & _ & _ & Hm & _ & Eo & _ & E & S & Vi & Er).
  exists c, c'. split; [exact Hnu|]. split; [exact So|]. split; [exact Hm|]. split; [exact Eo|]. split; [exact E|]. split; [exact Vi|].
  split; [exact (sv_core _ _ _ _ S)|]. split; [exact Er|].
  pose proof (nk_good _ pair_ok) as Hg.
  assert (V : forall k, In k (c_siteIds c) -> moff unit_heap (c_sites c) k = 1 /\ minner unit_heap (c_sites c) k = 1 /\ mtau unit_heap (c_sites c) k = / 2).
  { intros k Hk. destruct (made_in_net _ _ Hm k Hk) as (nbrs & X).
    rewrite (made_moff _ _ Hg Hm k nbrs X), (made_minner _ _ Hg Hm k nbrs X), (made_mtau _ _ Hg Hm k nbrs X).
    unfold n_off, n_in, n_all. simpl in X. destruct X as [X|[X|[]]]; injection X as <- <-; simpl; (split; [lra|]; split; [lra|]; f_equal; lra). }
  split; [intros k Hk; apply V; exact Hk|].
  destruct S as [Sc Sd Sp Si Sci Sn Scn Sh St Sinc Sdw]. unfold c_getTimeConstant. refine (eq_trans St _). f_equal.
  destruct So as [Mo Hmut Hlk Hex H2].
  assert (ESI : SI unit_heap (c_sites c) P = / 2).
  { unfold SI. rewrite (Rsum_ext _ (fun k => P k * / 2)).
    - rewrite Rsum_scal_r. pose proof (proj2 Sd) as X. unfold c_siteIds in X. rewrite X. lra.
    - intros k Hk. destruct (V k Hk) as (_ & -> & ->). lra. }
  unfold TAU. rewrite (Rsum_ext _ (fun k => woff unit_heap (c_sites c) P k * 2)).
  - rewrite Rsum_scal_r, woff_sum by auto. lra.
  - intros k Hk. destruct (V k Hk) as (-> & _ & _). rewrite ESI. destruct (Rltb 0 1) eqn:X; [|apply Rltb_false in X; lra]. lra.
Qed.

(** a cluster of two sites in use: time constant 2, increment 1/10 *)
Lemma pair_ready (i clock seed : Z) : exists c : @cluster XR G,
  built c /\ c_getTimeConstant c = Fin 2 /\ c_getTimeIncrement c = Fin (1 / 10) /\ c_remaining c = [] /\
  c_rng c = eseed seed /\ made pair_net (c_sites c) /\ c_occ c = 0%Z /\
  (forall k, In k (c_siteIds c) -> ulookup k (c_svisits c) = Some (Fin 0)).
Proof.
  destruct (tau_doubled i clock) as (c & c' & Hnu & So & Hm & Eo & E & Vi & Sc & Er & _ & Et).
  assert (B1 : built c') by (eapply built_step; [apply never_updated_built; exact Hnu | eapply cs_sys, ss_update; exact E]).
  set (c1 := c_with_inc (@ndiv XR (c_tau c') (Fin 20)) (c_with_res (Fin 20) c')).
  assert (E1 : c_setResolution (Fin 20) c' = Ret tt c1).
  { unfold c_setResolution, bind, cassert, modify. assert (L : @nleb XR (nofZ 2) (Fin 20) = true).
    { apply orb_true_iff. left. change (Rltb 2 20 = true). apply Rltb_true. lra. }
    rewrite L. reflexivity. }
  assert (B2 : built c1) by (eapply built_step; [exact B1 | eapply cs_sys, ss_res; exact E1]).
  exists (c_with_rng (eseed seed) c1). split; [eapply built_step; [exact B2 | eapply cs_sys, (ss_seed seed); reflexivity]|].
  split; [exact Et|]. split; [|split; [exact Er|]; split; [reflexivity|]].
  - unfold c_getTimeIncrement, c1. cbn [c_inc c_with_rng c_with_inc c_with_res]. unfold c_getTimeConstant in Et. rewrite Et.
    cbn [ndiv XR xdiv]. unfold Reqb. destruct (Req_EM_T 20 0); [lra|]. f_equal. lra.
  - destruct Sc. cbn [c_sites c_occ c_svisits c_siteIds c_with_rng c_with_inc c_with_res c1]. split; [rewrite sc_sites; exact Hm|].
    split; [rewrite sc_occ; exact Eo|]. intros k Hk. apply Vi. unfold c_siteIds in *. cbn [c_sites c_with_rng c_with_inc c_with_res c1] in Hk. rewrite <- sc_sites. exact Hk.
Qed.

Lemma dbl_min_small : dbl_min < 2.
Proof.
  unfold dbl_min. change (powerRZ 2 (-1022)) with (/ (2 ^ Pos.to_nat 1022)). assert (1 < 2 ^ Pos.to_nat 1022) by (apply Rlt_pow_R1; [lra | lia]).
  assert (/ 2 ^ Pos.to_nat 1022 < / 1) by (apply Rinv_lt_contravar; lra). lra.
Qed.
(** a walker enters, is removed, and its id comes back *)
Lemma comes_back (i clock seed w : Z) u e : edraw (eseed seed) = (Fin u, e) -> 0 < u <= 1 / 2 ->
  exists (c c1 c2 c3 : @cluster XR G) d d2, built c /\ entering w c /\
    c_getDwellTime w c = Ret d c1 /\ c_removeWalker clock w 1 c1 = Ret tt c2 /\ c_getDwellTime w c2 = Ret d2 c3 /\
    forall e', c_getDwellTime w (c_with_rng e' c2) = Ret d2 (c_with_rng e' c3).
Proof.
  intros Ed Hu. destruct (pair_ready i clock seed) as (c & B & Et & Ei & Er & Eg & _).
  assert (Hn : neat c) by (apply built_neat; exact B).
  assert (Ent : entering w c) by (unfold entering; rewrite Er; intros []).
  assert (Hl : / 2 < - ln u).
  { pose proof ln_lt_2. assert (ln u <= ln (1 / 2)).
    { destruct (proj2 Hu) as [X|X]; [left; apply ln_increasing; lra | rewrite X; right; reflexivity]. }
    replace (1 / 2) with (/ 2) in * by lra. rewrite ln_Rinv in * by lra. lra. }
  assert (Hb : budget w c = Fin (- ln u * 2)).
  { apply (budget_enter w c u e 2); [exact Ent | rewrite Eg; exact Ed | lra | exact Et]. }
  assert (Hd : c_tau c <> Fin dbl_min) by (unfold c_getTimeConstant in Et; rewrite Et; intros X; injection X as X; pose proof dbl_min_small; lra).
  destruct (dwell_step w c (- ln u * 2) (1 / 10) Hn Hb) as (c1 & E1 & N1 & L1); [lra | exact Ei | lra | exact Hd|].
  destruct (getDwell_inv _ _ _ _ E1 (proj2 Hn)) as (rm & r & Ec1 & _).
  set (c2 := c_with_occ (c_occ c1 - 1) (c_with_sites (uset (c_sites c1) 1
    (let s := match ulookup 1%Z (c_sites c1) with Some s => s | None => site_new clock end in s_with_occ (s_occ s - 1) s)) c1)).
  assert (E2 : c_removeWalker clock w 1 c1 = Ret tt c2) by reflexivity.
  assert (O2 : others w c1 c2) by (eapply ot_sys; [apply ot_refl | eapply ss_remove; exact E2]).
  pose proof (others_neat _ _ _ O2 N1) as N2.
  assert (Hb2 : budget w c2 = Fin (- ln u * 2 - 1 / 10)) by (unfold budget; rewrite (others_lookup _ _ _ O2 N1), L1; reflexivity).
  assert (Q1 : c_inc c2 = c_inc c) by (unfold c2; rewrite Ec1; reflexivity).
  assert (Q2 : c_tau c2 = c_tau c) by (unfold c2; rewrite Ec1; reflexivity).
  destruct (dwell_step w c2 (- ln u * 2 - 1 / 10) (1 / 10) N2 Hb2) as (c3 & E3 & _).
  { lra. } { rewrite Q1. exact Ei. } { lra. } { rewrite Q2. exact Hd. }
  eexists c, c1, c2, c3, _, _. split; [exact B|]. split; [exact Ent|]. split; [exact E1|]. split; [exact E2|]. split; [exact E3|].
  intros e'. exact (removed_remembered w 1 clock c _ c1 c1 c2 c2 e' _ c3 B E1 (ot_refl w c1) E2 (ot_refl w c2) E3).
Qed.

(** a complete stay of one step *)
Lemma quick_stay (i clock seed w : Z) u e : edraw (eseed seed) = (Fin u, e) -> 99 / 100 <= u < 1 ->
  exists (c c4 : @cluster XR G) tr, built c /\ entering w c /\ edraw (c_rng c) = (Fin u, e) /\ c_getTimeConstant c = Fin 2 /\
    ClusterHist.stay w c tr c4 /\ tr <> [] /\ (forall x, In x tr -> exists d, fst x = Fin d /\ 0 < d).
Proof.
  intros Ed Hu. destruct (pair_ready i clock seed) as (c & B & Et & Ei & Er & Eg & _).
  assert (Hn : neat c) by (apply built_neat; exact B).
  assert (Ent : entering w c) by (unfold entering; rewrite Er; intros []).
  assert (Hl : 0 < - ln u <= / 20).
  { split; [assert (ln u < ln 1) by (apply ln_increasing; lra); rewrite ln_1 in *; lra|].
    assert (X : - ln u = ln (/ u)) by (rewrite ln_Rinv; lra). rewrite X.
    assert (Y : / u <= 100 / 99).
    { replace (100 / 99) with (/ (99 / 100)) by lra. apply Rinv_le_contravar; lra. }
    assert (Z0 : 1 + / 20 < exp (/ 20)) by (apply exp_ineq1; lra).
    left. rewrite <- (ln_exp (/ 20)). apply ln_increasing; [apply Rinv_0_lt_compat; lra | lra]. }
  assert (Hb : budget w c = Fin (- ln u * 2)).
  { apply (budget_enter w c u e 2); [exact Ent | rewrite Eg; exact Ed | lra | exact Et]. }
  assert (Hd : c_tau c <> Fin dbl_min) by (unfold c_getTimeConstant in Et; rewrite Et; intros X; injection X as X; pose proof dbl_min_small; lra).
  destruct (dwell_step w c (- ln u * 2) (1 / 10) Hn Hb) as (c1 & E1 & N1 & L1); [lra | exact Ei | lra | exact Hd|].
  destruct (pick_kind w c1 _ N1 L1) as (_ & _ & K).
  assert (F0 : @nltb XR n0 (Fin (- ln u * 2 - 1 / 10)) = false) by (rewrite Fin_lt0; apply Rltb_false; lra).
  rewrite F0 in K. destruct (edraw (c_rng c1)) as [v e1] eqn:Ed1.
  pose proof (pickNeighbor_eq w c1 v e1 Ed1) as Ep.
  eexists c, _, ([] ++ [(c_getTimeIncrement c, _)]). split; [exact B|]. split; [exact Ent|]. split; [rewrite Eg; exact Ed|]. split; [exact Et|].
  split; [eapply stay_end; [apply stay_nil | exact E1 | apply ot_refl | exact K | rewrite K; exact Ep]|].
  split; [discriminate|]. intros x [<-|[]]. exists (1 / 10). split; [exact Ei | lra].
Qed.

(** a member is occupied, the cluster says it is not *)
Lemma occupied_hidden (i clock : Z) : exists (c c' : @cluster XR G),
  built c /\ (exists s, ulookup 1%Z (c_sites c) = Some s /\ (s_occ s <= 1)%Z) /\ c_isOccupied c 1 = Ok false /\
  c_occupy 1 c = Ret tt c' /\ c_isOccupied c' 1 = Ok true /\ c_isOccupied0 c' = false.
Proof.
  destruct (pair_ready i clock 0) as (c & B & _ & _ & _ & _ & Hm & Eo & V).
  assert (Hn : neat c) by (apply built_neat; exact B).
  destruct (made_site _ _ (nk_good _ pair_ok) Hm 1%Z [2; 3]%Z) as (s & Hs & _); [simpl; auto|].
  assert (L : ulookup 1%Z (c_sites c) = Some s) by (apply In_ulookup; [apply Hn | exact Hs]).
  destruct (proj2 Hm 1%Z s Hs) as (_ & _ & _ & _ & Eo1).
  set (c' := c_with_sites (uset (c_sites c) 1%Z (s_setToOccupied s)) (c_with_visits (c_visits c + 1) c)).
  assert (E : c_occupy 1 c = Ret tt c').
  { unfold c_occupy, bind, gets, cassert. assert (M : umem 1%Z (c_svisits c) = true).
    { apply umem_lookup. exists (Fin 0). apply V. apply (in_map fst) in Hs. exact Hs. }
    rewrite M. unfold ret. rewrite L. reflexivity. }
  assert (F0 : c_isOccupied0 c = false) by (unfold c_isOccupied0; rewrite Eo; reflexivity).
  destruct (occupied_unseen 1 c c' F0 (proj1 Hn) E) as [X Y].
  exists c, c'. split; [exact B|]. split; [exists s; split; [exact L | lia]|].
  split; [unfold c_isOccupied, s_isOccupied; rewrite L, Eo1; reflexivity|]. split; [exact E|]. split; assumption.
Qed.

(** C24: after site 3 joined, every exit pick is 3 and no internal pick is 3 *)
Lemma stale_tables (i clock : Z) : exists (c c1 c2 c3 : @cluster XR G) (s : @site XR G),
  never_updated c /\ sound unit_heap c /\ c_update 0 unit_heap c = Ret tt c1 /\
  c_addSites [s] c1 = Ret tt c2 /\ sound unit_heap c2 /\ c_update 0 unit_heap c2 = Ret tt c3 /\
  In 3%Z (c_siteIds c3) /\ (forall n, In n (c_neighborIds c3) -> n = 4%Z) /\
  forall w u e k c4, edraw (c_rng c3) = (Fin u, e) -> 0 <= u < 1 ->
    (c_pickNeighbor w c3 = Ret k c4 -> k = 3%Z) /\ (c_pickInternal c3 = Ret k c4 -> k <> 3%Z).
Proof.
  destruct (build_net (G := G) i clock ab_net (nk_good _ ab_ok)) as (c & Hnu & Hm & Em & Et & Eo).
  destruct (net_update ab_net c ab_ok Hm Hnu Em) as (P & c1 & E & S & Es & Em1 & V & Vk & Vp & _).
  pose proof (net_sound _ c ab_ok Hm) as So.
  assert (Hm1 : made ab_net (c_sites c1)) by (rewrite Es; exact Hm).
  destruct (add_net clock c_net ab_net c1 Hm1 (nk_good _ abc_ok)) as (l & m' & Ea & Hm2 & F).
  inversion F as [|s kn l' t' Fs F2]; subst. inversion F2; subst. clear F F2.
  set (c2 := c_with_sites m' c1) in *.
  pose proof (net_sound _ c2 abc_ok Hm2) as So2.
  assert (B1 : built c1) by (eapply built_step; [apply never_updated_built; exact Hnu | eapply cs_sys, ss_update; exact E]).
  assert (B2 : built c2) by (eapply built_step; [exact B1 | eapply cs_sys, ss_add; exact Ea]).
  assert (Htau : c_tau c2 = Fin (TAU unit_heap (c_sites c) P)) by exact (sv_tau _ _ _ _ S).
  assert (Hnd : c_tau c2 <> Fin dbl_min).
  { rewrite Htau. intros X. destruct (moderate_restorable unit_heap c [(0, 0)]%Z So (net_moderate _ c ab_ok Hm)) as [Y|Y]; [discriminate|].
    apply (Y P (sv_dist _ _ _ _ S)). congruence. }
  destruct (update_total unit_heap c2 B2 So2 (net_moderate _ c2 abc_ok Hm2)) with (fuel := O) as [(P2 & c3 & E3 & S3)|(X & _)].
  { intros k Hk. exists 0%Z, c2. apply getVisits_zero; [|exact Vp | exact Hnd | eauto].
    apply V, Vk. exact Hk. }
  2:{ assert (c_method c2 = PerSite) by exact Em1. congruence. }
  exists c, c1, c2, c3, s. split; [exact Hnu|]. split; [exact So|]. split; [exact E|]. split; [exact Ea|]. split; [exact So2|]. split; [exact E3|].
  assert (Es3 : c_sites c3 = c_sites c2) by (destruct (sv_core _ _ _ _ S3); assumption).
  split; [|split].
  - unfold c_siteIds. rewrite Es3. apply (made_in _ _ Hm2). simpl; auto.
  - intros n Hn. destruct (listed_follow 0 unit_heap c2 c3 B2 So2 E3) as (_ & K & _). apply K in Hn.
    apply (made_outside _ _ (nk_good _ abc_ok) Hm2) in Hn. destruct Hn as (A & k & nbrs & X & Y). simpl in A, X.
    destruct X as [X|[X|[X|[]]]]; injection X as <- <-; simpl in Y; intuition lia.
  - intros w u e k c4 Ed Hu.
    assert (CS : csteps c1 c3).
    { eapply css_step; [eapply css_step; [apply css_refl|] |]; [eapply cs_sys, ss_add; exact Ea | eapply cs_sys, ss_update; exact E3]. }
    destruct (picks_frozen 0 unit_heap c c1 c3 w u e k c4 Hnu So E CS Ed Hu) as [A B]. split; intros Ep.
    + apply B in Ep. apply (made_outside _ _ (nk_good _ ab_ok) Hm) in Ep. destruct Ep as (X & j & nbrs & Y & Z0). simpl in X, Y.
      destruct Y as [Y|[Y|[]]]; injection Y as <- <-; simpl in Z0; intuition lia.
    + apply A in Ep. apply (made_in _ _ Hm) in Ep. simpl in Ep. intros ->. intuition lia.
Qed.
End Witness.
