(** * The invariant of the system, for every arithmetic *)
From Coq Require Import ZArith List Bool Lia Permutation.
From Verif Require Import Base BaseProofs Num WalkerModel SiteModel SiteProofs ClusterModel ClusterFrame
  ContainerModel BasinModel SystemModel SystemSpec.
Import ListNotations.
Open Scope Z_scope.

Section Shape.
Context {I : Impl} {N : Num} {G : Rng} {U : Ugly}.

(** [k]'s copy [s] in cluster [c] *)
Definition member (g : world) (c k : Z) (s : site) : Prop :=
  exists cl, ulookup c (g_clusters g) = Some cl /\ ulookup k (c_sites cl) = Some s.

(** [todo] are the clusters still to be absorbed by [fav] *)
Record shape_while (fav : Z) (todo : list Z) (g : world) : Prop := {
  h_nds : NoDup (ukeys (g_sites g));
  h_ndc : NoDup (ukeys (g_clusters g));
  h_ndf : NoDup (ukeys (g_feats g));
  h_cnt : 0 <= g_count g;
  h_site : forall k s, ulookup k (g_sites g) = Some s ->
    s_id s = Some k /\ (s_cluster s = unassignedId \/ 0 <= s_cluster s < g_count g);
  h_feat : forall k, ulookup k (g_feats g) =
    match ulookup k (g_sites g) with
    | None => None
    | Some s => Some (if s_cluster s =? unassignedId then PSite k else PCluster (s_cluster s))
    end;
  h_cl : forall c cl, ulookup c (g_clusters g) = Some cl ->
    c_id cl = c /\ 0 <= c < g_count g /\ NoDup (ukeys (c_sites cl)) /\
    exists i j, i <> j /\ In i (ukeys (c_sites cl)) /\ In j (ukeys (c_sites cl));
  h_mem : forall c k m, member g c k m ->
    exists s, ulookup k (g_sites g) = Some s /\ s_cluster s <> unassignedId /\ s_neigh m = s_neigh s;
  h_disj : forall c c' k m m', member g c k m -> member g c' k m' -> c = c';
  h_own : forall k s cl, ulookup k (g_sites g) = Some s -> ulookup (s_cluster s) (g_clusters g) = Some cl ->
    exists c' m, member g c' k m /\ (c' = s_cluster s \/ (s_cluster s = fav /\ In c' todo)) }.
Definition shape (g : world) : Prop := shape_while 0 [] g.

(** the occupation counters say [oc] *)
Definition occ_is (g : world) (oc : Z -> Z) : Prop :=
  (forall k s, ulookup k (g_sites g) = Some s -> s_cluster s = unassignedId -> s_occ s = oc k) /\
  (forall c k m, member g c k m -> s_occ m = oc k).

(** a walker of [ws] is on [k] *)
Definition here (g : world) (ws : list Z) (k : Z) : bool :=
  existsb (fun p => match ulookup p (g_walkers g) with Some w => w_cur w =? k | None => false end) ws.

Record inv (g : world) (ws : list Z) : Prop := {
  v_shape : shape g;
  v_occ : occ_is g (fun k => Z.b2z (here g ws k));
  v_ndw : NoDup (ukeys (g_walkers g));
  v_nd : NoDup ws;
  v_on : forall p, In p ws -> exists k, walker_on g p k /\ In k (ukeys (g_sites g));
  v_excl : forall p q k, In p ws -> In q ws -> walker_on g p k -> walker_on g q k -> p = q }.

Lemma here_true g ws k : here g ws k = true <-> exists p, In p ws /\ walker_on g p k.
Proof.
  unfold here. rewrite existsb_exists. split; intros (p & Hp & E); exists p; (split; [exact Hp|]).
  - destruct (ulookup p (g_walkers g)) as [w|] eqn:E1; [|discriminate]. exists w. apply Z.eqb_eq in E. auto.
  - destruct E as (w & -> & <-). apply Z.eqb_refl.
Qed.
Lemma walker_on_fun g p k k' : walker_on g p k -> walker_on g p k' -> k = k'.
Proof. intros (w & E & <-) (w' & E' & <-). congruence. Qed.

(** ** Plumbing *)
Lemma eta_sites (g : world) : g_with_sites (g_sites g) g = g.
Proof. destruct g; reflexivity. Qed.
Lemma eta_clusters (g : world) : g_with_clusters (g_clusters g) g = g.
Proof. destruct g; reflexivity. Qed.
Lemma eta_walkers (g : world) : g_with_walkers (g_walkers g) g = g.
Proof. destruct g; reflexivity. Qed.

Lemma bind_ret_eq {S A B} (m : M S A) (f : A -> M S B) s b s'' :
  bind m f s = Ret b s'' -> exists a s', m s = Ret a s' /\ f a s' = Ret b s''.
Proof. apply bind_ret_inv. Qed.

Lemma at_key_ret {V A} k (ab : M (umap V) A) (m : M V A) mp a mp' :
  at_key k ab m mp = Ret a mp' ->
  (ulookup k mp = None /\ ab mp = Ret a mp') \/
  (exists v v', ulookup k mp = Some v /\ m v = Ret a v' /\ mp' = ureplace k v' mp).
Proof.
  unfold at_key. destruct (ulookup k mp) as [v|] eqn:E; [|auto]. intros E1. right.
  destruct (m v) as [a' v'|? ?|?] eqn:E2; inversion E1; subst. eauto.
Qed.
Lemma read_key_ret {V A} k (f : V -> res A) mp a mp' :
  read_key k f mp = Ret a mp' -> mp' = mp /\ exists v, ulookup k mp = Some v /\ f v = Ok a.
Proof.
  unfold read_key. destruct (ulookup k mp) as [v|]; [|discriminate]. unfold lift.
  destruct (f v) eqn:E; intros E1; inversion E1; subst. eauto.
Qed.
Lemma in_sites_ret {A} (m : M (umap site) A) g a g' : in_sites m g = Ret a g' ->
  exists s', m (g_sites g) = Ret a s' /\ g' = g_with_sites s' g.
Proof. unfold in_sites, zoom. destruct (m (g_sites g)); intros E; inversion E; subst; eauto. Qed.
Lemma in_clusters_ret {A} (m : M (umap cluster) A) g a g' : in_clusters m g = Ret a g' ->
  exists s', m (g_clusters g) = Ret a s' /\ g' = g_with_clusters s' g.
Proof. unfold in_clusters, zoom. destruct (m (g_clusters g)); intros E; inversion E; subst; eauto. Qed.
Lemma in_walker_ret {A} p (m : M walker A) g a g' : in_walker p m g = Ret a g' ->
  exists w w', ulookup p (g_walkers g) = Some w /\ m w = Ret a w' /\ g' = g_with_walkers (ureplace p w' (g_walkers g)) g.
Proof.
  unfold in_walker, zoom. destruct (at_key _ _ _ _) as [a' m'|? ?|?] eqn:E; intros E1; inversion E1; subst.
  apply at_key_ret in E. destruct E as [[_ E]|(v & v' & E2 & E3 & ->)]; [discriminate|]. eauto.
Qed.
Lemma sites_read {A} k (f : site -> res A) g a g' : in_sites (read_key k f) g = Ret a g' ->
  g' = g /\ exists s, ulookup k (g_sites g) = Some s /\ f s = Ok a.
Proof.
  intros E. apply in_sites_ret in E. destruct E as (m & E & ->). apply read_key_ret in E.
  destruct E as (-> & E). rewrite eta_sites. auto.
Qed.
Lemma clusters_read {A} k (f : cluster -> res A) g a g' : in_clusters (read_key k f) g = Ret a g' ->
  g' = g /\ exists s, ulookup k (g_clusters g) = Some s /\ f s = Ok a.
Proof.
  intros E. apply in_clusters_ret in E. destruct E as (m & E & ->). apply read_key_ret in E.
  destruct E as (-> & E). rewrite eta_clusters. auto.
Qed.
Lemma local_ret {S A} (m : M S A) (s : S) (g : world) x g' : local m s g = Ret x g' ->
  g' = g /\ m s = Ret (fst x) (snd x).
Proof. unfold local. destruct (m s) eqn:E; intros E1; inversion E1; subst; auto. Qed.

Lemma on_feature_ret {A} k (ms : M site A) (mc : M cluster A) g a g' : on_feature k ms mc g = Ret a g' ->
  (exists j s s', ulookup k (g_feats g) = Some (PSite j) /\ ulookup j (g_sites g) = Some s /\
     ms s = Ret a s' /\ g' = g_with_sites (ureplace j s' (g_sites g)) g) \/
  (exists c cl cl', ulookup k (g_feats g) = Some (PCluster c) /\ ulookup c (g_clusters g) = Some cl /\
     mc cl = Ret a cl' /\ g' = g_with_clusters (ureplace c cl' (g_clusters g)) g).
Proof.
  unfold on_feature. intros E. apply bind_ret_inv in E. destruct E as (f & g1 & E1 & E). inversion E1; subst f g1.
  destruct (ulookup k (g_feats g)) as [[|j|c]|] eqn:Ef; try discriminate.
  - left. apply in_sites_ret in E. destruct E as (m & E & ->). apply at_key_ret in E.
    destruct E as [[_ E]|(v & v' & E2 & E3 & ->)]; [discriminate|]. exists j, v, v'. auto.
  - right. apply in_clusters_ret in E. destruct E as (m & E & ->). apply at_key_ret in E.
    destruct E as [[_ E]|(v & v' & E2 & E3 & ->)]; [discriminate|]. exists c, v, v'. auto.
Qed.

(** ** Steps that keep the structure *)
Lemma ureplace_lookup_some {V} k (v : V) m v0 k2 : ulookup k m = Some v0 ->
  ulookup k2 (ureplace k v m) = if k2 =? k then Some v else ulookup k2 m.
Proof.
  intros E. rewrite ureplace_lookup. unfold umem. rewrite E, andb_true_r. reflexivity.
Qed.

Lemma member_sites g m c k s : member (g_with_sites m g) c k s <-> member g c k s.
Proof. reflexivity. Qed.

(** a site changes its counters and engine *)
Lemma shape_site fav todo g j s s' : shape_while fav todo g -> ulookup j (g_sites g) = Some s ->
  s_id s' = s_id s -> s_cluster s' = s_cluster s -> s_neigh s' = s_neigh s ->
  shape_while fav todo (g_with_sites (ureplace j s' (g_sites g)) g).
Proof.
  intros [] Ej Ei Ec En.
  assert (L : forall k, ulookup k (ureplace j s' (g_sites g)) = if k =? j then Some s' else ulookup k (g_sites g))
    by (intros k; apply (ureplace_lookup_some _ _ _ s), Ej).
  constructor; cbn [g_sites g_clusters g_feats g_count g_with_sites]; auto.
  - rewrite ureplace_keys; auto.
  - intros k x. rewrite L. destruct (Z.eqb_spec k j) as [->|]; intros E; [|eauto].
    inversion E; subst x. rewrite Ei, Ec. eauto.
  - intros k. rewrite L, h_feat0. destruct (Z.eqb_spec k j) as [->|]; [|reflexivity]. rewrite Ej, Ec. reflexivity.
  - intros c k m Hm. rewrite L. destruct (h_mem0 c k m Hm) as (x & E1 & E2 & E3).
    destruct (Z.eqb_spec k j) as [->|]; [|eauto]. exists s'. rewrite Ec, En. split; [reflexivity|].
    assert (x = s) by congruence. subst x. auto.
  - intros k x cl. rewrite L. destruct (Z.eqb_spec k j) as [->|]; intros E1 E2; [|eauto].
    inversion E1; subst x. rewrite Ec in *. eauto.
Qed.

(** a cluster changes everything but its id and the set of its members *)
Record like (a b : cluster) : Prop := {
  l_id : c_id b = c_id a;
  l_nd : NoDup (ukeys (c_sites a)) -> NoDup (ukeys (c_sites b));
  l_keys : forall k, In k (ukeys (c_sites b)) <-> In k (ukeys (c_sites a));
  l_neigh : forall k m, ulookup k (c_sites b) = Some m ->
    exists m0, ulookup k (c_sites a) = Some m0 /\ s_neigh m = s_neigh m0 }.
Lemma like_refl a : like a a.
Proof. constructor; auto; [tauto|eauto]. Qed.
Lemma same_core_like a b : same_core a b -> like a b.
Proof.
  intros Sc. constructor; [exact (sc_id _ _ Sc) | |  |]; rewrite (sc_sites _ _ Sc); [auto | tauto | eauto].
Qed.

Lemma member_replace g c cl cl' c0 k s : ulookup c (g_clusters g) = Some cl ->
  (member (g_with_clusters (ureplace c cl' (g_clusters g)) g) c0 k s <->
   (c0 = c /\ ulookup k (c_sites cl') = Some s) \/ (c0 <> c /\ member g c0 k s)).
Proof.
  intros E. unfold member. cbn [g_clusters g_with_clusters].
  rewrite (ureplace_lookup_some _ _ _ cl) by exact E.
  destruct (Z.eqb_spec c0 c) as [->|Ne].
  - split; [intros (x & E1 & E2); inversion E1; subst; auto|].
    intros [[_ H1]|[H1 _]]; [eauto|congruence].
  - split; [auto|]. intros [[H1 _]|[_ H1]]; [congruence|exact H1].
Qed.

Lemma shape_cluster fav todo g c cl cl' : shape_while fav todo g -> ulookup c (g_clusters g) = Some cl ->
  like cl cl' -> shape_while fav todo (g_with_clusters (ureplace c cl' (g_clusters g)) g).
Proof.
  intros [] Ec [Li Ln Lk Lg].
  assert (L : forall k, ulookup k (ureplace c cl' (g_clusters g)) = if k =? c then Some cl' else ulookup k (g_clusters g))
    by (intros k; apply (ureplace_lookup_some _ _ _ cl), Ec).
  assert (Mb : forall c0 k s, member (g_with_clusters (ureplace c cl' (g_clusters g)) g) c0 k s ->
                 exists s0, member g c0 k s0 /\ s_neigh s = s_neigh s0).
  { intros c0 k s Hm. apply (member_replace _ _ cl) in Hm; [|exact Ec].
    destruct Hm as [[-> Hm]|[_ Hm]]; [|eauto].
    destruct (Lg _ _ Hm) as (m0 & E1 & E2). exists m0. split; [exists cl; auto|exact E2]. }
  assert (Mf : forall c0 k s, member g c0 k s -> exists s0, member (g_with_clusters (ureplace c cl' (g_clusters g)) g) c0 k s0).
  { intros c0 k s Hm. destruct (Z.eq_dec c0 c) as [->|Ne].
    - destruct Hm as (x & E1 & E2). assert (x = cl) by congruence. subst x.
      apply ulookup_In_key in E2. apply Lk in E2. apply ukeys_In in E2. destruct E2 as [m E2].
      exists m. apply (member_replace _ _ cl); auto.
    - exists s. apply (member_replace _ _ cl); auto. }
  constructor; cbn [g_sites g_clusters g_feats g_count g_with_clusters]; auto.
  - rewrite ureplace_keys; auto.
  - intros k x. rewrite L. destruct (Z.eqb_spec k c) as [->|]; intros E; [|eauto].
    inversion E; subst x. destruct (h_cl0 c cl Ec) as (E1 & E2 & E3 & i & j & E4 & E5 & E6).
    rewrite Li. split; [exact E1|]. split; [exact E2|]. split; [auto|]. exists i, j.
    split; [exact E4|]. split; apply Lk; assumption.
  - intros c0 k m Hm. destruct (Mb _ _ _ Hm) as (s0 & H0 & E0). rewrite E0. eauto.
  - intros c0 c1 k m m' H1 H2. destruct (Mb _ _ _ H1) as [? [? _]], (Mb _ _ _ H2) as [? [? _]]. eauto.
  - intros k s x E1. rewrite L. intros E2.
    assert (exists y, ulookup (s_cluster s) (g_clusters g) = Some y) as [y Ey]
      by (destruct (Z.eqb_spec (s_cluster s) c) as [->|]; eauto).
    destruct (h_own0 k s y E1 Ey) as (c' & m & Hm & Hc). destruct (Mf _ _ _ Hm) as [m' Hm'].
    exists c', m'. auto.
Qed.

(** ** What a call through a feature pointer does *)
(** the copy of [k] that counts: the container's for a free site, otherwise
    the one in its cluster *)
Lemma feature_at g k : shape g ->
  forall {A} (ms : M site A) (mc : M cluster A) a g', on_feature k ms mc g = Ret a g' ->
  (exists s s', ulookup k (g_sites g) = Some s /\ s_cluster s = unassignedId /\ ms s = Ret a s' /\
     g' = g_with_sites (ureplace k s' (g_sites g)) g) \/
  (exists s cl cl' m, ulookup k (g_sites g) = Some s /\ s_cluster s <> unassignedId /\
     ulookup (s_cluster s) (g_clusters g) = Some cl /\ ulookup k (c_sites cl) = Some m /\
     mc cl = Ret a cl' /\ g' = g_with_clusters (ureplace (s_cluster s) cl' (g_clusters g)) g).
Proof.
  intros Sh A ms mc a g' E. apply on_feature_ret in E. destruct Sh.
  assert (Hf := h_feat0 k).
  destruct E as [(j & s & s' & E1 & E2 & E3 & ->)|(c & cl & cl' & E1 & E2 & E3 & ->)]; rewrite E1 in Hf;
    (destruct (ulookup k (g_sites g)) as [s0|] eqn:Es; [|discriminate]);
    destruct (Z.eqb_spec (s_cluster s0) unassignedId) as [Eu|Eu]; inversion Hf; subst.
  - left. assert (s0 = s) by congruence. subst s0. exists s, s'. auto.
  - right. destruct (h_own0 k s0 cl Es E2) as (c' & m & (x & Ex & Em) & [-> | [_ []]]).
    assert (x = cl) by congruence. subst x. exists s0, cl, cl', m. auto 10.
Qed.

Lemma occ_site g oc j s s' v : shape g -> occ_is g oc -> ulookup j (g_sites g) = Some s ->
  s_cluster s = unassignedId -> s_cluster s' = unassignedId -> s_occ s' = v ->
  occ_is (g_with_sites (ureplace j s' (g_sites g)) g) (fun k => if k =? j then v else oc k).
Proof.
  intros Sh [O1 O2] Ej Eu Eu' Eo.
  split; cbn [g_sites g_with_sites].
  - intros k x. rewrite (ureplace_lookup_some _ _ _ s) by exact Ej.
    destruct (Z.eqb_spec k j) as [->|]; intros E1 E2; [inversion E1; subst; reflexivity|eauto].
  - intros c k m Hm. change (member g c k m) in Hm. destruct (Z.eqb_spec k j) as [->|]; [|eauto].
    destruct (h_mem _ _ _ Sh c j m Hm) as (x & E1 & E2 & _). congruence.
Qed.

Lemma occ_member g oc k s cl cl' v : shape g -> occ_is g oc -> ulookup k (g_sites g) = Some s ->
  s_cluster s <> unassignedId -> ulookup (s_cluster s) (g_clusters g) = Some cl ->
  In k (ukeys (c_sites cl)) ->
  (forall j m, ulookup j (c_sites cl') = Some m ->
     if j =? k then s_occ m = v else exists m0, ulookup j (c_sites cl) = Some m0 /\ s_occ m = s_occ m0) ->
  occ_is (g_with_clusters (ureplace (s_cluster s) cl' (g_clusters g)) g) (fun j => if j =? k then v else oc j).
Proof.
  intros Sh [O1 O2] Ek Eu Ec Hk Hm. split; cbn [g_sites g_with_clusters].
  - intros j x E1 E2. destruct (Z.eqb_spec j k) as [->|]; [congruence|eauto].
  - intros c j m Hj. apply (member_replace _ _ cl) in Hj; [|exact Ec].
    destruct Hj as [[-> Hj]|[Ne Hj]].
    + specialize (Hm j m Hj). destruct (Z.eqb_spec j k) as [->|]; [exact Hm|].
      destruct Hm as (m0 & E1 & ->). apply (O2 (s_cluster s)). exists cl. auto.
    + destruct (Z.eqb_spec j k) as [->|]; [|eauto].
      exfalso. apply Ne. apply ukeys_In in Hk. destruct Hk as [m0 Hk].
      apply (h_disj _ _ _ Sh c (s_cluster s) k m m0); [exact Hj|exists cl; auto].
Qed.

(** the site a call touches leaves shape and other components alone *)
Record kept (g g' : world) : Prop := {
  k_perf : g_perf g' = g_perf g; k_res : g_res g' = g_res g; k_iter : g_iter g' = g_iter g;
  k_thr : g_thr g' = g_thr g; k_thrmin : g_thrmin g' = g_thrmin g; k_feats : g_feats g' = g_feats g;
  k_walkers : g_walkers g' = g_walkers g; k_heap : g_heap g' = g_heap g;
  k_count : g_count g' = g_count g; k_seed : g_seed g' = g_seed g }.

Lemma kept_refl g : kept g g.
Proof. constructor; reflexivity. Qed.
Lemma kept_trans a b c : kept a b -> kept b c -> kept a c.
Proof. intros [] []. constructor; congruence. Qed.
End Shape.
