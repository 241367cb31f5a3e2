(** * Crossing times and exit rates over exact arithmetic *)
From Coq Require Import ZArith List Bool Reals Lra Lia Permutation Relations.
From Verif Require Import Base BaseProofs Num OrdLaws RSum SiteModel SiteSpec SiteProofs ClusterModel
  ContainerModel BasinModel BasinSpec BasinProofs CrossSpec SystemModel.
Import ListNotations.
Open Scope R_scope.

Lemma member_In k (l : list Z) : existsb (Z.eqb k) l = true <-> In k l.
Proof.
  rewrite existsb_exists. split; [intros (x & Hx & E); apply Z.eqb_eq in E; subst; exact Hx|].
  intros Hk. exists k. split; [exact Hk|apply Z.eqb_refl].
Qed.
Lemma member_not k (l : list Z) : existsb (Z.eqb k) l = false <-> ~ In k l.
Proof. rewrite <- member_In. destruct (existsb (Z.eqb k) l); split; intros; congruence. Qed.

Section C.
Context {I : Impl} {G : @Rng XR} {U : @Ugly XR}.
Variables (h : @heap XR) (sites : umap (@site XR G)).
Hypothesis Hg : good_sites h sites.

(** ** Walks *)
Lemma walk_start B i j t : walk h sites B i j t -> In i B.
Proof. induction 1; assumption. Qed.
Lemma walk_end B i j t : walk h sites B i j t -> In j B.
Proof. destruct 1; assumption. Qed.
Lemma walk_pos B i j t : walk h sites B i j t -> 0 <= t.
Proof.
  induction 1 as [|j k t r W IH Hk Hr]; [lra|]. apply (rate_pos h sites Hg) in Hr.
  assert (0 < / r) by (apply Rinv_0_lt_compat, Hr). unfold Rdiv. lra.
Qed.
Lemma walk_first B i j r : In i B -> In j B -> rate_between h sites i j r -> walk h sites B i j (1 / r).
Proof. intros Hi Hj Hr. replace (1 / r) with (0 + 1 / r) by lra. eapply walk_go; eauto. constructor; exact Hi. Qed.
Lemma walk_app B i j k t t' : walk h sites B i j t -> walk h sites B j k t' -> walk h sites B i k (t + t').
Proof.
  intros W. induction 1 as [|k l t' r W' IH Hl Hr]; [rewrite Rplus_0_r; exact W|].
  rewrite <- Rplus_assoc. eapply walk_go; eauto.
Qed.
Lemma walk_mono B B' i j t : (forall k, In k B -> In k B') -> walk h sites B i j t -> walk h sites B' i j t.
Proof. intros Hs. induction 1; [constructor; auto|eapply walk_go; eauto]. Qed.
Lemma joined_from B k : mutual h sites -> (forall j, In j B -> exists t, walk h sites B k j t) -> joined h sites B.
Proof.
  intros Mu Hk. assert (Back : forall i j t, walk h sites B i j t -> exists t', walk h sites B j i t').
  { intros i j t. induction 1 as [Hi|j l t r W [t' IH] Hl Hr]; [exists 0; constructor; exact Hi|].
    destruct (Mu _ _ _ Hr) as [r' Hr']. exists (1 / r' + t').
    eapply walk_app; [|exact IH]. apply walk_first; [exact Hl|exact (walk_end _ _ _ _ W)|exact Hr']. }
  intros i j Hi Hj. destruct (Hk i Hi) as [t Wi], (Hk j Hj) as [t' Wj]. destruct (Back _ _ _ Wi) as [u Wu].
  exists (u + t'). eapply walk_app; eauto.
Qed.

(** walks without repetition; [vs] are the sites, the last one first *)
Inductive simple (B : list Z) (i : Z) : Z -> R -> list Z -> Prop :=
| simple_stay : In i B -> simple B i i 0 [i]
| simple_go j k t r vs : simple B i j t vs -> In k B -> ~ In k vs -> rate_between h sites j k r ->
    simple B i k (t + 1 / r) (k :: vs).
Lemma simple_walk B i j t vs : simple B i j t vs -> walk h sites B i j t.
Proof. induction 1; [constructor; assumption|eapply walk_go; eauto]. Qed.
Lemma simple_vs B i j t vs : simple B i j t vs -> NoDup vs /\ incl vs B /\ In j vs.
Proof.
  induction 1 as [Hi|j k t r vs W (A & B1 & C) Hk Hn Hr].
  - split; [repeat constructor; intros []|]. split; [intros x [<-|[]]; exact Hi|left; reflexivity].
  - split; [constructor; assumption|]. split; [intros x [<-|Hx]; [exact Hk|apply B1, Hx]|left; reflexivity].
Qed.
Lemma simple_cut B i j t vs k : simple B i j t vs -> In k vs -> exists t' vs', simple B i k t' vs' /\ t' <= t.
Proof.
  intros W Hk. induction W as [Hi|j l t r vs W IH Hl Hn Hr].
  - destruct Hk as [<-|[]]. exists 0, [i]. split; [constructor; exact Hi|lra].
  - destruct Hk as [<-|Hk]; [eexists; eexists; split; [eapply simple_go; eauto|lra]|].
    destruct (IH Hk) as (t' & vs' & W' & Le). exists t', vs'. split; [exact W'|].
    apply (rate_pos h sites Hg) in Hr. assert (0 < / r) by (apply Rinv_0_lt_compat, Hr). unfold Rdiv. lra.
Qed.
Lemma walk_simple B i j t : walk h sites B i j t -> exists t' vs, simple B i j t' vs /\ t' <= t.
Proof.
  induction 1 as [Hi|j k t r W (t' & vs & S & Le) Hk Hr]; [exists 0, [i]; split; [constructor; exact Hi|lra]|].
  destruct (in_dec Z.eq_dec k vs) as [Hin|Hn].
  - destruct (simple_cut _ _ _ _ _ _ S Hin) as (t2 & vs2 & S2 & Le2). exists t2, vs2. split; [exact S2|].
    apply (rate_pos h sites Hg) in Hr. assert (0 < / r) by (apply Rinv_0_lt_compat, Hr). unfold Rdiv. lra.
  - exists (t' + 1 / r), (k :: vs). split; [eapply simple_go; eauto|lra].
Qed.

(** ** The distances of the graph library *)
Lemma time_edges_In ids e : In e (time_edges h sites ids) <->
  In (e_src e) ids /\ exists r, rate_between h sites (e_src e) (e_dst e) r /\ snd e = (Fin (1 / r) : @num XR).
Proof.
  unfold time_edges. rewrite in_flat_map. split.
  - intros (k & Hk & He). apply in_map_iff in He. destruct He as ([n a] & <- & Hn). cbn [fst snd e_src e_dst].
    split; [exact Hk|]. rewrite (rates_of_get h sites Hg) in Hn. destruct (ulookup k sites) as [s|] eqn:Es; [|destruct Hn].
    apply ulookup_In in Es. destruct (proj2 Hg k s Es) as [_ P]. destruct (P n a Hn) as (r & Er & Rp).
    exists r. split; [exists s, a; auto|]. rewrite Er. apply xdiv_Fin. lra.
  - intros (Hk & r & (s & a & Hs & Ha & Er) & Ew). exists (e_src e). split; [exact Hk|]. apply in_map_iff.
    exists (e_dst e, a). cbn [fst snd]. split.
    + destruct e as [[x y] w]. cbn [e_src e_dst fst snd] in *. rewrite Ew, Er. f_equal.
      destruct (proj2 Hg _ _ Hs) as [_ P]. destruct (P _ _ Ha) as (r' & Er' & Rp).
      assert (r' = r) by (rewrite Er in Er'; injection Er'; auto). subst r'. apply xdiv_Fin. lra.
    + rewrite (rates_of_get h sites Hg), (In_ulookup _ _ _ (nd_sites h sites Hg) Hs). exact Ha.
Qed.

(** [o] is a shortest time among those in [P] *)
Definition least (P : R -> Prop) (o : option (@num XR)) : Prop :=
  match o with
  | Some d => exists r, d = Fin r /\ P r
  | None => True
  end.
Definition upto (t : R) (o : option (@num XR)) : Prop := exists r, o = Some (Fin r : @num XR) /\ r <= t.

Lemma dmin_least P a b : least P a -> least P b -> least P (dmin a b).
Proof.
  destruct a as [x|], b as [y|]; cbn; auto. intros (r & -> & Pr) (q & -> & Pq).
  destruct (xltb (Fin q) (Fin r)); eauto.
Qed.
Lemma dmin_l t a b : upto t a -> (exists r, b = Some (Fin r : @num XR)) -> upto t (dmin a b).
Proof.
  intros (r & -> & Le) [q ->]. cbn. destruct (Rltb q r) eqn:E; [apply Rltb_true in E; exists q|exists r]; (split; [reflexivity|lra]).
Qed.
Lemma dmin_r t a b : upto t b -> (a = None \/ exists r, a = Some (Fin r : @num XR)) -> upto t (dmin a b).
Proof.
  intros (r & -> & Le) [->|[q ->]]; cbn; [exists r; auto|].
  destruct (Rltb r q) eqn:E; [exists r; auto|apply Rltb_false in E; exists q; split; [reflexivity|lra]].
Qed.

Lemma dist_sound ids n i : In i ids -> forall j, In j ids -> least (walk h sites ids i j) (dist n ids (time_edges h sites ids) i j).
Proof.
  intros Hi. induction n as [|n IH]; intros j Hj; cbn [dist].
  - destruct (Z.eqb_spec i j) as [->|]; cbn; [|exact Logic.I]. exists 0. split; [reflexivity|constructor; exact Hj].
  - assert (X : forall l acc, incl l (time_edges h sites ids) -> least (walk h sites ids i j) acc ->
      least (walk h sites ids i j) (fold_left (fun acc e =>
        if (e_dst e =? j)%Z && existsb (Z.eqb (e_src e)) ids then
          match dist n ids (time_edges h sites ids) i (e_src e) with
          | Some d => dmin acc (Some (nadd d (snd e)))
          | None => acc
          end
        else acc) l acc)).
    { induction l as [|e l IHl]; intros acc Hl Ha; cbn [fold_left]; [exact Ha|]. apply IHl; [intros x Hx; apply Hl; right; exact Hx|].
      destruct (Z.eqb_spec (e_dst e) j) as [Ej|]; cbn [andb]; [|exact Ha].
      destruct (existsb (Z.eqb (e_src e)) ids) eqn:Es; [|exact Ha]. apply member_In in Es.
      specialize (IH (e_src e) Es). destruct (dist n ids (time_edges h sites ids) i (e_src e)) as [d|]; [|exact Ha].
      apply dmin_least; [exact Ha|]. destruct IH as (t & -> & Wt).
      assert (He : In e (time_edges h sites ids)) by (apply Hl; left; reflexivity). apply time_edges_In in He.
      destruct He as (_ & r & Hr & ->). exists (t + 1 / r). split; [reflexivity|]. rewrite Ej in Hr. eapply walk_go; eauto. }
    apply X; [apply incl_refl|apply IH, Hj].
Qed.
Lemma dist_fin ids n i j d : In i ids -> In j ids -> dist n ids (time_edges h sites ids) i j = Some d -> exists r, d = Fin r.
Proof. intros Hi Hj E. pose proof (dist_sound ids n i Hi j Hj) as X. rewrite E in X. destruct X as (r & -> & _). eauto. Qed.
Lemma dist_complete ids i j t vs : simple ids i j t vs -> forall n, (length vs <= S n)%nat ->
  upto t (dist n ids (time_edges h sites ids) i j).
Proof.
  induction 1 as [Hi|j k t r vs W IH Hk Hn Hr]; intros n Hl.
  - induction n as [|n IHn]; cbn [dist]; [rewrite Z.eqb_refl; exists 0; split; [reflexivity|lra]|].
    specialize (IHn ltac:(cbn; lia)). revert IHn. generalize (dist n ids (time_edges h sites ids) i i).
    assert (Y : forall l, incl l (time_edges h sites ids) -> forall o, upto 0 o -> upto 0 (fold_left (fun acc e =>
        if (e_dst e =? i)%Z && existsb (Z.eqb (e_src e)) ids then
          match dist n ids (time_edges h sites ids) i (e_src e) with
          | Some d => dmin acc (Some (nadd d (snd e)))
          | None => acc
          end
        else acc) l o)).
    { induction l as [|e l IHl]; intros Hin o Ho; cbn [fold_left]; [exact Ho|]. apply IHl; [intros x Hx; apply Hin; right; exact Hx|].
      destruct ((e_dst e =? i)%Z); cbn [andb]; [|exact Ho]. destruct (existsb (Z.eqb (e_src e)) ids) eqn:Es; [|exact Ho].
      apply member_In in Es. destruct (dist n ids (time_edges h sites ids) i (e_src e)) as [d|] eqn:Ed; [|exact Ho].
      destruct (dist_fin _ _ _ _ _ Hi Es Ed) as [q ->]. apply dmin_l; [exact Ho|].
      assert (He : In e (time_edges h sites ids)) by (apply Hin; left; reflexivity). apply time_edges_In in He.
      destruct He as (_ & r & _ & ->). exists (q + 1 / r). reflexivity. }
    intros o Ho. apply Y; [apply incl_refl|exact Ho].
  - destruct n as [|n]; [cbn in Hl; pose proof (proj2 (proj2 (simple_vs _ _ _ _ _ W))); destruct vs; [contradiction|cbn in Hl; lia]|].
    specialize (IH n ltac:(cbn in Hl; lia)). cbn [dist].
    pose proof (simple_walk _ _ _ _ _ W) as Wj. pose proof (walk_start _ _ _ _ Wj) as Hi. pose proof (walk_end _ _ _ _ Wj) as Hj.
    set (e0 := (j, k, Fin (1 / r)) : @edge XR).
    assert (He0 : In e0 (time_edges h sites ids)) by (apply time_edges_In; split; [exact Hj|exists r; split; [exact Hr|reflexivity]]).
    assert (Y : forall l, incl l (time_edges h sites ids) -> forall o, (o = None \/ exists q, o = Some (Fin q : @num XR)) ->
      (upto (t + 1 / r) o \/ In e0 l) -> upto (t + 1 / r) (fold_left (fun acc e =>
        if (e_dst e =? k)%Z && existsb (Z.eqb (e_src e)) ids then
          match dist n ids (time_edges h sites ids) i (e_src e) with
          | Some d => dmin acc (Some (nadd d (snd e)))
          | None => acc
          end
        else acc) l o)).
    { induction l as [|e l IHl]; intros Hin o Ho Hu; cbn [fold_left]; [destruct Hu as [Hu|[]]; exact Hu|].
      assert (He : In e (time_edges h sites ids)) by (apply Hin; left; reflexivity).
      apply IHl; [intros x Hx; apply Hin; right; exact Hx| |].
      - destruct ((e_dst e =? k)%Z); cbn [andb]; [|exact Ho]. destruct (existsb (Z.eqb (e_src e)) ids) eqn:Es; [|exact Ho].
        apply member_In in Es. destruct (dist n ids (time_edges h sites ids) i (e_src e)) as [d|] eqn:Ed; [|exact Ho].
        destruct (dist_fin _ _ _ _ _ Hi Es Ed) as [q ->]. apply time_edges_In in He. destruct He as (_ & r' & _ & ->).
        right. destruct Ho as [->|[q' ->]]; cbn; [eauto|]. destruct (Rltb _ _); eauto.
      - destruct (in_dec (fun a b : Z * Z => ltac:(decide equality; apply Z.eq_dec)) (fst e) [fst e0]) as [[Ee|[]]|Ne].
        + (* an edge from j to k *) left. assert (Es1 : e_src e = j) by (unfold e_src; rewrite <- Ee; reflexivity).
          assert (Es2 : e_dst e = k) by (unfold e_dst; rewrite <- Ee; reflexivity).
          rewrite Es1, Es2, Z.eqb_refl. cbn [andb]. apply member_In in Hj as Hj'. rewrite Hj'.
          destruct IH as (d & Ed & Le). rewrite Ed. apply dmin_r; [|exact Ho].
          apply time_edges_In in He. destruct He as (_ & r' & Hr' & ->). rewrite Es1, Es2 in Hr'.
          assert (r' = r).
          { destruct Hr as (s & a & Hs & Ha & Er), Hr' as (s' & a' & Hs' & Ha' & Er').
            assert (s' = s) by (apply (In_ulookup _ _ _ (nd_sites h sites Hg)) in Hs, Hs'; congruence). subst s'.
            destruct (proj2 Hg _ _ Hs) as [ND _]. apply (In_ulookup _ _ _ ND) in Ha, Ha'. congruence. }
          subst r'. exists (d + 1 / r). split; [reflexivity|lra].
        + assert (Hu' : upto (t + 1 / r) o \/ In e0 l).
          { destruct Hu as [Hu|[->|Hu]]; auto. exfalso. apply Ne. left. reflexivity. }
          destruct Hu' as [Hu'|Hu']; [left|right; exact Hu'].
          destruct ((e_dst e =? k)%Z); cbn [andb]; [|exact Hu']. destruct (existsb (Z.eqb (e_src e)) ids) eqn:Es; [|exact Hu'].
          apply member_In in Es. destruct (dist n ids (time_edges h sites ids) i (e_src e)) as [d|] eqn:Ed; [|exact Hu'].
          destruct (dist_fin _ _ _ _ _ Hi Es Ed) as [q ->]. apply time_edges_In in He. destruct He as (_ & r' & _ & ->).
          apply dmin_l; [exact Hu'|]. exists (q + 1 / r'). reflexivity. }
    apply Y; [apply incl_refl| |right; exact He0].
    destruct (dist n ids (time_edges h sites ids) i k) as [d|] eqn:Ed; [right|left; reflexivity].
    destruct (dist_fin _ _ _ _ _ Hi Hk Ed) as [q ->]. eauto.
Qed.
Lemma dist_quickest ids i j t : walk h sites ids i j t ->
  exists d, dist (length ids) ids (time_edges h sites ids) i j = Some (Fin d : @num XR) /\ quickest h sites ids i j d.
Proof.
  intros W. assert (Up : forall t, walk h sites ids i j t -> upto t (dist (length ids) ids (time_edges h sites ids) i j)).
  { intros t' W'. destruct (walk_simple _ _ _ _ W') as (t2 & vs & S & Le). destruct (simple_vs _ _ _ _ _ S) as (ND & In1 & _).
    destruct (dist_complete _ _ _ _ _ S (length ids)) as (r & E & L2); [pose proof (NoDup_incl_length ND In1); lia|].
    exists r. split; [exact E|lra]. }
  destruct (Up t W) as (d & Ed & _). exists d. split; [exact Ed|].
  pose proof (dist_sound ids (length ids) i (walk_start _ _ _ _ W) j (walk_end _ _ _ _ W)) as X. rewrite Ed in X.
  destruct X as (r & Er & Wr). injection Er as <-. split; [exact Wr|]. intros t' W'. destruct (Up t' W') as (r & E & L2).
  rewrite Ed in E. injection E as <-. exact L2.
Qed.
Lemma quickest_fun B i j d d' : quickest h sites B i j d -> quickest h sites B i j d' -> d = d'.
Proof. intros [W M] [W' M']. apply Rle_antisym; auto. Qed.

Lemma nodes_of_NoDup ids : NoDup ids -> nodes_of ids = ids.
Proof.
  induction 1 as [|k ids Hn ND IH]; [reflexivity|]. cbn [nodes_of]. rewrite IH. f_equal.
  clear - Hn. induction ids as [|j ids IH]; [reflexivity|]. cbn [filter].
  destruct (Z.eqb_spec j k) as [->|]; [exfalso; apply Hn; left; reflexivity|]. cbn [negb]. f_equal. apply IH.
  intros X. apply Hn. right. exact X.
Qed.
Lemma pair_times_In nonce ids d :
  In d (pair_times nonce ids (time_edges h sites ids)) <->
  exists i j, In i ids /\ In j ids /\ i <> j /\
    ((exists r, quickest h sites ids i j r /\ d = (Fin r : @num XR)) \/
     ((forall t, ~ walk h sites ids i j t) /\ u_far nonce i j = Some d)).
Proof.
  assert (Nw : forall i j, In i ids -> In j ids -> dist (length ids) ids (time_edges h sites ids) i j = None <-> forall t, ~ walk h sites ids i j t).
  { intros i j Hi Hj. split.
    - intros E t W. destruct (dist_quickest _ _ _ _ W) as (r & Er & _). congruence.
    - intros W. pose proof (dist_sound ids (length ids) i Hi j Hj) as X.
      destruct (dist (length ids) ids (time_edges h sites ids) i j) as [d'|]; [|reflexivity]. destruct X as (r & _ & Wr). exfalso. exact (W r Wr). }
  unfold pair_times. rewrite in_flat_map. split.
  - intros (i & Hi & Hd). apply in_flat_map in Hd. destruct Hd as (j & Hj & Hd).
    destruct (Z.eqb_spec i j) as [|Ne]; [destruct Hd|]. exists i, j. split; [exact Hi|]. split; [exact Hj|]. split; [exact Ne|].
    destruct (dist (length ids) ids (time_edges h sites ids) i j) as [x|] eqn:E.
    + left. destruct Hd as [<-|[]]. pose proof (dist_sound ids (length ids) i Hi j Hj) as X. rewrite E in X. destruct X as (r & -> & Wr).
      destruct (dist_quickest _ _ _ _ Wr) as (q & Eq & Q). rewrite E in Eq. injection Eq as ->. exists q. auto.
    + right. split; [apply Nw; assumption|]. destruct (u_far nonce i j) as [y|]; [|destruct Hd]. destruct Hd as [<-|[]]. reflexivity.
  - intros (i & j & Hi & Hj & Ne & Hd). exists i. split; [exact Hi|]. apply in_flat_map. exists j. split; [exact Hj|].
    apply Z.eqb_neq in Ne. rewrite Ne. destruct Hd as [(r & Q & ->)|(W & E)].
    + destruct (dist_quickest _ _ _ _ (proj1 Q)) as (r' & Er & Q').
      rewrite Er. left. f_equal. apply (quickest_fun _ _ _ _ _ Q' Q).
    + apply Nw in W; try assumption. rewrite W, E. left. reflexivity.
Qed.
Lemma max_any (l : list (@num XR)) : forall m, (exists a, m = Fin a /\ 0 <= a) \/ m = PInf ->
  let x := fold_left (fun m t => if @nltb XR m t then t else m) l m in
  x = PInf \/ exists b, x = Fin b /\ 0 <= b /\ (forall a, m = Fin a -> a <= b) /\ (forall r, In (Fin r : @num XR) l -> r <= b) /\ m <> PInf /\
    (m = Fin b \/ In (Fin b : @num XR) l).
Proof.
  induction l as [|t l IH]; intros m Hm; cbn [fold_left].
  - destruct Hm as [(a & -> & Ha)| ->]; [right; exists a|left; reflexivity]. split; [reflexivity|]. split; [exact Ha|].
    split; [intros a' E; injection E as ->; lra|]. split; [intros r []|]. split; [discriminate|auto].
  - assert (Hm' : (exists a, (if @nltb XR m t then t else m) = Fin a /\ 0 <= a) \/ (if @nltb XR m t then t else m) = PInf).
    { destruct Hm as [(a & -> & Ha)| ->]; [|destruct t; cbn; auto].
      destruct t as [r| | |]; cbn; eauto. destruct (Rltb a r) eqn:E; [apply Rltb_true in E; left; exists r; split; [reflexivity|lra]|eauto]. }
    destruct (IH _ Hm') as [E|(b & E & B0 & B1 & B2 & B3 & B4)]; [left; exact E|right; exists b; split; [exact E|]]. split; [exact B0|].
    destruct Hm as [(a & -> & Ha)| ->]; [|exfalso; destruct t; cbn in B3; congruence].
    destruct t as [r| | |]; cbn in *; try (exfalso; congruence).
    + destruct (Rltb a r) eqn:Er.
      * apply Rltb_true in Er. specialize (B1 r eq_refl). split; [intros a' X; injection X as <-; lra|]. split; [intros r' [X|X]; [injection X as <-; lra|auto]|].
        split; [discriminate|]. destruct B4 as [B4|B4]; [right; left; exact B4|right; right; exact B4].
      * apply Rltb_false in Er. specialize (B1 a eq_refl). split; [intros a' X; injection X as <-; lra|]. split; [intros r' [X|X]; [injection X as <-; lra|auto]|].
        split; [discriminate|]. destruct B4 as [B4|B4]; [left; exact B4|right; right; exact B4].
    + split; [exact B1|]. split; [intros r' [X|X]; [discriminate|auto]|]. split; [discriminate|]. destruct B4; auto.
    + split; [exact B1|]. split; [intros r' [X|X]; [discriminate|auto]|]. split; [discriminate|]. destruct B4; auto.
Qed.
(** the limit is the crossing time, or larger if some pair is not connected *)
Lemma limit_crossing nonce ids : NoDup ids ->
  exists L, 0 <= L /\ crossing h sites ids L /\
    (internal_limit nonce h sites ids = PInf \/ exists M, internal_limit nonce h sites ids = Fin M /\ L <= M) /\
    (joined h sites ids -> internal_limit nonce h sites ids = Fin L).
Proof.
  intros ND. unfold internal_limit. rewrite nodes_of_NoDup by exact ND.
  set (v := fun p : Z * Z => match dist (length ids) ids (time_edges h sites ids) (fst p) (snd p) with
                             | Some (Fin r) => if Z.eqb (fst p) (snd p) then Fin 0 else Fin r | _ => Fin 0 end : @num XR).
  destruct (max_fold v (list_prod ids ids) 0) as (L & _ & H0 & Hle & Hin).
  { intros p _. unfold v. destruct (dist _ _ _ _ _) as [[r| | |]|]; eauto. destruct (_ =? _)%Z; eauto. }
  assert (Q : forall i j d, i <> j -> quickest h sites ids i j d -> In (i, j) (list_prod ids ids) /\ v (i, j) = Fin d).
  { intros i j d Ne Qd. destruct (dist_quickest _ _ _ _ (proj1 Qd)) as (d' & E & Qd').
    split; [apply in_prod; [exact (walk_start _ _ _ _ (proj1 Qd))|exact (walk_end _ _ _ _ (proj1 Qd))]|].
    unfold v. cbn [fst snd]. rewrite E. apply Z.eqb_neq in Ne. rewrite Ne. f_equal. apply (quickest_fun _ _ _ _ _ Qd' Qd). }
  assert (Cr : crossing h sites ids L).
  { split; [intros i j d Ne Qd; destruct (Q i j d Ne Qd) as [X Y]; exact (Hle _ _ X Y)|].
    assert (Z0 : L = 0 -> (exists i j, i <> j /\ exists d, quickest h sites ids i j d) -> exists i j, i <> j /\ quickest h sites ids i j L).
    { intros -> (i & j & Ne & d & Qd). exists i, j. split; [exact Ne|]. destruct (Q i j d Ne Qd) as [X Y]. pose proof (Hle _ _ X Y).
      pose proof (walk_pos _ _ _ _ (proj1 Qd)). replace 0 with d by lra. exact Qd. }
    assert (Ex : {p | In p (list_prod ids ids) /\ fst p <> snd p /\ dist (length ids) ids (time_edges h sites ids) (fst p) (snd p) <> None} +
                 {forall p, In p (list_prod ids ids) -> fst p <> snd p -> dist (length ids) ids (time_edges h sites ids) (fst p) (snd p) = None}).
    { clear. generalize (dist (length ids) ids (time_edges h sites ids)). intros D.
      induction (list_prod ids ids) as [|p l IH]; [right; intros p []|].
      destruct (Z.eq_dec (fst p) (snd p)) as [E|Ne].
      - destruct IH as [(q & A & B)|IH]; [left; exists q; split; [right; exact A|exact B]|]. right. intros q [<-|Hq]; [congruence|auto].
      - destruct (D (fst p) (snd p)) as [d|] eqn:E;
          [left; exists p; split; [left; reflexivity|split; [exact Ne|congruence]]|].
        destruct IH as [(q & A & B)|IH]; [left; exists q; split; [right; exact A|exact B]|]. right. intros q [<-|Hq]; auto. }
    destruct (Req_EM_T L 0) as [E0|N0].
    - destruct Ex as [([i j] & Hp & Ne & Hd)|Ex].
      + right. apply (Z0 E0). exists i, j. split; [exact Ne|]. cbn [fst snd] in *. apply in_prod_iff in Hp. destruct Hp as [Hi Hj].
        pose proof (dist_sound ids (length ids) i Hi j Hj) as X. destruct (dist _ _ _ _ _) as [d|]; [|congruence].
        destruct X as (r & _ & Wr). destruct (dist_quickest _ _ _ _ Wr) as (d' & _ & Qd). eauto.
      + left. split; [exact E0|]. intros i j d Ne Qd. destruct (Q i j d Ne Qd) as [X _]. specialize (Ex _ X Ne). cbn [fst snd] in Ex.
        destruct (dist_quickest _ _ _ _ (proj1 Qd)) as (d' & E & _). congruence.
    - right. destruct Hin as [E|([i j] & Hp & Ev)]; [contradiction|]. apply in_prod_iff in Hp. destruct Hp as [Hi Hj].
      exists i, j. revert Ev. unfold v. cbn [fst snd]. pose proof (dist_sound ids (length ids) i Hi j Hj) as X.
      destruct (dist (length ids) ids (time_edges h sites ids) i j) as [d|] eqn:Ed; [|intros Ev; injection Ev as Ev; congruence].
      destruct X as (r & -> & Wr). destruct (Z.eqb_spec i j) as [->|Ne]; intros Ev; injection Ev as Ev; [congruence|]. subst r.
      split; [exact Ne|]. destruct (dist_quickest _ _ _ _ Wr) as (d' & Ed' & Qd). rewrite Ed in Ed'. injection Ed' as ->. exact Qd. }
  exists L. split; [exact H0|]. split; [exact Cr|].
  destruct (max_any (pair_times nonce ids (time_edges h sites ids)) (@n0 XR)) as [E|(M & E & M0 & _ & M2 & _ & M4)]; [left; exists 0; split; [reflexivity|lra]| |].
  - split; [left; exact E|]. intros Jn. exfalso. revert E.
    assert (X : forall l m, (exists a, m = Fin a :> @num XR) -> (forall d, In d l -> exists a, d = Fin a) ->
      fold_left (fun m t => if @nltb XR m t then t else m) l m <> PInf).
    { clear. induction l as [|d l IH]; intros m [a ->] Hl; cbn [fold_left]; [discriminate|].
      apply IH; [|intros x Hx; apply Hl; right; exact Hx]. destruct (Hl d (or_introl eq_refl)) as [b ->]. cbn. destruct (Rltb a b); eauto. }
    apply X; [exists 0; reflexivity|]. intros d Hd. apply pair_times_In in Hd. destruct Hd as (i & j & Hi & Hj & Ne & [(r & _ & ->)|(W & _)]); [eauto|].
    exfalso. destruct (Jn i j Hi Hj) as [t Wt]. exact (W t Wt).
  - assert (LM : L <= M).
    { destruct Cr as [_ [[-> _]|(i & j & Ne & Qd)]]; [exact M0|]. apply M2, pair_times_In. exists i, j.
      split; [exact (walk_start _ _ _ _ (proj1 Qd))|]. split; [exact (walk_end _ _ _ _ (proj1 Qd))|]. split; [exact Ne|]. left. eauto. }
    split; [right; exists M; split; [exact E|exact LM]|]. intros Jn. rewrite E. f_equal. apply Rle_antisym; [|exact LM].
    destruct M4 as [M4|M4]; [injection M4 as <-; exact H0|]. apply pair_times_In in M4.
    destruct M4 as (i & j & Hi & Hj & Ne & [(r & Qd & Er)|(W & _)]); [injection Er as ->; apply (proj1 Cr i j r Ne Qd)|].
    exfalso. destruct (Jn i j Hi Hj) as [t Wt]. exact (W t Wt).
Qed.
Lemma crossing_fun B L L' : crossing h sites B L -> crossing h sites B L' -> L = L'.
Proof.
  intros [A1 A2] [B1 B2]. apply Rle_antisym.
  - destruct A2 as [[-> A2]|(i & j & Ne & Q)].
    + destruct B2 as [[-> _]|(i & j & Ne & Q)]; [lra|]. exfalso. exact (A2 _ _ _ Ne Q).
    + exact (B1 i j _ Ne Q).
  - destruct B2 as [[-> B2]|(i & j & Ne & Q)].
    + destruct A2 as [[-> _]|(i & j & Ne & Q)]; [lra|]. exfalso. exact (B2 _ _ _ Ne Q).
    + exact (A1 i j _ Ne Q).
Qed.
Lemma crossing_nonneg B L : crossing h sites B L -> 0 <= L.
Proof. intros [_ [[-> _]|(i & j & _ & [W _])]]; [lra|]. exact (walk_pos _ _ _ _ W). Qed.

(** ** Leaving *)
Lemma out_nonneg B i : 0 <= rates_out h sites B i.
Proof.
  unfold rates_out. destruct (ulookup i sites) as [s|] eqn:Es; [|lra]. apply ulookup_In in Es.
  apply Rsum_nonneg. intros [n a] Hn. cbn [fst snd]. destruct (existsb _ _); [lra|].
  destruct (proj2 Hg i s Es) as [_ P]. destruct (P n a Hn) as (r & -> & Rp). cbn. lra.
Qed.
Lemma leaving_nonneg B : 0 <= leaving h sites B.
Proof. apply Rsum_nonneg. intros i _. apply out_nonneg. Qed.
Lemma leaving_ge B i j r : In i B -> ~ In j B -> rate_between h sites i j r -> r <= leaving h sites B.
Proof.
  intros Hi Hj (s & a & Hs & Ha & Er). apply Rle_trans with (rates_out h sites B i).
  - unfold rates_out. rewrite (In_ulookup _ _ _ (nd_sites h sites Hg) Hs).
    assert (E : r = (fun e : Z * Z => if existsb (Z.eqb (fst e)) B then 0 else realv (h (snd e))) (j, a)).
    { cbn [fst snd]. apply member_not in Hj. rewrite Hj, Er. reflexivity. }
    rewrite E. apply (Rsum_ge_elem (fun e : Z * Z => if existsb (Z.eqb (fst e)) B then 0 else realv (h (snd e))) (s_neigh s) (j, a)); [|exact Ha].
    intros [n b] Hn. cbn [fst snd]. destruct (existsb _ _); [lra|].
    destruct (proj2 Hg i s Hs) as [_ P]. destruct (P n b Hn) as (q & -> & Rp). cbn. lra.
  - apply (Rsum_ge_elem (rates_out h sites B) B i); [|exact Hi]. intros y _. apply out_nonneg.
Qed.
Lemma exit_sum_ok all ids : (forall k, In k ids -> In k (ukeys sites)) -> forall acc,
  exit_sum h sites all ids (Fin acc : @num XR) = Ok (Fin (acc + Rsum (rates_out h sites all) ids) : @num XR).
Proof.
  induction ids as [|k ids IH]; intros Hk acc; cbn [exit_sum Rsum]; [rewrite Rplus_0_r; reflexivity|].
  destruct (proj1 (ukeys_In _ _) (Hk k (or_introl eq_refl))) as [s Es].
  unfold ask at 1, sc_getNeighIds, read_key. rewrite Es. cbn [lift rbind].
  apply ulookup_In in Es as Hs. destruct (proj2 Hg k s Hs) as [ND P].
  assert (X : forall l acc, incl l (s_neigh s) ->
    (fix go (ns : list Z) (acc : @num XR) : res num :=
               match ns with
               | [] => Ok acc
               | n :: ns' =>
                   if existsb (Z.eqb n) all then go ns' acc
                   else x <-! ask (sc_getRateTo h k n) sites; go ns' (nadd acc x)
               end) (ukeys l) (Fin acc) = Ok (Fin (acc + Rsum (fun e => if existsb (Z.eqb (fst e)) all then 0 else realv (h (snd e))) l) : @num XR)).
  { induction l as [|[n a] l IHl]; intros b Hl; cbn [ukeys map fst Rsum snd]; [rewrite Rplus_0_r; reflexivity|].
    assert (Hl' : incl l (s_neigh s)) by (intros x Hx; apply Hl; right; exact Hx).
    destruct (existsb (Z.eqb n) all).
    - rewrite Rplus_0_l. apply IHl, Hl'.
    - assert (Ha : In (n, a) (s_neigh s)) by (apply Hl; left; reflexivity). destruct (P n a Ha) as (r & Er & _).
      assert (Ea : ask (sc_getRateTo h k n) sites = Ok (Fin r : @num XR)).
      { unfold ask, sc_getRateTo, read_key. rewrite Es. unfold s_getRateTo. rewrite (In_ulookup _ _ _ ND Ha), Er. reflexivity. }
      rewrite Ea, Er. cbn [rbind realv]. change (@nadd XR (Fin b) (Fin r)) with (Fin (b + r) : @num XR). fold (ukeys l). rewrite IHl by exact Hl'. rewrite <- Rplus_assoc. reflexivity. }
  unfold s_neighIds. rewrite X by apply incl_refl. cbn [rbind]. rewrite IH by (intros j Hj; apply Hk; right; exact Hj).
  unfold rates_out at 2. rewrite Es. rewrite <- Rplus_assoc. reflexivity.
Qed.
Lemma exit_time_ok ids : (forall k, In k ids -> In k (ukeys sites)) ->
  exit_time h sites ids = Ok (Fin (if Req_EM_T (leaving h sites ids) 0 then 0 else 1 / leaving h sites ids) : @num XR).
Proof.
  intros Hk. unfold exit_time. change (@n0 XR) with (Fin 0). rewrite (exit_sum_ok ids ids Hk 0). cbn [rbind].
  rewrite Rplus_0_l. fold (leaving h sites ids). cbn [neqb XR xeqb]. unfold Reqb.
  destruct (Req_EM_T (leaving h sites ids) 0) as [|Ne]; [reflexivity|]. f_equal. apply xdiv_Fin, Ne.
Qed.

(** ** Sets in local equilibrium are nested or disjoint *)
Lemma crosses A B i j t : walk h sites A i j t -> In i B -> ~ In j B ->
  exists a b r, In a A /\ In a B /\ In b A /\ ~ In b B /\ rate_between h sites a b r /\ 1 / r <= t.
Proof.
  intros W Hi Hj. induction W as [Hi'|j k t r W IH Hk Hr]; [contradiction|].
  pose proof (walk_pos _ _ _ _ W) as P. pose proof (rate_pos h sites Hg _ _ _ Hr) as Rp.
  assert (0 < / r) by (apply Rinv_0_lt_compat, Rp).
  destruct (in_dec Z.eq_dec j B) as [Hin|Hn].
  - exists j, k, r. split; [exact (walk_end _ _ _ _ W)|]. split; [exact Hin|]. split; [exact Hk|]. split; [exact Hj|]. split; [exact Hr|].
    unfold Rdiv. lra.
  - destruct (IH Hn) as (a & b & q & H1 & H2 & H3 & H4 & H5 & H6). exists a, b, q. unfold Rdiv in *.
    repeat (split; [assumption|]). lra.
Qed.
Lemma escape A B L : joined h sites A -> crossing h sites A L -> (exists i, In i A /\ In i B) -> (exists j, In j A /\ ~ In j B) ->
  1 <= L * leaving h sites B.
Proof.
  intros Jn [Cr _] (i & Hi & Hib) (j & Hj & Hjb).
  assert (Ne : i <> j) by (intros ->; contradiction). destruct (Jn i j Hi Hj) as [t Wt].
  destruct (dist_quickest _ _ _ _ Wt) as (d & _ & Q). pose proof (Cr i j d Ne Q) as Le. destruct Q as [W _].
  destruct (crosses _ _ _ _ _ W Hib Hjb) as (a & b & r & _ & Ha & _ & Hb & Hr & L1).
  pose proof (leaving_ge B a b r Ha Hb Hr) as L2. pose proof (rate_pos h sites Hg _ _ _ Hr) as Rp.
  assert (1 / r <= L) by lra. assert (0 < / r) by (apply Rinv_0_lt_compat, Rp). unfold Rdiv in *.
  replace 1 with (/ r * r) by (field; lra). apply Rmult_le_compat; lra.
Qed.
Lemma laminar A B L M : joined h sites A -> joined h sites B -> crossing h sites A L -> crossing h sites B M -> 0 <= L -> 0 <= M ->
  L * leaving h sites A < 1 -> M * leaving h sites B < 1 ->
  (forall k, In k A -> ~ In k B) \/ (forall k, In k A -> In k B) \/ (forall k, In k B -> In k A).
Proof.
  intros JA JB CA CB L0 M0 EA EB.
  assert (D : forall (P Q : list Z), {k | In k P /\ ~ In k Q} + {forall k, In k P -> In k Q}).
  { intros P Q. induction P as [|x P IH]; [right; intros k []|]. destruct (in_dec Z.eq_dec x Q) as [Hx|Hx].
    - destruct IH as [(k & H1 & H2)|IH]; [left; exists k; split; [right; exact H1|exact H2]|]. right. intros k [<-|Hk]; auto.
    - left. exists x. split; [left; reflexivity|exact Hx]. }
  assert (E : {k | In k A /\ In k B} + {forall k, In k A -> ~ In k B}).
  { clear - A B. induction A as [|x P IH]; [right; intros k []|]. destruct (in_dec Z.eq_dec x B) as [Hx|Hx].
    - left. exists x. split; [left; reflexivity|exact Hx].
    - destruct IH as [(k & H1 & H2)|IH]; [left; exists k; split; [right; exact H1|exact H2]|]. right. intros k [<-|Hk]; auto. }
  destruct E as [(i & Hia & Hib)|E]; [|left; exact E]. destruct (D A B) as [(j & Hj)|S1]; [|right; left; exact S1].
  destruct (D B A) as [(k & Hk)|S2]; [|right; right; exact S2]. exfalso.
  pose proof (escape A B L JA CA (ex_intro _ i (conj Hia Hib)) (ex_intro _ j Hj)) as X1.
  pose proof (escape B A M JB CB (ex_intro _ i (conj Hib Hia)) (ex_intro _ k Hk)) as X2.
  pose proof (leaving_nonneg A) as PA. pose proof (leaving_nonneg B) as PB.
  set (x := leaving h sites A) in *. set (y := leaving h sites B) in *.
  assert (Q : (L * y) * (M * x) = (L * x) * (M * y)) by ring.
  assert (1 <= (L * y) * (M * x)) by (replace 1 with (1 * 1) by ring; apply Rmult_le_compat; lra).
  assert (0 <= L * x) by (apply Rmult_le_pos; assumption). assert (0 <= M * y) by (apply Rmult_le_pos; assumption).
  assert ((L * x) * (M * y) < 1) by nra. lra.
Qed.
End C.
