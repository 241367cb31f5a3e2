(** * Systems in which every call returns *)
From Coq Require Import ZArith List Bool Reals Lra Lia.
From Verif Require Import Base BaseProofs Num RSum WalkerModel SiteModel SiteSpec SiteProofs ClusterModel ClusterSpec ClusterReal ClusterFrame
  ClusterOps ClusterTables ClusterSome ClusterLive ContainerModel BasinModel BasinSpec BasinProofs CrossSpec CrossProofs SystemModel SystemSpec SystemShape SystemHop SystemCoarse SystemMerge
  SystemProofs SystemFacts SystemEffect SystemEquil Fuel.
Import ListNotations.
Open Scope R_scope.

Lemma Rsum_some {A} (f : A -> R) l : 0 < Rsum f l -> exists x, In x l /\ 0 < f x.
Proof.
  induction l as [|a l IH]; cbn [Rsum]; [lra|]. intros E. destruct (Rlt_dec 0 (f a)) as [X|X]; [exists a; split; [left; reflexivity | exact X]|].
  destruct IH as (x & Hx & Px); [lra|]. exists x. split; [right; exact Hx | exact Px].
Qed.

Section Live.
Context {I : Impl} {G : @Rng XR} {U : @Ugly XR}.
Variable clk : Z -> Z.
Variables (lo hi : R).
Hypothesis (Hlo : 0 < lo).

(** ** Members mirror the sites of the system *)
Section Mirror.
Variables (h : @heap XR) (sites ms : umap (@site XR G)).
Definition mirror : Prop :=
  NoDup (ukeys ms) /\ forall k m, ulookup k ms = Some m -> exists s, ulookup k sites = Some s /\ s_neigh m = s_neigh s.
Hypothesis (Hg : good_sites h sites) (Hm : mirror).
Lemma mirror_edge i k : internal_edge ms i k <-> In i (ukeys ms) /\ In k (ukeys ms) /\ exists r, rate_between h sites i k r.
Proof.
  destruct Hm as [ND Mi]. split.
  - intros (m & Hin & Hn & Hk). pose proof (In_ulookup _ _ _ ND Hin) as E. destruct (Mi i m E) as (s & Es & En).
    split; [eapply ulookup_In_key; exact E|]. split; [exact Hk|]. unfold s_neighIds in Hn. rewrite En in Hn.
    apply in_map_iff in Hn. destruct Hn as ([k' a] & X & Ha). cbn [fst] in X. subst k'.
    destruct (proj2 (proj2 Hg i s (ulookup_In _ _ _ Es)) k a Ha) as (r & Er & _). exists r, s, a. split; [apply ulookup_In; exact Es | auto].
  - intros (Hi & Hk & r & s & a & Hin & Ha & _). apply ukeys_In in Hi. destruct Hi as [m E]. destruct (Mi i m E) as (s' & Es & En).
    pose proof (In_ulookup _ _ _ (proj1 Hg) Hin) as Es'. assert (s' = s) by congruence. subst s'.
    exists m. split; [apply ulookup_In; exact E|]. split; [|exact Hk]. unfold s_neighIds. rewrite En. apply in_map_iff. exists (k, a). auto.
Qed.
Lemma mirror_mutual : CrossSpec.mutual h sites -> ClusterSpec.mutual ms.
Proof.
  intros Mu i k E. apply mirror_edge in E. destruct E as (Hi & Hk & r & Hr). apply mirror_edge. split; [exact Hk|]. split; [exact Hi|].
  apply (Mu i k r Hr).
Qed.
(** a set of at least two joined sites has an edge at each of them *)
Lemma joined_edge B i j : CrossSpec.joined h sites B -> In i B -> In j B -> i <> j ->
  exists k r, In k B /\ rate_between h sites i k r.
Proof.
  intros J Hi Hj Ne. destruct (J i j Hi Hj) as [t W]. revert Ne. induction W as [|j' k t r W IH Hk Hr]; intros Ne; [congruence|].
  destruct (Z.eq_dec i j') as [<-|Ne']; [exists k, r; auto|]. apply IH; [|exact Ne']. eapply walk_end; exact W.
Qed.
Lemma mirror_linked B : (forall j, In j B <-> In j (ukeys ms)) -> CrossSpec.joined h sites B ->
  (exists i j, i <> j /\ In i B /\ In j B) -> linked ms.
Proof.
  intros HB J (i & j & Ne & Hi & Hj) k Hk. apply HB in Hk.
  assert (X : exists j', In j' B /\ k <> j') by (destruct (Z.eq_dec k i) as [->|]; [exists j | exists i]; auto).
  destruct X as (j' & Hj' & Nj). destruct (joined_edge B k j' J Hk Hj' Nj) as (n & r & Hn & Hr). exists n. apply mirror_edge.
  split; [apply HB; exact Hk|]. split; [apply HB; exact Hn | exists r; exact Hr].
Qed.
Lemma mirror_link B : (forall j, In j B -> In j (ukeys ms)) -> CrossSpec.joined h sites B ->
  (exists i j, i <> j /\ In i B /\ In j B) -> has_link ms.
Proof.
  intros HB J (i & j & Ne & Hi & Hj). destruct (joined_edge B i j J Hi Hj Ne) as (n & r & Hn & Hr). exists i, n. apply mirror_edge.
  split; [apply HB; exact Hi|]. split; [apply HB; exact Hn | exists r; exact Hr].
Qed.
(** a rate out of the members *)
Lemma mirror_out i j r : In i (ukeys ms) -> ~ In j (ukeys ms) -> rate_between h sites i j r -> has_exit ms.
Proof.
  intros Hi Hj (s & a & Hin & Ha & _). apply ukeys_In in Hi. destruct Hi as [m E]. destruct (proj2 Hm i m E) as (s' & Es & En).
  pose proof (In_ulookup _ _ _ (proj1 Hg) Hin) as Es'. assert (s' = s) by congruence. subst s'.
  exists i, m, j. split; [apply ulookup_In; exact E|]. split; [|exact Hj]. unfold s_neighIds. rewrite En. apply in_map_iff. exists (j, a). auto.
Qed.
Lemma mirror_exit B : (forall j, In j B <-> In j (ukeys ms)) -> 0 < leaving h sites B -> has_exit ms.
Proof.
  intros HB X. unfold leaving in X. destruct (Rsum_some _ _ X) as (i & Hi & Pi). unfold rates_out in Pi.
  destruct (ulookup i sites) as [s|] eqn:Es; [|lra]. destruct (Rsum_some _ _ Pi) as ([j a] & Ha & Pj). cbn [fst snd] in Pj.
  destruct (existsb (Z.eqb j) B) eqn:Ex; [lra|].
  destruct (proj2 (proj2 Hg i s (ulookup_In _ _ _ Es)) j a Ha) as (r & Er & _).
  apply (mirror_out i j r); [apply HB; exact Hi| |exists s, a; split; [apply ulookup_In; exact Es | auto]].
  intros Hj. apply HB in Hj. apply existsb_notIn in Ex. apply Ex, Hj.
Qed.
(** a part of a joined set can be left *)
Lemma part_exit B i j : CrossSpec.joined h sites B -> (forall k, In k (ukeys ms) -> In k B) -> In i (ukeys ms) -> In j B -> ~ In j (ukeys ms) -> has_exit ms.
Proof.
  intros J Sub Hi Hj Nj. destruct (J i j (Sub i Hi) Hj) as [t W]. revert Nj. clear Hj. induction W as [|j' k t r W IH Hk Hr]; intros Nj; [contradiction|].
  destruct (in_dec Z.eq_dec j' (ukeys ms)) as [X|X]; [eapply mirror_out; eauto | apply IH; exact X].
Qed.
End Mirror.

(** ** The invariant *)
Definition place (g : @world XR G) (k : Z) : Prop := In k (ukeys (g_sites g)).
(** the members of a cluster and their neighbours *)
Definition near (cl : @cluster XR G) (k : Z) : Prop := exists i m, In (i, m) (c_sites cl) /\ (k = i \/ In k (s_neighIds m)).
Record alive (T : Z) (g : @world XR G) : Prop := {
  a_shape : shape g;
  a_solid : solid g;
  a_site : forall k s, ulookup k (g_sites g) = Some s ->
    site_ok (g_heap g) s /\ paced (g_heap g) lo hi s /\ forall n, In n (s_neighIds s) -> place g n;
  a_cl : forall c cl, ulookup c (g_clusters g) = Some cl ->
    homely (g_heap g) lo hi (place g) cl /\ lively lo hi (near cl) T cl }.
(** no remaining dwell time is used up *)
Definition rests (g : @world XR G) : Prop := forall c cl, ulookup c (g_clusters g) = Some cl -> rested cl.

Lemma homely_more h (K K' : Z -> Prop) c : (forall k, K k -> K' k) -> homely h lo hi K c -> homely h lo hi K' c.
Proof. intros S [A B]. constructor; [exact A|]. intros k s Hin. destruct (B k s Hin) as (X & Y & W). auto. Qed.
Lemma lively_more (K K' : Z -> Prop) T c : (forall k, K k -> K' k) -> lively lo hi K T c -> lively lo hi K' T c.
Proof. intros S []. constructor; try assumption; eapply covers_more; eauto. Qed.
Lemma near_sites c c' : c_sites c' = c_sites c -> forall k, near c k -> near c' k.
Proof. intros E k. unfold near. rewrite E. auto. Qed.
Lemma near_frz c c' : frz_c c' = frz_c c -> forall k, near c k -> near c' k.
Proof.
  intros F k (i & m & Hi & Hk). apply frz_c_sites in F. apply (in_map (on_snd frz_s)) in Hi. rewrite <- F in Hi.
  apply in_map_iff in Hi. destruct Hi as ([i' m'] & E & Hi). pose proof (f_equal fst E) as E1. pose proof (f_equal (fun e => s_neighIds (snd e)) E) as E2.
  unfold on_snd in E1, E2. cbn [fst snd] in E1, E2. change (s_neighIds m' = s_neighIds m) in E2. subst i'. exists i, m'. split; [exact Hi|]. rewrite E2. exact Hk.
Qed.
Lemma near_home h (K : Z -> Prop) c : homely h lo hi K c -> homely h lo hi (near c) c /\ forall k, near c k -> K k.
Proof.
  intros [A B]. split.
  - constructor; [exact A|]. intros k s Hin. destruct (B k s Hin) as (X & _ & _). split; [exact X|]. split; [exists k, s; auto|].
    intros n Hn. exists k, s. auto.
  - intros k (i & m & Hi & Hk). destruct (B i m Hi) as (_ & Y & W). destruct Hk as [->|Hk]; auto.
Qed.

Lemma cluster_mirror g c cl : shape g -> ulookup c (g_clusters g) = Some cl -> mirror (g_sites g) (c_sites cl).
Proof.
  intros Sh E. destruct (h_cl _ _ _ Sh c cl E) as (_ & _ & ND & _). split; [exact ND|]. intros k m Em.
  destruct (h_mem _ _ _ Sh c k m (ex_intro _ cl (conj E Em))) as (s & Es & _ & En). eauto.
Qed.
Lemma cluster_keys (g : @world XR G) c cl j : ulookup c (g_clusters g) = Some cl -> (holds g c j <-> In j (ukeys (c_sites cl))).
Proof.
  intros E. split.
  - intros (m & cl' & E' & Em). assert (cl' = cl) by congruence. subst. eapply ulookup_In_key; exact Em.
  - intros Hj. apply ukeys_In in Hj. destruct Hj as [m Em]. exists m, cl. auto.
Qed.
Lemma cluster_firm g c cl : shape g -> solid g -> members_ok (g_heap g) (c_sites cl) -> ulookup c (g_clusters g) = Some cl ->
  firm (g_heap g) cl /\ linked (c_sites cl) /\ NoDup (c_siteIds cl).
Proof.
  intros Sh So Hmo E. pose proof (cluster_mirror g c cl Sh E) as Mi.
  destruct (h_cl _ _ _ Sh c cl E) as (_ & _ & ND & i & j & Ne & Hi & Hj).
  destruct (o_set _ So c i (proj2 (cluster_keys g c cl i E) Hi)) as (B & HB & [_ J _ X]).
  assert (HK : forall x, In x B <-> In x (ukeys (c_sites cl))) by (intros x; rewrite HB; apply cluster_keys, E).
  assert (Tw : exists i j, i <> j /\ In i B /\ In j B) by (exists i, j; rewrite !HK; auto).
  split; [|split; [apply (mirror_linked _ _ _ (o_good _ So) Mi B HK J Tw) | exact ND]]. constructor.
  - exact Hmo.
  - apply (mirror_mutual _ _ _ (o_good _ So) Mi (o_mut _ So)).
  - apply (mirror_link _ _ _ (o_good _ So) Mi B (fun x => proj1 (HK x)) J Tw).
  - apply (mirror_exit _ _ _ (o_good _ So) Mi B HK X).
  - destruct (c_sites cl) as [|e1 [|e2 l]]; [destruct Hi| |simpl; lia]. cbn in Hi, Hj. destruct Hi as [<-|[]], Hj as [<-|[]]. congruence.
Qed.

(** ** One component changes *)
Lemma alive_still T g g' : alive T g -> shape g' -> still g g' -> ukeys (g_sites g') = ukeys (g_sites g) ->
  (forall k s, ulookup k (g_sites g') = Some s -> exists s0, ulookup k (g_sites g) = Some s0 /\ alike s0 s) ->
  forall T', (forall c cl, ulookup c (g_clusters g') = Some cl ->
    homely (g_heap g) lo hi (place g) cl /\ lively lo hi (near cl) T' cl) -> alive T' g'.
Proof.
  intros [Sh So As Ac] Sh' St Ek Hs T' Hc. pose proof (l_heap _ _ St) as Eh.
  assert (P : forall k, place g k -> place g' k) by (intros k; unfold place; rewrite Ek; auto).
  constructor; rewrite ?Eh.
  - exact Sh'.
  - eapply solid_still; eauto.
  - intros k s E. destruct (Hs k s E) as (s0 & E0 & L). destruct (As k s0 E0) as (A & B & C).
    split; [eapply alike_ok; eauto|]. split; [eapply alike_paced; eauto|]. rewrite (alike_ids _ _ L). auto.
  - intros c cl E. destruct (Hc c cl E) as (A & B). split; [eapply homely_more; eauto | exact B].
Qed.
Lemma lively_later T T' (K : Z -> Prop) cl : 0 <= most_gain lo hi -> (T <= T')%Z -> linked (c_sites cl) -> NoDup (c_siteIds cl) ->
  lively lo hi K T cl -> lively lo hi K T' cl.
Proof. intros HM HT Hl ND L. eapply (lively_frz lo hi K Hlo T T' cl cl HM eq_refl); [lia|apply L|exact ND|exact Hl|exact L]. Qed.
Lemma alive_later T T' g : 0 <= most_gain lo hi -> (T <= T')%Z -> alive T g -> alive T' g.
Proof.
  intros HM HT [Sh So As Ac]. constructor; try assumption. intros c cl E. destruct (Ac c cl E) as (A & B).
  split; [exact A|]. destruct (cluster_firm g c cl Sh So (hm_mem _ _ _ _ _ A) E) as (_ & X & Y). eapply lively_later; eauto.
Qed.
Lemma alive_walkers T g m : alive T g -> alive T (g_with_walkers m g).
Proof.
  intros A. apply (alive_still T g); [exact A|apply (drift_shape clk _ _ (drift_walkers m g)), A|apply still_drift, drift_walkers|reflexivity| |apply A].
  intros k s E. exists s. split; [exact E | apply alike_refl].
Qed.
Lemma alive_calm T g g' : alive T g -> calm g g' -> g_clusters g' = g_clusters g -> alive T g'.
Proof.
  intros A C Ec. apply (alive_still T g); [exact A|apply (calm_shape clk _ _ C), A|apply still_drift, calm_drift, C|exact (same_keys _ _ _ (m_sites _ _ C))| |].
  - intros k s E. destruct (calm_site _ _ _ _ (calm_sym _ _ C) E) as (s0 & E0 & F). exists s0. split; [exact E0|]. apply frz_alike. symmetry. exact F.
  - rewrite Ec. apply A.
Qed.
Lemma calm_put_site (g : @world XR G) k s s' : ulookup k (g_sites g) = Some s -> frz_s s' = frz_s s -> calm g (g_with_sites (ureplace k s' (g_sites g)) g).
Proof.
  intros E F. constructor; [constructor; reflexivity| |reflexivity]. cbn [g_sites g_with_sites]. apply (map_replace frz_s _ _ s _ E F).
Qed.
Lemma calm_put_cluster (g : @world XR G) c cl cl' : ulookup c (g_clusters g) = Some cl -> frz_c cl' = frz_c cl -> calm g (g_with_clusters (ureplace c cl' (g_clusters g)) g).
Proof.
  intros E F. constructor; [constructor; reflexivity|reflexivity|]. cbn [g_clusters g_with_clusters]. apply (map_replace frz_c _ _ cl _ E F).
Qed.
(** where a walker on [k] may go: along a rate from [k], or, from a cluster, to
    another member or along a rate from a member *)
Definition touch (g : @world XR G) (i n : Z) : Prop := exists s, ulookup i (g_sites g) = Some s /\ In n (s_neighIds s).
Definition next_to (g : @world XR G) (k n : Z) : Prop :=
  touch g k n \/ exists c i, holds g c k /\ holds g c i /\ (n = i \/ touch g i n).
Lemma touch_same (g g' : @world XR G) : (forall k, option_map s_neigh (ulookup k (g_sites g')) = option_map s_neigh (ulookup k (g_sites g))) ->
  forall i n, touch g i n -> touch g' i n.
Proof.
  intros E i n (s & Es & Hn). specialize (E i). rewrite Es in E. destruct (ulookup i (g_sites g')) as [s'|] eqn:Es'; [|discriminate].
  cbn [option_map] in E. injection E as E. exists s'. split; [exact Es'|]. unfold s_neighIds. rewrite E. exact Hn.
Qed.
Lemma next_same (g g' : @world XR G) : (forall k, option_map s_neigh (ulookup k (g_sites g')) = option_map s_neigh (ulookup k (g_sites g))) ->
  (forall c i j, holds g c i -> holds g c j -> exists c', holds g' c' i /\ holds g' c' j) -> forall k n, next_to g k n -> next_to g' k n.
Proof.
  intros E H k n [X|(c & i & Hk & Hi & X)]; [left; eapply touch_same; eauto|right].
  destruct (H c k i Hk Hi) as (c' & Hk' & Hi'). exists c', i. split; [exact Hk'|]. split; [exact Hi'|].
  destruct X as [X|X]; [left; exact X|right; eapply touch_same; eauto].
Qed.
Lemma next_still g g' : still g g' -> forall k n, next_to g k n -> next_to g' k n.
Proof.
  intros St. apply next_same; [apply look_neigh, St|]. intros c i j Hi Hj. exists c. split; apply (l_holds _ _ St); assumption.
Qed.
Lemma next_calm g g' : calm g g' -> forall k n, next_to g k n -> next_to g' k n.
Proof. intros C. apply next_still, still_drift, calm_drift, C. Qed.
Lemma next_place T g k n : alive T g -> next_to g k n -> place g n.
Proof.
  intros A X. assert (Y : forall i, touch g i n -> place g n) by (intros i (s & Es & Hn); apply (a_site _ _ A i s Es), Hn).
  destruct X as [X|(c & i & _ & (m & Hm) & [->|X])]; [apply (Y _ X)| |apply (Y _ X)].
  destruct (h_mem _ _ _ (a_shape _ _ A) c i m Hm) as (s & Es & _). eapply ulookup_In_key; exact Es.
Qed.
Lemma alive_site T g k s s' : alive T g -> ulookup k (g_sites g) = Some s -> frz_s s' = frz_s s ->
  alive T (g_with_sites (ureplace k s' (g_sites g)) g).
Proof.
  intros A E F. apply (alive_calm T g); [exact A| |reflexivity]. constructor; [constructor; reflexivity| |reflexivity].
  cbn [g_sites g_with_sites]. apply (map_replace frz_s _ _ s _ E F).
Qed.
Lemma alive_cluster T T' g c cl cl' : 0 <= most_gain lo hi -> (T <= T')%Z -> alive T g -> ulookup c (g_clusters g) = Some cl -> frz_c cl' = frz_c cl ->
  (c_visits cl <= c_visits cl' <= c_visits cl + (T' - T))%Z -> NoDup (ukeys (c_remaining cl')) ->
  alive T' (g_with_clusters (ureplace c cl' (g_clusters g)) g).
Proof.
  intros HM HT A E F Hv NR. set (g' := g_with_clusters _ g).
  assert (C : calm g g').
  { constructor; [constructor; reflexivity|reflexivity|]. cbn [g_clusters g_with_clusters g']. apply (map_replace frz_c _ _ cl _ E F). }
  apply (alive_still T g); [exact A|apply (calm_shape clk _ _ C), A|apply still_drift, calm_drift, C|reflexivity| |].
  - intros k s Ek. exists s. split; [exact Ek | apply alike_refl].
  - intros x y Ex. cbn [g_clusters g_with_clusters g'] in Ex. rewrite (SystemShape.ureplace_lookup_some _ _ _ cl) in Ex by exact E.
    assert (Ax : forall z zl, ulookup z (g_clusters g) = Some zl -> homely (g_heap g) lo hi (place g) zl /\ lively lo hi (near zl) T' zl)
      by (intros z zl Ez; exact (a_cl _ _ (alive_later T T' g HM HT A) z zl Ez)).
    destruct (Z.eqb_spec x c) as [->|]; [|apply (Ax x y Ex)]. injection Ex as <-. destruct (a_cl _ _ A c cl E) as (Ho & Lv).
    destruct (cluster_firm g c cl (a_shape _ _ A) (a_solid _ _ A) (hm_mem _ _ _ _ _ Ho) E) as (_ & X & Y).
    split; [apply (alikes_homely (g_heap g) lo hi (place g) cl); [|exact Ho]; apply frz_alikes, frz_c_sites, F|].
    apply (lively_more (near cl)); [apply near_frz, F|]. apply (lively_frz lo hi (near cl) Hlo T T' cl cl'); assumption.
Qed.
Lemma alive_tick T g n : alive T g -> alive T (g_with_tick n g).
Proof. intros A. apply (alive_calm T g); [exact A|apply calm_tick|reflexivity]. Qed.

(** ** Calls through a feature pointer *)
Lemma feature_run T g k : alive T g -> place g k ->
  (exists s, ulookup k (g_sites g) = Some s /\ s_cluster s = unassignedId /\
     forall A (ms : M (@site XR G) A) (mc : M (@cluster XR G) A) a s', ms s = Ret a s' ->
       on_feature k ms mc g = Ret a (g_with_sites (ureplace k s' (g_sites g)) g)) \/
  (exists s cl, ulookup k (g_sites g) = Some s /\ s_cluster s <> unassignedId /\ ulookup (s_cluster s) (g_clusters g) = Some cl /\ In k (c_siteIds cl) /\
     forall A (ms : M (@site XR G) A) (mc : M (@cluster XR G) A) a cl', mc cl = Ret a cl' ->
       on_feature k ms mc g = Ret a (g_with_clusters (ureplace (s_cluster s) cl' (g_clusters g)) g)).
Proof.
  intros A Hk. apply ukeys_In in Hk. destruct Hk as [s Es]. pose proof (h_feat _ _ _ (a_shape _ _ A) k) as Hf. rewrite Es in Hf.
  destruct (Z.eqb_spec (s_cluster s) unassignedId) as [Eu|Eu].
  - left. exists s. split; [exact Es|]. split; [exact Eu|]. intros B ms mc a s' E.
    unfold on_feature, bind, gets. rewrite Hf. unfold in_sites, zoom.
    unfold at_key. rewrite Es, E. reflexivity.
  - right. destruct (o_label _ (a_solid _ _ A) k s Es Eu) as (x & cl & Ec & Em). exists s, cl. split; [exact Es|]. split; [exact Eu|]. split; [exact Ec|].
    split; [eapply ulookup_In_key; exact Em|]. intros B ms mc a cl' E.
    unfold on_feature, bind, gets. rewrite Hf. unfold in_clusters, zoom.
    unfold at_key. rewrite Ec, E. reflexivity.
Qed.

Hypothesis (HF : @fair G) (HM : 0 <= most_gain lo hi).
Lemma rests_site g k s' : rests g -> rests (g_with_sites (ureplace k s' (g_sites g)) g).
Proof. auto. Qed.
Lemma rests_cluster g c cl cl' : ulookup c (g_clusters g) = Some cl -> rests g -> rested cl' ->
  rests (g_with_clusters (ureplace c cl' (g_clusters g)) g).
Proof.
  intros E R Rc x y Ex. cbn [g_clusters g_with_clusters] in Ex. rewrite (SystemShape.ureplace_lookup_some _ _ _ cl) in Ex by exact E.
  destruct (Z.eqb_spec x c); [injection Ex as <-; exact Rc | eapply R; exact Ex].
Qed.

Lemma isOccupied_run T g k : alive T g -> place g k -> exists b g', f_isOccupied k k g = Ret b g' /\ alive T g' /\ (rests g -> rests g') /\ calm g g'.
Proof.
  intros A Hk. destruct (feature_run T g k A Hk) as [(s & Es & Eu & R)|(s & cl & Es & Eu & Ec & Hin & R)]; unfold f_isOccupied.
  - eexists _, _. split; [apply R; reflexivity|]. split; [eapply alive_site; eauto|]. split; [auto|].
    constructor; [constructor; reflexivity| |reflexivity]. apply (map_replace frz_s _ _ s _ Es eq_refl).
  - destruct (proj1 (ukeys_In _ _) Hin) as [m Em]. eexists _, _. split; [apply R; unfold bind, gets, c_isOccupied; rewrite Em; reflexivity|].
    split; [apply (alive_cluster T T g (s_cluster s) cl cl HM); auto; [lia|lia|apply (a_cl _ _ A _ _ Ec)]|].
    split; [intros X; eapply rests_cluster; eauto|]. constructor; [constructor; reflexivity|reflexivity|]. apply (map_replace frz_c _ _ cl _ Ec eq_refl).
Qed.
Lemma vacate_live T g k : alive T g -> rests g -> place g k -> exists g', f_vacate clk k k g = Ret tt g' /\ alive T g' /\ rests g' /\ calm g g'.
Proof.
  intros A Rs Hk. unfold f_vacate, read_clock, next_tick, bind, ret. set (g0 := g_with_tick (g_tick g + 1) g).
  pose proof (alive_tick T g (g_tick g + 1) A) as A0. fold g0 in A0. change (rests g0) in Rs. change (place g0 k) in Hk.
  assert (C0 : calm g g0) by apply calm_tick. clearbody g0. clear A.
  destruct (feature_run T g0 k A0 Hk) as [(s & Es & Eu & R)|(s & cl & Es & Eu & Ec & Hin & R)].
  - eexists. split; [apply R; reflexivity|]. split; [eapply alive_site; eauto|]. split; [exact Rs|]. eapply calm_trans; [exact C0|apply (calm_put_site _ _ _ _ Es); reflexivity].
  - destruct (vacate_run cl (clk (g_tick g)) k Hin) as (cl' & E & F & V & Rm). eexists. split; [apply R; exact E|].
    split; [apply (alive_cluster T T g0 (s_cluster s) cl cl' HM); auto; [lia|lia|rewrite Rm; apply (a_cl _ _ A0 _ _ Ec)]|].
    split; [|eapply calm_trans; [exact C0|apply (calm_put_cluster _ _ _ _ Ec F)]].
    eapply rests_cluster; eauto. unfold rested. rewrite Rm. eapply Rs; exact Ec.
Qed.
Lemma occupy_live T g k : alive T g -> rests g -> place g k -> exists g', f_occupy k k g = Ret tt g' /\ alive (T + 1) g' /\ rests g' /\ calm g g'.
Proof.
  intros A Rs Hk. unfold f_occupy.
  destruct (feature_run T g k A Hk) as [(s & Es & Eu & R)|(s & cl & Es & Eu & Ec & Hin & R)].
  - eexists. split; [apply R; reflexivity|]. split; [apply (alive_later T); [exact HM|lia|]; eapply alive_site; eauto|]. split; [exact Rs|]. apply (calm_put_site _ _ _ _ Es); reflexivity.
  - destruct (occupy_run lo hi (near cl) T cl k (proj2 (a_cl _ _ A _ _ Ec)) Hin) as (cl' & E & F & V & Rm). eexists. split; [apply R; exact E|].
    split; [apply (alive_cluster T (T + 1) g (s_cluster s) cl cl' HM); auto; [lia|lia|rewrite Rm; apply (a_cl _ _ A _ _ Ec)]|].
    split; [|apply (calm_put_cluster _ _ _ _ Ec F)].
    eapply rests_cluster; eauto. unfold rested. rewrite Rm. eapply Rs; exact Ec.
Qed.
Definition waits (k w : Z) (g : @world XR G) : Prop := forall c cl, ulookup c (g_clusters g) = Some cl ->
  if in_dec Z.eq_dec k (c_siteIds cl) then
    (exists x, ulookup w (c_remaining cl) = Some (Fin x : xn)) /\
    (forall w' v, w' <> w -> ulookup w' (c_remaining cl) = Some v -> exists x, v = Fin x /\ 0 < x)
  else rested cl.
Lemma dwell_live T g k w : alive T g -> rests g -> place g k ->
  exists t g', f_getDwellTime k w g = Ret t g' /\ alive T g' /\ waits k w g' /\ g_walkers g' = g_walkers g /\ calm g g' /\
    exists x, t = Fin x /\ 0 < x.
Proof.
  intros A Rs Hk. unfold f_getDwellTime.
  destruct (feature_run T g k A Hk) as [(s & Es & Eu & R)|(s & cl & Es & Eu & Ec & Hin & R)].
  - destruct (HF (s_rng s)) as (u & e' & Eu' & Hu). eexists _, _. split; [apply R; unfold s_getDwellTime, s_draw, bind, gets, ret; rewrite Eu'; reflexivity|].
    split; [eapply alive_site; eauto|]. split; [|split; [reflexivity | split; [apply (calm_put_site _ _ _ _ Es); reflexivity|]]].
    2:{ destruct (a_site _ _ A k s Es) as ([Gr Rd] & _). destruct (dwell_reads _ _ s u e' Gr Rd Eu' Hu) as (s' & Ed & Hp).
        unfold s_getDwellTime, s_draw, bind, gets, ret in Ed. rewrite Eu' in Ed. injection Ed as Ed _. eexists. split; [exact Ed|exact Hp]. }
    intros c cl E. cbn [g_clusters g_with_sites] in E. destruct (in_dec _ _ _) as [X|X]; [|eapply Rs; exact E]. exfalso.
    destruct (proj1 (ukeys_In _ _) X) as [m Em]. destruct (h_mem _ _ _ (a_shape _ _ A) c k m (ex_intro _ cl (conj E Em))) as (s0 & E0 & N0 & _). congruence.
  - destruct (dwell_run lo hi (near cl) T cl w HF (proj2 (a_cl _ _ A _ _ Ec)) (Rs _ _ Ec)) as (t & cl' & E & Rr & NR & V & W1 & W2 & Wt).
    eexists _, _. split; [apply R; exact E|].
    split; [apply (alive_cluster T T g (s_cluster s) cl cl' HM); auto; [lia|apply rr_frz; exact Rr|lia]|]. split; [|split; [reflexivity|split; [apply (calm_put_cluster _ _ _ _ Ec), rr_frz; exact Rr|exact Wt]]].
    intros x y Ex. cbn [g_clusters g_with_clusters] in Ex. rewrite (SystemShape.ureplace_lookup_some _ _ _ cl) in Ex by exact Ec.
    destruct (Z.eqb_spec x (s_cluster s)) as [->|Nx].
    + injection Ex as <-. unfold c_siteIds in *. rewrite (rr_sites _ _ Rr). destruct (in_dec _ _ _) as [_|X]; [auto | contradiction].
    + destruct (in_dec _ _ _) as [X|X]; [|eapply Rs; exact Ex]. exfalso. apply Nx.
      destruct (proj1 (ukeys_In _ _) X) as [m Em]. destruct (proj1 (ukeys_In _ _) Hin) as [m' Em'].
      apply (h_disj _ _ _ (a_shape _ _ A) x (s_cluster s) k m m'); [exists y | exists cl]; auto.
Qed.
Lemma pick_live T g k w : alive T g -> waits k w g -> place g k ->
  exists n g', f_pick k w g = Ret n g' /\ alive T g' /\ rests g' /\ next_to g k n /\ g_walkers g' = g_walkers g /\ calm g g'.
Proof.
  intros A Ws Hk. unfold f_pick.
  destruct (feature_run T g k A Hk) as [(s & Es & Eu & R)|(s & cl & Es & Eu & Ec & Hin & R)].
  - destruct (a_site _ _ A k s Es) as ([Gr Rd] & _ & Kn). destruct (HF (s_rng s)) as (u & e' & Eu' & Hu).
    destruct (pick_reads _ _ s u e' Gr Rd Eu' ltac:(lra)) as (j & s' & E & Hj). pose proof (pick_s _ _ _ E) as Es'.
    eexists _, _. split; [apply R; exact E|]. split; [apply (alive_site T g k s); auto; rewrite Es'; reflexivity|].
    split; [|split; [left; exists s; auto | split; [reflexivity|apply (calm_put_site _ _ _ _ Es); rewrite Es'; reflexivity]]].
    intros c cl E1. cbn [g_clusters g_with_sites] in E1. specialize (Ws c cl E1). destruct (in_dec _ _ _) as [X|X]; [|exact Ws]. exfalso.
    destruct (proj1 (ukeys_In _ _) X) as [m Em]. destruct (h_mem _ _ _ (a_shape _ _ A) c k m (ex_intro _ cl (conj E1 Em))) as (s0 & E0 & N0 & _). congruence.
  - pose proof (proj2 (a_cl _ _ A _ _ Ec)) as L. pose proof (Ws _ _ Ec) as W. destruct (in_dec _ _ _) as [_|X]; [|contradiction]. destruct W as ((x & W1) & W2).
    destruct (pick_run (near cl) cl w x HF (lv_cint _ _ _ _ _ L) (lv_cnbr _ _ _ _ _ L) (lv_rem _ _ _ _ _ L) W1 W2) as (n & cl' & E & Kn & Rr & NR & V & Rs).
    eexists _, _. split; [apply R; exact E|].
    split; [apply (alive_cluster T T g (s_cluster s) cl cl' HM); auto; [lia|apply rr_frz; exact Rr|lia]|].
    split; [|split; [|split; [reflexivity|apply (calm_put_cluster _ _ _ _ Ec), rr_frz; exact Rr]]].
    2:{ right. exists (s_cluster s). destruct Kn as (i & m & Hi & Kn). exists i. rewrite !(cluster_keys _ _ _ _ Ec). split; [exact Hin|]. split; [apply (in_map fst _ (i, m)), Hi|].
        destruct Kn as [Kn|Kn]; [left; exact Kn|right]. destruct (cluster_mirror g _ cl (a_shape _ _ A) Ec) as [NDm Mi].
        destruct (Mi i m (In_ulookup _ _ _ NDm Hi)) as (s0 & E0 & En). exists s0. split; [exact E0|]. unfold s_neighIds in *. rewrite <- En. exact Kn. }
    intros y z Ez. cbn [g_clusters g_with_clusters] in Ez. rewrite (SystemShape.ureplace_lookup_some _ _ _ cl) in Ez by exact Ec.
    destruct (Z.eqb_spec y (s_cluster s)) as [->|Ny]; [injection Ez as <-; exact Rs|].
    specialize (Ws y z Ez). destruct (in_dec _ _ _) as [X|X]; [|exact Ws]. exfalso. apply Ny.
    destruct (proj1 (ukeys_In _ _) X) as [m Em]. destruct (proj1 (ukeys_In _ _) Hin) as [m' Em'].
    apply (h_disj _ _ _ (a_shape _ _ A) y (s_cluster s) k m m'); [exists z | exists cl]; auto.
Qed.

(** ** A move *)
Lemma in_walker_run {A} p (m : M walker A) (g : @world XR G) w a w' : ulookup p (g_walkers g) = Some w -> m w = Ret a w' ->
  in_walker p m g = Ret a (g_with_walkers (ureplace p w' (g_walkers g)) g).
Proof. intros E1 E2. unfold in_walker, zoom, at_key. rewrite E1, E2. reflexivity. Qed.
(** walkers have a positive dwell time *)
Definition timed (w : @walker XR) : Prop := exists d, w_dwell w = Fin d /\ 0 < d.
(** walkers aim at sites *)
Definition aims (g : @world XR G) (ws : list Z) : Prop :=
  forall p, In p ws -> exists w, ulookup p (g_walkers g) = Some w /\ next_to g (w_cur w) (w_pot w) /\ timed w.

(** drawing the next dwell time and the next site *)
Lemma redraw_live T g k id p ws w : alive T g -> rests g -> place g k -> ulookup p (g_walkers g) = Some w -> w_cur w = k ->
  (forall q, In q ws -> q <> p -> exists w, ulookup q (g_walkers g) = Some w /\ next_to g (w_cur w) (w_pot w) /\ timed w) ->
  exists g', (t <- f_getDwellTime k id ;; in_walker p (w_setDwellTime t) ;; n <- f_pick k id ;; in_walker p (w_setPotentialSite n)) g = Ret tt g' /\
    alive T g' /\ rests g' /\ aims g' ws.
Proof.
  intros A Rs Hk Ew Ec Ha. destruct (dwell_live T g k id A Rs Hk) as (t & g1 & E1 & A1 & W1 & Ew1 & C1 & Pt).
  unfold bind. rewrite E1. rewrite (in_walker_run p (w_setDwellTime t) g1 w tt _ ltac:(rewrite Ew1; exact Ew) eq_refl).
  set (w1 := mkWalker (w_cur w) (w_pot w) t). set (g2 := g_with_walkers _ g1).
  assert (A2 : alive T g2) by (apply alive_walkers; exact A1).
  destruct (pick_live T g2 k id A2 W1) as (n & g3 & E3 & A3 & R3 & Hn & Ew3 & C3).
  { unfold place, g2. cbn [g_sites g_with_walkers]. rewrite (same_keys _ _ _ (m_sites _ _ C1)). exact Hk. }
  rewrite E3. assert (L : forall q, ulookup q (g_walkers g3) = if (q =? p)%Z then Some w1 else ulookup q (g_walkers g)).
  { intros q. rewrite Ew3. unfold g2. cbn [g_walkers g_with_walkers]. rewrite Ew1. apply (SystemShape.ureplace_lookup_some _ _ _ w), Ew. }
  pose proof (L p) as Lp. rewrite Z.eqb_refl in Lp.
  rewrite (in_walker_run p (w_setPotentialSite n) g3 w1 tt _ Lp eq_refl). eexists. split; [reflexivity|].
  split; [apply alive_walkers; exact A3|]. split; [exact R3|].
  assert (N23 : forall a b, next_to g2 a b -> next_to g3 a b) by (apply next_calm, C3).
  assert (N3 : forall a b, next_to g a b -> next_to g3 a b) by (intros a b X; apply N23; apply (next_calm _ _ C1 a b X)).
  intros q Hq. cbn [g_walkers g_with_walkers]. rewrite (SystemShape.ureplace_lookup_some _ _ _ w1) by exact Lp.
  destruct (Z.eqb_spec q p) as [->|Nq].
  - eexists. split; [reflexivity|]. cbn [w_cur w_pot]. split; [apply N23; rewrite <- Ec in Hn; exact Hn|exact Pt].
  - destruct (Ha q Hq Nq) as (x & Ex & Px & Tx). exists x. rewrite L. destruct (Z.eqb_spec q p) as [->|]; [contradiction|].
    split; [exact Ex|]. split; [apply N3, Px|exact Tx].
Qed.
Lemma walkers_isOccupied (g : @world XR G) k j b g' : f_isOccupied k j g = Ret b g' -> g_walkers g' = g_walkers g.
Proof. intros E. apply on_feature_ret in E. destruct E as [(? & ? & ? & _ & _ & _ & ->)|(? & ? & ? & _ & _ & _ & ->)]; reflexivity. Qed.
Lemma walkers_occupy (g : @world XR G) k j b g' : f_occupy k j g = Ret b g' -> g_walkers g' = g_walkers g /\ forall x, place g x -> place g' x.
Proof.
  intros E. apply on_feature_ret in E. unfold place.
  destruct E as [(? & ? & ? & _ & _ & _ & ->)|(? & ? & ? & _ & _ & _ & ->)]; (split; [reflexivity|]); cbn [g_sites g_with_sites g_with_clusters]; rewrite ?ureplace_keys; auto.
Qed.
Lemma walkers_vacate (g : @world XR G) k j b g' : f_vacate clk k j g = Ret b g' -> g_walkers g' = g_walkers g /\ forall x, place g x -> place g' x.
Proof.
  unfold f_vacate, read_clock, next_tick, bind, ret. intros E. apply on_feature_ret in E. unfold place.
  destruct E as [(? & ? & ? & _ & _ & _ & ->)|(? & ? & ? & _ & _ & _ & ->)]; (split; [reflexivity|]); cbn [g_sites g_with_sites g_with_clusters g_with_tick]; rewrite ?ureplace_keys; auto.
Qed.
Lemma move_live T g id p src dst ws w : alive T g -> rests g -> aims g ws -> place g src -> place g dst -> ulookup p (g_walkers g) = Some w -> w_cur w = src ->
  exists g', hop_move clk id p src dst g = Ret tt g' /\ alive (T + 1) g' /\ rests g' /\ aims g' ws.
Proof.
  intros A Rs Ha Hs Hd Ew Ec. unfold hop_move.
  destruct (isOccupied_run T g dst A Hd) as (b & g1 & E1 & A1 & R1 & C1). specialize (R1 Rs).
  assert (K1 : forall x, place g x -> place g1 x) by (intros x; unfold place; rewrite (same_keys _ _ _ (m_sites _ _ C1)); auto).
  pose proof (walkers_isOccupied _ _ _ _ _ E1) as W1.
  destruct (vacate_live T g1 src A1 R1 (K1 _ Hs)) as (g2 & E2 & A2 & R2 & C2). destruct (walkers_vacate _ _ _ _ _ E2) as [W2 K2].
  pose proof (calm_trans _ _ _ C1 C2) as C12.
  unfold bind at 1. rewrite E1. destruct b.
  - destruct (occupy_live T g2 src A2 R2 (K2 _ (K1 _ Hs))) as (g3 & E3 & A3 & R3 & C3). destruct (walkers_occupy _ _ _ _ _ E3) as [W3 K3].
    pose proof (next_calm _ _ (calm_trans _ _ _ C12 C3)) as N3.
    unfold bind at 1. rewrite E2. unfold bind at 1. rewrite E3.
    destruct (redraw_live (T + 1) g3 src id p ws w A3 R3 (K3 _ (K2 _ (K1 _ Hs))) ltac:(congruence) Ec) as (g4 & E4 & A4 & R4 & H4).
    { intros q Hq _. destruct (Ha q Hq) as (x & Ex & Px & Tx). exists x. split; [congruence | auto]. }
    exists g4. auto.
  - destruct (occupy_live T g2 dst A2 R2 (K2 _ (K1 _ Hd))) as (g3 & E3 & A3 & R3 & C3). destruct (walkers_occupy _ _ _ _ _ E3) as [W3 K3].
    pose proof (next_calm _ _ (calm_trans _ _ _ C12 C3)) as N3.
    unfold bind at 1. rewrite E2. unfold bind at 1. rewrite E3. unfold bind at 1.
    rewrite (in_walker_run p (w_occupySite dst) g3 w tt _ ltac:(congruence) eq_refl).
    assert (Ew3 : ulookup p (g_walkers g3) = Some w) by congruence.
    match goal with |- context [_ (g_with_walkers ?m g3)] => set (g3' := g_with_walkers m g3) end.
    destruct (redraw_live (T + 1) g3' dst id p ws (mkWalker dst (w_pot w) (w_dwell w))) as (g4 & E4 & A4 & R4 & H4).
    + apply alive_walkers; exact A3.
    + exact R3.
    + apply K3, K2, K1, Hd.
    + unfold g3'. cbn [g_walkers g_with_walkers]. rewrite (SystemShape.ureplace_lookup_some _ _ _ w) by exact Ew3. rewrite Z.eqb_refl. reflexivity.
    + reflexivity.
    + intros q Hq Nq. destruct (Ha q Hq) as (x & Ex & Px & Tx). exists x. unfold g3'. cbn [g_walkers g_with_walkers].
      rewrite (SystemShape.ureplace_lookup_some _ _ _ w) by exact Ew3. destruct (Z.eqb_spec q p) as [->|]; [contradiction|]. split; [congruence|].
      split; [apply N3, Px|exact Tx].
    + exists g4. auto.
Qed.

Lemma getSite_run p (g : @world XR G) w : ulookup p (g_walkers g) = Some w -> w_cur w <> unassignedId ->
  in_walker p w_getSite g = Ret (w_cur w) (g_with_walkers (ureplace p w (g_walkers g)) g).
Proof.
  intros E Nu. apply (in_walker_run p w_getSite g w); [exact E|]. unfold w_getSite. destruct (Z.eqb_spec (w_cur w) unassignedId); [contradiction | reflexivity].
Qed.
Lemma getPot_run p (g : @world XR G) w : ulookup p (g_walkers g) = Some w -> w_pot w <> unassignedId ->
  in_walker p w_getPotentialSite g = Ret (w_pot w) (g_with_walkers (ureplace p w (g_walkers g)) g).
Proof.
  intros E Nu. apply (in_walker_run p w_getPotentialSite g w); [exact E|]. unfold w_getPotentialSite.
  destruct (Z.eqb_spec (w_pot w) unassignedId); [contradiction | reflexivity].
Qed.
Lemma aims_look (g g' : @world XR G) ws : (forall p, ulookup p (g_walkers g') = ulookup p (g_walkers g)) -> (forall k n, next_to g k n -> next_to g' k n) ->
  aims g ws -> aims g' ws.
Proof. intros L K A p Hp. destruct (A p Hp) as (w & E & P & Q). exists w. rewrite L. auto. Qed.
Lemma replace_look p w (m : umap (@walker XR)) q : ulookup p m = Some w -> ulookup q (ureplace p w m) = ulookup q m.
Proof. intros E. rewrite (SystemShape.ureplace_lookup_some _ _ _ w) by exact E. destruct (Z.eqb_spec q p); congruence. Qed.

(** a walker leaves *)
Lemma leave_live T g id p w ws : alive T g -> rests g -> aims g ws -> ulookup p (g_walkers g) = Some w -> place g (w_cur w) -> w_cur w <> unassignedId ->
  exists g', sys_removeWalker clk id p g = Ret tt g' /\ alive T g' /\ rests g' /\ aims g' ws.
Proof.
  intros A Rs Ha Ew Hk Nu. unfold sys_removeWalker, bind at 1. rewrite (getSite_run p g w Ew Nu). set (g1 := g_with_walkers _ g).
  destruct (vacate_live T g1 (w_cur w) (alive_walkers T g _ A) Rs Hk) as (g2 & E2 & A2 & R2 & C2). destruct (walkers_vacate _ _ _ _ _ E2) as [W2 K2].
  exists g2. split; [exact E2|]. split; [exact A2|]. split; [exact R2|]. apply (aims_look g); [|exact (next_calm g1 g2 C2)|exact Ha].
  intros q. rewrite W2. apply (replace_look p w _ q Ew).
Qed.

(** a walker enters on a site that is not part of a cluster *)
Lemma occupy0_live T g k s : alive T g -> rests g -> ulookup k (g_sites g) = Some s -> s_cluster s = unassignedId ->
  exists g', f_occupy0 k g = Ret tt g' /\ alive T g' /\ rests g' /\ g_walkers g' = g_walkers g /\ calm g g'.
Proof.
  intros A Rs Es Eu. unfold f_occupy0.
  destruct (feature_run T g k A (ulookup_In_key _ _ _ Es)) as [(s1 & E1 & Eu1 & R)|(s1 & cl & E1 & Eu1 & Ec & Hin & R)]; [|congruence].
  eexists. split; [apply R; reflexivity|]. split; [eapply alive_site; eauto|]. split; [exact Rs|]. split; [reflexivity|]. apply (calm_put_site _ _ _ _ E1); reflexivity.
Qed.
Lemma enter_live T g id p w s ws : alive T g -> rests g -> aims g ws -> ulookup p (g_walkers g) = Some w -> ~ In p ws -> w_cur w <> unassignedId ->
  ulookup (w_cur w) (g_sites g) = Some s -> s_cluster s = unassignedId ->
  exists g', init_walker id p g = Ret tt g' /\ alive T g' /\ rests g' /\ aims g' (p :: ws).
Proof.
  intros A Rs Ha Ew Np Nu Es Eu. unfold init_walker, bind at 1. rewrite (getSite_run p g w Ew Nu). set (g1 := g_with_walkers _ g).
  unfold bind at 1, gets. assert (Hf : umem (w_cur w) (g_feats g1) = true).
  { unfold umem, g1. cbn [g_feats g_with_walkers]. rewrite (h_feat _ _ _ (a_shape _ _ A)), Es. reflexivity. }
  rewrite Hf. destruct (occupy0_live T g1 (w_cur w) s (alive_walkers T g _ A) Rs Es Eu) as (g2 & E2 & A2 & R2 & W2 & K2).
  unfold bind at 1. rewrite E2.
  assert (P2 : place g2 (w_cur w)) by (unfold place; rewrite (same_keys _ _ _ (m_sites _ _ K2)); eapply ulookup_In_key; exact Es).
  destruct (dwell_live T g2 (w_cur w) id A2 R2 P2) as (t & g3 & E3 & A3 & W3 & Ew3 & K3 & Pt).
  unfold bind at 1. rewrite E3.
  assert (P3 : place g3 (w_cur w)) by (unfold place; rewrite (same_keys _ _ _ (m_sites _ _ K3)); exact P2).
  destruct (pick_live T g3 (w_cur w) id A3 W3 P3) as (n & g4 & E4 & A4 & R4 & Hn & Ew4 & K4).
  unfold bind at 1. rewrite E4.
  assert (L : forall q, ulookup q (g_walkers g4) = ulookup q (g_walkers g)).
  { intros q. rewrite Ew4, Ew3, W2. apply (replace_look p w _ q Ew). }
  unfold bind at 1. assert (L4 : ulookup p (g_walkers g4) = Some w) by (rewrite L; exact Ew).
  rewrite (in_walker_run p (w_setDwellTime t) g4 w tt _ L4 eq_refl).
  set (w1 := mkWalker (w_cur w) (w_pot w) t). set (g5 := g_with_walkers _ g4).
  assert (L5 : ulookup p (g_walkers g5) = Some w1).
  { unfold g5. cbn [g_walkers g_with_walkers]. rewrite (SystemShape.ureplace_lookup_some _ _ _ w) by exact L4. rewrite Z.eqb_refl. reflexivity. }
  rewrite (in_walker_run p (w_setPotentialSite n) g5 w1 tt _ L5 eq_refl). eexists. split; [reflexivity|].
  split; [apply alive_walkers, alive_walkers; exact A4|]. split; [exact R4|].
  assert (N4 : forall a b, next_to g3 a b -> next_to g4 a b) by (apply next_calm, K4).
  assert (N1 : forall a b, next_to g a b -> next_to g4 a b) by (intros a b X; apply N4, (next_calm _ _ K3), (next_calm _ _ K2); exact X).
  intros q [<-|Hq]; cbn [g_walkers g_with_walkers]; rewrite (SystemShape.ureplace_lookup_some _ _ _ w1) by exact L5.
  - rewrite Z.eqb_refl. eexists. split; [reflexivity|]. cbn [w_cur w_pot w1]. split; [apply N4, Hn|exact Pt].
  - destruct (Z.eqb_spec q p) as [->|Nq]; [contradiction|]. destruct (Ha q Hq) as (x & Ex & Px & Tx). exists x. unfold g5. cbn [g_walkers g_with_walkers].
    rewrite (SystemShape.ureplace_lookup_some _ _ _ w) by exact L4. destruct (Z.eqb_spec q p) as [->|_]; [contradiction|]. rewrite L. split; [exact Ex|].
    split; [apply N1, Px|exact Tx].
Qed.
End Live.
