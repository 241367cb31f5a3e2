(** * Counters grow by at most one per arrival and departure *)
From Coq Require Import ZArith List Bool Lia.
From Verif Require Import Base BaseProofs Num WalkerModel SiteModel SiteProofs ClusterModel ClusterFrame
  ContainerModel BasinModel ClusterCounts SystemModel SystemSpec SystemShape SystemProofs CounterSpec.
Import ListNotations.
Open Scope Z_scope.

(** ** What holds after a computation that returns *)
Definition tri {S A} (P : S -> Prop) (m : M S A) (Q : A -> S -> Prop) : Prop :=
  forall s a s', P s -> m s = Ret a s' -> Q a s'.
Section Tri.
Context {S : Type} (P : S -> Prop).
Definition stable {A} (m : M S A) : Prop := tri P m (fun _ => P).
Lemma tri_bind {A B} (m : M S A) (k : A -> M S B) R Q : tri P m R -> (forall a, tri (R a) (k a) Q) -> tri P (bind m k) Q.
Proof. intros H1 H2 s a s' Hs E. apply bind_ret_inv in E. destruct E as (x & u & E1 & E2). eapply H2; [|exact E2]. eapply H1; eauto. Qed.
Lemma st_bind {A B} (m : M S A) (k : A -> M S B) Q : stable m -> (forall a, tri P (k a) Q) -> tri P (bind m k) Q.
Proof. intros H1 H2. eapply tri_bind; [exact H1|]. intros a. apply H2. Qed.
Lemma st_ret {A} (a : A) : stable (ret a).
Proof. intros s b s' Hs E. inversion E; subst; exact Hs. Qed.
Lemma st_gets {A} (f : S -> A) : stable (gets f).
Proof. intros s b s' Hs E. inversion E; subst; exact Hs. Qed.
Lemma st_throw {A} e Q : tri P (@throw S A e) Q.
Proof. intros s b s' Hs E. discriminate. Qed.
Lemma st_stop {A} e Q : tri P (@stop S A e) Q.
Proof. intros s b s' Hs E. discriminate. Qed.
Lemma st_lift {A} (r : res A) : stable (lift r).
Proof. intros s b s' Hs E. destruct r; inversion E; subst; exact Hs. Qed.
Lemma st_assert b : stable (cassert b).
Proof. intros s x s' Hs E. destruct b; inversion E; subst; exact Hs. Qed.
Lemma st_modify f : (forall s, P s -> P (f s)) -> stable (modify f).
Proof. intros H s b s' Hs E. inversion E; subst; auto. Qed.
Lemma st_mfor {A} (l : list A) b : (forall x, stable (b x)) -> stable (mfor l b).
Proof. intros H. induction l; cbn [mfor]; [apply st_ret|]. apply st_bind; auto. Qed.
Lemma tri_weak {A} (m : M S A) (Q R : A -> S -> Prop) : (forall a s, Q a s -> R a s) -> tri P m Q -> tri P m R.
Proof. intros H1 H2 s a s' Hs E. eapply H1, H2; eauto. Qed.
End Tri.

Section Counters.
Context {I : Impl} {N : Num} {G : Rng} {U : Ugly}.

Definition all {V} (p : V -> Prop) (m : umap V) : Prop := forall k v, In (k, v) m -> p v.
Lemma all_replace {V} (p : V -> Prop) k v (m : umap V) : all p m -> p v -> all p (ureplace k v m).
Proof.
  intros H Hv. induction m as [|[j x] m IH]; [exact H|]. cbn [ureplace]. destruct (k =? j).
  - intros i y [E|Hi]; [inversion E; subst; exact Hv|apply (H i); right; exact Hi].
  - intros i y [E|Hi]; [apply (H i); left; exact E|]. apply (IH (fun a b Hb => H a b (or_intror Hb)) i y Hi).
Qed.
Lemma all_set {V} (p : V -> Prop) k v (m : umap V) : all p m -> p v -> all p (uset m k v).
Proof.
  intros H Hv. unfold uset. destruct (umem k m); [apply all_replace; assumption|].
  intros i y Hi. apply (Permutation.Permutation_in _ (hplace_perm _ m k v)) in Hi. destruct Hi as [E|Hi]; [inversion E; subst; exact Hv|apply (H i), Hi].
Qed.
Lemma all_remove {V} (p : V -> Prop) k (m : umap V) : all p m -> all p (uremove k m).
Proof. intros H i y Hi. apply uremove_incl in Hi. apply (H i), Hi. Qed.
Lemma all_look {V} (p : V -> Prop) k v (m : umap V) : all p m -> ulookup k m = Some v -> p v.
Proof. intros H E. apply ulookup_In in E. apply (H k), E. Qed.

(** ** Clusters *)
Section At.
Variables a d : Z.
Hypothesis Ha : 0 <= a.
Hypothesis Hd : 0 <= d.
Notation sok := (site_counts a d).
Notation cok := (cluster_counts a d).

Lemma sok_new t : sok (site_new t).
Proof. unfold site_counts. cbn. lia. Qed.
Lemma cok_new i t : cok (cluster_new i t).
Proof. unfold cluster_counts. cbn. split; [lia|]. split; [lia|]. split; [lia|]. intros k s []. Qed.

Ltac same := let H := fresh in intros ? H; exact H.
Ltac stay :=
  repeat match goal with
    | |- tri _ (bind _ _) _ => apply st_bind; [|intros]
    | |- stable _ (bind _ _) => apply st_bind; [|intros]
    | |- stable _ (ret _) => apply st_ret
    | |- tri _ (ret _) (fun _ => _) => apply st_ret
    | |- stable _ (gets _) => apply st_gets
    | |- tri _ (gets _) (fun _ => _) => apply st_gets
    | |- stable _ (throw _) => apply st_throw
    | |- tri _ (throw _) _ => apply st_throw
    | |- stable _ (stop _) => apply st_stop
    | |- tri _ (stop _) _ => apply st_stop
    | |- stable _ (lift _) => apply st_lift
    | |- tri _ (lift _) (fun _ => _) => apply st_lift
    | |- stable _ (cassert _) => apply st_assert
    | |- tri _ (cassert _) (fun _ => _) => apply st_assert
    | |- stable _ (modify _) => apply st_modify; same
    | |- tri _ (modify _) (fun _ => _) => apply st_modify; same
    | |- stable _ (mfor _ _) => apply st_mfor; intros
    | |- tri _ (mfor _ _) (fun _ => _) => apply st_mfor; intros
    | |- stable _ (match ?x with _ => _ end) => destruct x
    | |- tri _ (match ?x with _ => _ end) _ => destruct x
    end.

Lemma c_visits_ok k : stable cok (c_getVisits k).
Proof.
  unfold c_getVisits. intros c v c' Hc E. apply ClusterCounts.getVisits_inv in E. destruct E as (sv & _ & -> & _).
  destruct Hc as (H1 & H2 & H3 & H4). split; [exact H1|]. split; [exact H1|]. split; [exact H3|exact H4].
Qed.
Lemma c_visitList_ok l : stable cok (c_visitList l).
Proof. induction l as [|k l IH]; cbn [c_visitList]; stay; [apply c_visits_ok|exact IH]. Qed.
Lemma c_set_ok f k : stable cok (c_setVisits f k).
Proof. unfold c_setVisits. stay. Qed.
Lemma c_update_ok fuel h : stable cok (c_update fuel h).
Proof.
  unfold c_update, c_solve, c_calcHopToInternal, c_calcHopToNeighbors, c_calcInternalDwell, c_calcSumOff, c_calcSumInt, c_calcHopOff, c_calcHopBetween, c_calcTau, c_calcITau.
  stay; first [apply c_visitList_ok|apply c_set_ok].
Qed.
Lemma cok_sites c m : cok c -> all sok m -> cok (c_with_sites m c).
Proof. intros (H1 & H2 & H3 & H4) H. split; [exact H1|]. split; [exact H2|]. split; [exact H3|exact H]. Qed.
Lemma cok_all c : cok c -> all sok (c_sites c).
Proof. intros (_ & _ & _ & H). exact H. Qed.
Lemma c_addSites_ok l : Forall sok l -> stable cok (c_addSites l).
Proof.
  intros Hl. unfold c_addSites. induction Hl as [|s l Hs Hl IH]; cbn [mfor]; [apply st_ret|]. apply st_bind; [|intros; exact IH].
  unfold c_addSite. stay. apply st_modify. intros c' Hc'. apply cok_sites; [exact Hc'|]. apply all_set; [apply cok_all, Hc'|exact Hs].
Qed.
Lemma c_draw_ok : stable cok c_draw.
Proof. intros c u c' Hc E. unfold c_draw in E. destruct (edraw (c_rng c)). inversion E; subst. exact Hc. Qed.
Lemma c_dwell_ok w : stable cok (c_getDwellTime w).
Proof. unfold c_getDwellTime. stay. apply c_draw_ok. Qed.
Lemma c_pick_ok w : stable cok (c_pick w).
Proof. unfold c_pick, c_pickInternal, c_pickNeighbor. stay; apply c_draw_ok. Qed.

Definition cok2 (p : cluster * cluster) : Prop := cok (fst p) /\ cok (snd p).
Lemma fst_ok {A} (m : M cluster A) : stable cok m -> stable cok2 (onFst m).
Proof. intros H [x y] r [x' y'] [H1 H2] E. unfold onFst, zoom in E. cbn in *. destruct (m x) eqn:Em; inversion E; subst. split; [eapply H; [exact H1|exact Em]|exact H2]. Qed.
Lemma snd_ok {A} (m : M cluster A) : stable cok m -> stable cok2 (onSnd m).
Proof. intros H [x y] r [x' y'] [H1 H2] E. unfold onSnd, zoom in E. cbn in *. destruct (m y) eqn:Em; inversion E; subst. split; [exact H1|eapply H; [exact H2|exact Em]]. Qed.
Lemma clear_ok : stable cok (modify c_clearMigrated).
Proof.
  apply st_modify. intros c (H1 & H2 & H3 & H4). split; [exact H1|]. split; [exact H2|]. split; [exact H3|]. intros k s [].
Qed.
Lemma moved_ok moved : forall m, all sok moved -> all sok m ->
  all sok (fold_left (fun m e => if umem (fst e) m then m else uset m (fst e) (snd e)) moved m).
Proof.
  induction moved as [|[k s] l IH]; intros m Hl Hm; cbn [fold_left fst snd]; [exact Hm|].
  apply IH; [intros i x Hi; apply (Hl i); right; exact Hi|]. destruct (umem k m); [exact Hm|]. apply all_set; [exact Hm|]. apply (Hl k); left; reflexivity.
Qed.
Lemma migrate_ok fuel h : stable cok2 (c_migrate fuel h).
Proof.
  unfold c_migrate. apply st_bind; [apply st_gets|intros i].
  apply st_bind; [|intros _].
  { apply snd_ok, st_modify. intros c Hc. apply cok_sites; [exact Hc|]. intros k s Hs. apply in_map_iff in Hs.
    destruct Hs as ([j x] & E & Hx). inversion E; subst. apply (proj2 (proj2 (proj2 Hc)) _ _ Hx). }
  apply st_bind; [apply st_gets|intros ids]. apply st_bind; [apply snd_ok, c_visitList_ok|intros vs].
  eapply tri_bind with (R := fun m p => cok2 p /\ all sok m).
  { intros p m p' Hp E. inversion E; subst. split; [exact Hp|apply cok_all, (proj2 Hp)]. }
  intros moved. eapply tri_bind with (R := fun _ p => cok2 p).
  { intros p x p' [Hp Hm] E. destruct p as [c0 c1]. inversion E; subst. destruct Hp as [H1 H2]. split; [|exact H2]. cbn [fst snd] in *.
    apply cok_sites; [exact H1|]. apply moved_ok; [exact Hm|apply cok_all, H1]. }
  intros _. apply st_bind; [apply snd_ok, clear_ok|intros _]. apply st_bind; [apply fst_ok, c_update_ok|intros _].
  apply st_mfor. intros e. apply fst_ok, c_set_ok.
Qed.

(** ** Systems *)
Definition wok (g : world) : Prop := all sok (g_sites g) /\ all cok (g_clusters g).
Lemma in_sites_ok {A} (m : M _ A) : stable (all sok) m -> stable wok (in_sites m).
Proof. intros H g x g' [H1 H2] E. unfold in_sites, zoom in E. destruct (m (g_sites g)) eqn:Em; inversion E; subst. split; [eapply H; eauto|exact H2]. Qed.
Lemma in_clusters_ok {A} (m : M _ A) : stable (all cok) m -> stable wok (in_clusters m).
Proof. intros H g x g' [H1 H2] E. unfold in_clusters, zoom in E. destruct (m (g_clusters g)) eqn:Em; inversion E; subst. split; [exact H1|eapply H; eauto]. Qed.
Lemma in_walker_ok {A} p (m : M _ A) : stable wok (in_walker p m).
Proof. intros g x g' Hg E. unfold in_walker, zoom in E. destruct (at_key _ _ _ (g_walkers g)); inversion E; subst. exact Hg. Qed.
Lemma local_ok {S A} (m : M S A) s : stable wok (local m s).
Proof. intros g [x y] g' Hg E. apply local_ret in E. destruct E as [-> _]. exact Hg. Qed.
Lemma local_tri {S A} (P : S -> Prop) (m : M S A) s : stable P m -> P s -> tri wok (local m s) (fun x g => wok g /\ P (snd x)).
Proof. intros H Hs g [x y] g' Hg E. apply local_ret in E. destruct E as [-> E]. split; [exact Hg|]. cbn. eapply H; eauto. Qed.
Lemma at_ok {V A} (p : V -> Prop) k (ab : M (umap V) A) (m : M V A) : stable (all p) ab -> stable p m -> stable (all p) (at_key k ab m).
Proof.
  intros Hab Hm mp x mp' Hp E. unfold at_key in E. destruct (ulookup k mp) as [v|] eqn:El; [|eapply Hab; eauto].
  destruct (m v) eqn:Em; inversion E; subst. apply all_replace; [exact Hp|]. eapply Hm; [|exact Em]. eapply all_look; eauto.
Qed.
Lemma read_ok {V A} (p : V -> Prop) k (f : V -> res A) : stable (all p) (read_key k f).
Proof. intros mp x mp' Hp E. unfold read_key in E. destruct (ulookup k mp); [|discriminate]. destruct (f v); inversion E; subst. exact Hp. Qed.
Lemma tick_ok : stable wok next_tick.
Proof. intros g x g' Hg E. inversion E; subst. exact Hg. Qed.
Lemma clock_ok clk : stable wok (read_clock clk).
Proof. intros g x g' Hg E. inversion E; subst. exact Hg. Qed.
Lemma seed_ok : stable wok use_seed.
Proof. intros g x g' Hg E. unfold use_seed in E. destruct (g_seed g); inversion E; subst; exact Hg. Qed.
Lemma feature_ok {A} k (ms : M site A) mc : stable sok ms -> stable cok mc -> stable wok (on_feature k ms mc).
Proof. intros H1 H2. unfold on_feature. stay; [apply in_sites_ok, at_ok; [stay|exact H1]|apply in_clusters_ok, at_ok; [stay|exact H2]]. Qed.
Lemma s_draw_ok : stable sok s_draw.
Proof. intros s x s' Hs E. unfold s_draw in E. destruct (edraw (s_rng s)). inversion E; subst. exact Hs. Qed.
Lemma isOccupied_ok k j : stable wok (f_isOccupied k j).
Proof. unfold f_isOccupied. apply feature_ok; stay. Qed.
Lemma f_dwell_ok k w : stable wok (f_getDwellTime k w).
Proof. apply feature_ok; [unfold s_getDwellTime; stay; apply s_draw_ok|apply c_dwell_ok]. Qed.
Lemma f_pick_ok k w : stable wok (f_pick k w).
Proof. apply feature_ok; [unfold s_pick; stay; apply s_draw_ok|apply c_pick_ok]. Qed.

Lemma setRates_ok h r : stable sok (s_setRates h r).
Proof.
  unfold s_setRates, s_calcTau. stay. intros s x s' Hs E. unfold s_calcProb in E. destruct (prob_loop _ _ _ _); inversion E; subst. exact Hs.
Qed.
Lemma addSite_ok s : sok s -> stable (all sok) (sc_addSite s).
Proof. intros Hs. unfold sc_addSite. stay. apply st_modify. intros m Hm. apply all_set; assumption. Qed.
Variable clk : Z -> Z.
Lemma init_ok rates : stable wok (sys_initializeSystem clk rates).
Proof.
  unfold sys_initializeSystem. apply st_bind; [apply st_gets|intros [r|]]; [|stay].
  apply st_bind; [|intros _]; apply st_mfor.
  - intros e. unfold init_site. apply st_bind; [apply clock_ok|intros t]. apply st_bind; [apply st_gets|intros h].
    eapply tri_bind; [apply local_tri with (P := sok); [|apply sok_new]|].
    { unfold s_setId. apply st_bind; [apply st_modify; same|intros _; apply setRates_ok]. }
    intros s g x g' [Hg Hs] E. revert g x g' Hg E. change (stable wok (bind use_seed (fun seed => bind (local (match seed with Some x => s_setRandomSeed x | None => ret tt end) (snd s)) (fun s => bind (in_sites (sc_addSite (snd s))) (fun _ => modify (fun g => g_with_feats (uset (g_feats g) (fst e) (PSite (fst e))) g)))))).
    apply st_bind; [apply seed_ok|intros seed].
    eapply tri_bind; [apply local_tri with (P := sok); [|exact Hs]|].
    { destruct seed; [unfold s_setRandomSeed; apply st_modify; same|apply st_ret]. }
    intros s2 g x g' [Hg Hs2] E. apply bind_ret_inv in E. destruct E as (y & g1 & E1 & E2).
    apply (in_sites_ok _ (addSite_ok _ Hs2) _ _ _ Hg) in E1. inversion E2; subst. exact E1.
  - intros k. unfold init_drain. apply st_bind; [apply clock_ok|intros t].
    eapply tri_bind; [apply local_tri with (P := sok); [unfold s_setId; apply st_modify; same|apply sok_new]|].
    intros s2 g x g' [Hg Hs2] E. apply bind_ret_inv in E. destruct E as (y & g1 & E1 & E2).
    apply (in_sites_ok _ (addSite_ok _ Hs2) _ _ _ Hg) in E1. inversion E2; subst. exact E1.
Qed.
Lemma copy_ok ids : tri wok (copy_sites ids) (fun l g => wok g /\ Forall sok l).
Proof.
  induction ids as [|k ids IH]; cbn [copy_sites]; intros g l g' Hg E.
  - inversion E; subst. split; [exact Hg|constructor].
  - apply bind_ret_inv in E. destruct E as (s & g1 & E1 & E). apply bind_ret_inv in E. destruct E as (r & g2 & E2 & E3). inversion E3; subst.
    assert (H1 : wok g1) by (eapply (in_sites_ok _ (read_ok _ _ _)); eauto).
    destruct (IH _ _ _ H1 E2) as [H2 H3]. split; [exact H2|]. constructor; [|exact H3].
    unfold in_sites, zoom, sc_getSite, read_key in E1. destruct (ulookup k (g_sites g)) eqn:El; inversion E1; subst. eapply all_look; [apply Hg|exact El].
Qed.
Lemma new_ok : tri wok (new_cluster clk) (fun c g => wok g /\ cok c).
Proof. intros g c g' Hg E. inversion E; subst. split; [exact Hg|apply cok_new]. Qed.
Lemma create_ok fuel ids limit : stable wok (create_cluster clk fuel ids limit).
Proof.
  unfold create_cluster. eapply tri_bind; [apply new_ok|]. intros c0 g x g' [Hg H0]. revert g x g' Hg. 
  match goal with |- forall g x g', _ -> ?m g = _ -> _ => change (stable wok m) end.
  eapply tri_bind; [apply copy_ok|]. intros l g x g' [Hg Hl]. revert g x g' Hg.
  match goal with |- forall g x g', _ -> ?m g = _ -> _ => change (stable wok m) end.
  apply st_bind; [apply st_gets|intros h].
  eapply tri_bind; [apply local_tri with (P := cok); [|exact H0]|].
  { unfold c_setMethod, c_setTolerance. stay; [apply c_addSites_ok, Hl|apply c_update_ok]. }
  intros c1 g x g' [Hg H1]. revert g x g' Hg.
  match goal with |- forall g x g', _ -> ?m g = _ -> _ => change (stable wok m) end.
  apply st_bind; [apply st_gets|intros [tres|]]; [|stay].
  eapply tri_bind; [apply local_tri with (P := cok); [|exact H1]|].
  { unfold c_setResolution. stay. }
  intros c2 g x g' [Hg H2]. revert g x g' Hg.
  match goal with |- forall g x g', _ -> ?m g = _ -> _ => change (stable wok m) end.
  apply st_bind; [apply seed_ok|intros seed].
  eapply tri_bind; [apply local_tri with (P := cok); [|exact H2]|].
  { destruct seed; [unfold c_setRandomSeed; stay|apply st_ret]. }
  intros c3 g x g' [Hg H3]. revert g x g' Hg.
  match goal with |- forall g x g', _ -> ?m g = _ -> _ => change (stable wok m) end.
  apply st_bind; [|intros _].
  { apply in_clusters_ok. unfold cc_addCluster. stay. apply st_modify. intros m Hm. apply all_set; assumption. }
  eapply tri_bind; [apply new_ok|]. intros _ g x g' [Hg _]. revert g x g' Hg.
  match goal with |- forall g x g', _ -> ?m g = _ -> _ => change (stable wok m) end.
  apply st_mfor. intros k. apply st_bind; [|intros _; stay].
  apply in_sites_ok. unfold sc_setClusterId. apply at_ok; [stay|]. unfold s_setClusterId. stay.
Qed.
Lemma getSite_ok k : tri wok (in_sites (sc_getSite k)) (fun s g => wok g /\ sok s).
Proof.
  intros g s g' Hg E. split; [eapply (in_sites_ok _ (read_ok _ _ _)); eauto|].
  unfold in_sites, zoom, sc_getSite, read_key in E. destruct (ulookup k (g_sites g)) eqn:El; inversion E; subst. eapply all_look; [apply Hg|exact El].
Qed.
Lemma getCluster_ok k : tri wok (in_clusters (cc_getCluster k)) (fun s g => wok g /\ cok s).
Proof.
  intros g s g' Hg E. split; [eapply (in_clusters_ok _ (read_ok _ _ _)); eauto|].
  unfold in_clusters, zoom, cc_getCluster, read_key in E. destruct (ulookup k (g_clusters g)) eqn:El; inversion E; subst. eapply all_look; [apply Hg|exact El].
Qed.
Lemma scan_ok fav sac : forall iso cids, Forall sok iso -> tri wok (merge_scan fav sac iso cids) (fun x g => wok g /\ Forall sok (fst x)).
Proof.
  induction sac as [|[k c] sac IH]; intros iso cids Hi; cbn [merge_scan].
  - intros g x g' Hg E. inversion E; subst. auto.
  - destruct (c =? fav); [apply IH, Hi|].
    eapply tri_bind with (R := fun l g => wok g /\ Forall sok l).
    { destruct (c =? unassignedId); [|intros g x g' Hg E; inversion E; subst; auto].
      eapply tri_bind; [apply getSite_ok|]. intros s g x g' [Hg Hs] E. inversion E; subst. split; [exact Hg|]. apply Forall_app. auto. }
    intros iso' g x g' [Hg Hi']. revert g x g' Hg.
    match goal with |- forall g x g', _ -> ?m g = _ -> _ => change (tri wok m (fun x g => wok g /\ Forall sok (fst x))) end.
    apply st_bind; [apply in_clusters_ok, read_ok|intros]. apply st_bind; [stay|intros]. apply st_bind; [|intros; apply IH, Hi'].
    apply in_sites_ok. unfold sc_setClusterId. apply at_ok; [stay|]. unfold s_setClusterId. stay.
Qed.
Lemma absorb_ok fuel fav c : stable wok (absorb fuel fav c).
Proof.
  unfold absorb. eapply tri_bind; [apply getCluster_ok|]. intros x g y g' [Hg Hx]. revert g y g' Hg.
  match goal with |- forall g x g', _ -> ?m g = _ -> _ => change (stable wok m) end.
  eapply tri_bind; [apply getCluster_ok|]. intros y g z g' [Hg Hy]. revert g z g' Hg.
  match goal with |- forall g x g', _ -> ?m g = _ -> _ => change (stable wok m) end.
  apply st_bind; [apply st_gets|intros h].
  eapply tri_bind; [apply local_tri with (P := cok2); [apply migrate_ok|split; assumption]|].
  intros p g z g' [Hg [H1 H2]]. revert g z g' Hg.
  match goal with |- forall g x g', _ -> ?m g = _ -> _ => change (stable wok m) end.
  apply st_bind; [apply in_clusters_ok, st_modify; intros; apply all_replace; assumption|intros _].
  apply st_bind; [apply in_clusters_ok, st_modify; intros; apply all_replace; assumption|intros _].
  apply in_clusters_ok. unfold cc_erase. apply st_modify. intros; apply all_remove; assumption.
Qed.
Lemma merge_ok fuel sac fav : stable wok (merge_clusters fuel sac fav).
Proof.
  unfold merge_clusters. eapply tri_bind; [apply scan_ok; constructor|]. intros x g y g' [Hg Hx]. revert g y g' Hg.
  match goal with |- forall g x g', _ -> ?m g = _ -> _ => change (stable wok m) end.
  apply st_bind; [apply st_gets|intros h].
  apply st_bind; [apply in_clusters_ok, at_ok; [stay|apply c_addSites_ok, Hx]|intros _].
  apply st_bind; [apply in_clusters_ok, at_ok; [stay|apply c_update_ok]|intros _].
  apply st_mfor. intros. apply absorb_ok.
Qed.
Lemma clusters_of_ok ids : forall acc, stable wok (clusters_of ids acc).
Proof.
  induction ids as [|k ids IH]; intros acc; cbn [clusters_of]; [stay|].
  apply st_bind; [apply in_sites_ok, read_ok|intros b]. apply st_bind; [destruct b; [apply in_sites_ok, read_ok|stay]|intros; apply IH].
Qed.
Lemma equil_ok ids limit : stable wok (equilibrium ids limit).
Proof. unfold equilibrium. stay. Qed.
Lemma grain_ok fuel k : stable wok (coarse_grain clk fuel k).
Proof.
  unfold coarse_grain. cbv zeta. stay; first [apply tick_ok|apply equil_ok|apply clusters_of_ok|apply create_ok|apply merge_ok].
Qed.
Lemma attempt_ok fuel k : stable wok (hop_attempt clk fuel k).
Proof. unfold hop_attempt. stay. apply grain_ok. Qed.
Lemma getVisits_ok k : stable wok (sys_getVisits k).
Proof.
  unfold sys_getVisits. stay; try apply in_sites_ok, read_ok. apply in_clusters_ok, at_ok; [stay|apply c_visits_ok].
Qed.
End At.

(** ** Arrivals and departures *)
Lemma site_more a d a' d' s : a <= a' -> d <= d' -> site_counts a d s -> site_counts a' d' s.
Proof. unfold site_counts. lia. Qed.
Lemma cluster_more a d a' d' c : a <= a' -> d <= d' -> cluster_counts a d c -> cluster_counts a' d' c.
Proof.
  unfold cluster_counts. intros H1 H2 (A & B & C & D). split; [lia|]. split; [lia|]. split; [lia|].
  intros k s Hs. eapply site_more; [exact H1|exact H2|apply (D k), Hs].
Qed.
Lemma wok_more a d a' d' g : a <= a' -> d <= d' -> wok a d g -> wok a' d' g.
Proof.
  intros H1 H2 [A B]. split; intros k x Hx; [eapply site_more|eapply cluster_more]; eauto.
Qed.
Lemma feature_move {A} a d a' d' k (ms : M site A) mc : a <= a' -> d <= d' ->
  tri (site_counts a d) ms (fun _ => site_counts a' d') -> tri (cluster_counts a d) mc (fun _ => cluster_counts a' d') ->
  tri (wok a d) (on_feature k ms mc) (fun _ => wok a' d').
Proof.
  intros Ha Hd Hs Hc g x g' Hg E. unfold on_feature in E. apply bind_ret_inv in E. destruct E as (f & g1 & E1 & E). inversion E1; subst; clear E1.
  pose proof (wok_more _ _ _ _ _ Ha Hd Hg) as [M1 M2]. destruct Hg as [G1 G2].
  destruct (ulookup k (g_feats g1)) as [[|j|j]|]; try discriminate.
  - unfold in_sites, zoom, at_key in E. destruct (ulookup j (g_sites g1)) as [s|] eqn:El; [|discriminate].
    destruct (ms s) eqn:Em; inversion E; subst. split; [|exact M2]. apply all_replace; [exact M1|]. eapply Hs; [|exact Em]. eapply all_look; eauto.
  - unfold in_clusters, zoom, at_key in E. destruct (ulookup j (g_clusters g1)) as [s|] eqn:El; [|discriminate].
    destruct (mc s) eqn:Em; inversion E; subst. split; [exact M1|]. apply all_replace; [exact M2|]. eapply Hc; [|exact Em]. eapply all_look; eauto.
Qed.
Lemma occupy_move a d k j : 0 <= a -> 0 <= d -> tri (wok a d) (f_occupy k j) (fun _ => wok (a + 1) d).
Proof.
  intros Ha Hd. apply feature_move; [lia|lia| |].
  - intros s x s' Hs E. inversion E; subst. unfold site_counts in *. cbn. lia.
  - intros c x c' Hc E. unfold c_occupy in E. apply bind_ret_inv in E. destruct E as (c1 & c2 & E1 & E). inversion E1; subst; clear E1.
    apply bind_ret_inv in E. destruct E as (y & c3 & E1 & E). destruct (umem j (c_svisits c2)); inversion E1; subst; clear E1.
    destruct (ulookup j (c_sites c3)) as [s|] eqn:El; [|discriminate]. inversion E; subst.
    assert (M : cluster_counts (a + 1) d c3) by (eapply cluster_more; [| |exact Hc]; lia).
    destruct Hc as (H1 & H2 & H3 & H4), M as (M1 & M2 & M3 & M4). split; [cbn; lia|]. split; [cbn; lia|]. split; [cbn; lia|].
    cbn [c_sites c_with_sites]. apply all_set; [exact M4|]. apply ulookup_In in El. specialize (M4 _ _ El). unfold site_counts in *. cbn. lia.
Qed.
Lemma occupy0_move a d k : 0 <= a -> 0 <= d -> tri (wok a d) (f_occupy0 k) (fun _ => wok (a + 1) d).
Proof.
  intros Ha Hd. apply feature_move; [lia|lia| |].
  - intros s x s' Hs E. inversion E; subst. unfold site_counts in *. cbn. lia.
  - intros c x c' Hc E. inversion E; subst. assert (M : cluster_counts (a + 1) d c) by (eapply cluster_more; [| |exact Hc]; lia).
    destruct Hc as (H1 & H2 & H3 & H4), M as (M1 & M2 & M3 & M4). split; [cbn; lia|]. split; [cbn; lia|]. split; [cbn; lia|]. exact M4.
Qed.
Lemma c_vacate_move a d t k : 0 <= a -> 0 <= d -> tri (cluster_counts a d) (c_vacate t k) (fun _ => cluster_counts a (d + 1)).
Proof.
  intros Ha Hd c x c' Hc E. inversion E; subst. assert (M : cluster_counts a (d + 1) c) by (eapply cluster_more; [| |exact Hc]; lia).
  assert (X : site_counts a d (match ulookup k (c_sites c) with Some s => s | None => site_new t end)).
  { destruct (ulookup k (c_sites c)) eqn:El; [apply ulookup_In in El; apply (proj2 (proj2 (proj2 Hc)) _ _ El)|apply sok_new; assumption]. }
  destruct Hc as (H1 & H2 & H3 & H4), M as (M1 & M2 & M3 & M4). split; [cbn; lia|]. split; [cbn; lia|]. split; [cbn; lia|].
  cbn [c_sites c_with_sites c_with_occ]. apply all_set; [exact M4|]. revert X. generalize (match ulookup k (c_sites c) with Some s => s | None => site_new t end).
  intros s. unfold site_counts. cbn. lia.
Qed.
Lemma s_vacate_move a d : tri (site_counts a d) s_vacate (fun _ => site_counts a (d + 1)).
Proof. intros s x s' Hs E. inversion E; subst. unfold site_counts in *. cbn. lia. Qed.
Section Moves.
Variable clk : Z -> Z.
Lemma vacate_move a d k j : 0 <= a -> 0 <= d -> tri (wok a d) (f_vacate clk k j) (fun _ => wok a (d + 1)).
Proof.
  intros Ha Hd. unfold f_vacate. apply st_bind; [apply clock_ok|intros t]. apply feature_move; [lia|lia|apply s_vacate_move|apply c_vacate_move; assumption].
Qed.
Lemma removal_move a d k w j : 0 <= a -> 0 <= d -> tri (wok a d) (f_removeWalker clk k w j) (fun _ => wok a (d + 1)).
Proof.
  intros Ha Hd. unfold f_removeWalker. apply st_bind; [apply clock_ok|intros t]. apply feature_move; [lia|lia|apply s_vacate_move|apply c_vacate_move; assumption].
Qed.
Lemma leave_move a d id p : 0 <= a -> 0 <= d -> tri (wok a d) (sys_removeWalker clk id p) (fun _ => wok a (d + 1)).
Proof. intros Ha Hd. unfold sys_removeWalker. apply st_bind; [apply in_walker_ok|intros k]. apply removal_move; assumption. Qed.
Lemma move_move a d id p src dst : 0 <= a -> 0 <= d -> tri (wok a d) (hop_move clk id p src dst) (fun _ => wok (a + 1) (d + 1)).
Proof.
  intros Ha Hd. unfold hop_move. apply st_bind; [apply isOccupied_ok|intros b]. destruct b.
  all: eapply tri_bind; [apply vacate_move; assumption|intros ?; cbv beta].
  all: eapply tri_bind; [apply occupy_move; lia|intros ?; cbv beta].
  2: apply st_bind; [apply in_walker_ok|intros ?; cbv beta].
  all: apply st_bind; [apply f_dwell_ok|intros t]; apply st_bind; [apply in_walker_ok|intros ?; cbv beta];
       apply st_bind; [apply f_pick_ok|intros n]; apply in_walker_ok.
Qed.
Lemma hop_counts a d fuel id p : 0 <= a -> 0 <= d -> tri (wok a d) (sys_hop clk fuel id p) (fun _ => wok (a + 1) (d + 1)).
Proof.
  intros Ha Hd. unfold sys_hop. apply st_bind; [apply in_walker_ok|intros src]. apply st_bind; [apply in_walker_ok|intros dst].
  eapply tri_bind; [apply move_move; assumption|intros ?; cbv beta]. apply attempt_ok; lia.
Qed.
Lemma enter_loop l : forall a d, 0 <= a -> 0 <= d ->
  tri (wok a d) (mfor l (fun w => init_walker (fst w) (snd w))) (fun _ => wok (a + Z.of_nat (length l)) d).
Proof.
  induction l as [|[id p] l IH]; intros a d Ha Hd; cbn [mfor length fst snd].
  - replace (a + Z.of_nat 0) with a by lia. apply st_ret.
  - apply tri_bind with (R := fun _ => wok (a + 1) d).
    + unfold init_walker. apply st_bind; [apply in_walker_ok|intros k]. apply st_bind; [apply st_gets|intros f]. destruct (umem k f); [|apply st_throw].
      eapply tri_bind; [apply occupy0_move; assumption|intros ?; cbv beta]. apply st_bind; [apply f_dwell_ok|intros t]. apply st_bind; [apply f_pick_ok|intros n].
      apply st_bind; [apply in_walker_ok|intros ?; cbv beta]. apply in_walker_ok.
    + intros _. replace (a + Z.of_nat (S (length l))) with (a + 1 + Z.of_nat (length l)) by lia. apply IH; lia.
Qed.
Lemma enter_move a d l : 0 <= a -> 0 <= d -> tri (wok a d) (sys_initializeWalkers l) (fun _ => wok (a + Z.of_nat (length l)) d).
Proof.
  intros Ha Hd. unfold sys_initializeWalkers. apply st_bind; [apply st_gets|intros [|f fs]]; [apply st_throw|]. apply enter_loop; assumption.
Qed.

(** ** Programs *)
Lemma arrivals_app t1 t2 : arrivals (t1 ++ t2) = arrivals t1 + arrivals t2.
Proof. unfold arrivals. induction t1 as [|c t1 IH]; cbn [app fold_right]; [reflexivity|]. destruct c; rewrite IH; lia. Qed.
Lemma departures_app t1 t2 : departures (t1 ++ t2) = departures t1 + departures t2.
Proof. unfold departures. induction t1 as [|c t1 IH]; cbn [app fold_right]; [reflexivity|]. destruct c; rewrite IH; lia. Qed.
Lemma arrivals_pos tr : 0 <= arrivals tr.
Proof. unfold arrivals. induction tr as [|c tr IH]; cbn [fold_right]; [lia|]. destruct c; lia. Qed.
Lemma departures_pos tr : 0 <= departures tr.
Proof. unfold departures. induction tr as [|c tr IH]; cbn [fold_right]; [lia|]. destruct c; lia. Qed.
Lemma step_counts a d g ws c g' ws' : 0 <= a -> 0 <= d -> step clk g ws c g' ws' -> wok a d g -> wok (a + arrivals [c]) (d + departures [c]) g'.
Proof.
  intros Ha Hd St Hg. assert (K : forall x, arrivals [x] = match x with KEnter l => Z.of_nat (length l) | KHop _ => 1 | _ => 0 end) by (intros []; cbn; lia).
  assert (L : forall x, departures [x] = match x with KLeave _ | KHop _ => 1 | _ => 0 end) by (intros []; cbn; lia).
  rewrite K, L. destruct St; rewrite ?Z.add_0_r.
  - inversion H; subst; exact Hg.
  - unfold sys_setTimeResolution in H. destruct (nleb t n0); inversion H; subst; exact Hg.
  - inversion H; subst; exact Hg.
  - unfold sys_setRandomSeed in H. apply bind_ret_inv in H. destruct H as (f & g1 & E1 & E). inversion E1; subst. destruct (g_feats g1); inversion E; subst; exact Hg.
  - eapply init_ok; eauto.
  - exact Hg.
  - exact Hg.
  - exact Hg.
  - eapply enter_move; [| |exact Hg|exact H4]; assumption.
  - eapply hop_counts; [| |exact Hg|exact H0]; assumption.
  - eapply leave_move; [| |exact Hg|exact H0]; assumption.
  - eapply getVisits_ok; eauto.
Qed.
Lemma steps_counts g ws tr g' ws' : steps clk g ws tr g' ws' -> wok 0 0 g -> wok (arrivals tr) (departures tr) g'.
Proof.
  induction 1 as [|tr g1 ws1 c g2 ws2 H IH St]; intros Hg; [exact Hg|].
  rewrite arrivals_app, departures_app. eapply step_counts; [apply arrivals_pos|apply departures_pos|exact St|apply IH, Hg].
Qed.
(** ** Ids of clusters *)
Section Ids.
Variable n : Z.
Definition upto (g : world) : Prop := g_count g <= n.
Ltac same := let H := fresh in intros ? H; exact H.
Ltac stay :=
  repeat match goal with
    | |- tri _ (bind _ _) _ => apply st_bind; [|intros]
    | |- stable _ (bind _ _) => apply st_bind; [|intros]
    | |- stable _ (ret _) => apply st_ret
    | |- tri _ (ret _) (fun _ => _) => apply st_ret
    | |- stable _ (gets _) => apply st_gets
    | |- tri _ (gets _) (fun _ => _) => apply st_gets
    | |- stable _ (throw _) => apply st_throw
    | |- tri _ (throw _) _ => apply st_throw
    | |- stable _ (stop _) => apply st_stop
    | |- tri _ (stop _) _ => apply st_stop
    | |- stable _ (lift _) => apply st_lift
    | |- tri _ (lift _) (fun _ => _) => apply st_lift
    | |- stable _ (cassert _) => apply st_assert
    | |- tri _ (cassert _) (fun _ => _) => apply st_assert
    | |- stable _ (modify _) => apply st_modify; same
    | |- tri _ (modify _) (fun _ => _) => apply st_modify; same
    | |- stable _ (mfor _ _) => apply st_mfor; intros
    | |- tri _ (mfor _ _) (fun _ => _) => apply st_mfor; intros
    | |- stable _ (match ?x with _ => _ end) => destruct x
    | |- tri _ (match ?x with _ => _ end) _ => destruct x
    end.
Lemma up_sites {A} (m : M _ A) : stable upto (in_sites m).
Proof. intros g x g' Hg E. unfold in_sites, zoom in E. destruct (m (g_sites g)); inversion E; subst. exact Hg. Qed.
Lemma up_clusters {A} (m : M _ A) : stable upto (in_clusters m).
Proof. intros g x g' Hg E. unfold in_clusters, zoom in E. destruct (m (g_clusters g)); inversion E; subst. exact Hg. Qed.
Lemma up_walker {A} p (m : M _ A) : stable upto (in_walker p m).
Proof. intros g x g' Hg E. unfold in_walker, zoom in E. destruct (at_key _ _ _ (g_walkers g)); inversion E; subst. exact Hg. Qed.
Lemma up_local {S A} (m : M S A) s : stable upto (local m s).
Proof. intros g [x y] g' Hg E. apply local_ret in E. destruct E as [-> _]. exact Hg. Qed.
Lemma up_tick : stable upto next_tick.
Proof. intros g x g' Hg E. inversion E; subst. exact Hg. Qed.
Lemma up_clock : stable upto (read_clock clk).
Proof. intros g x g' Hg E. inversion E; subst. exact Hg. Qed.
Lemma up_seed : stable upto use_seed.
Proof. intros g x g' Hg E. unfold use_seed in E. destruct (g_seed g); inversion E; subst; exact Hg. Qed.
Ltac up := stay; repeat first [apply up_sites|apply up_clusters|apply up_walker|apply up_local|apply up_tick|apply up_clock|apply up_seed].
Lemma up_feature {A} k (ms : M site A) mc : stable upto (on_feature k ms mc).
Proof. unfold on_feature. up. Qed.
Lemma up_copy ids : stable upto (copy_sites ids).
Proof. induction ids as [|k ids IH]; cbn [copy_sites]; up. exact IH. Qed.
Lemma up_init rates : stable upto (sys_initializeSystem clk rates).
Proof. unfold sys_initializeSystem, init_site, init_drain. up. Qed.
Lemma up_scan fav sac : forall iso cids, stable upto (merge_scan fav sac iso cids).
Proof. induction sac as [|[k c] sac IH]; intros iso cids; cbn [merge_scan]; up; apply IH. Qed.
Lemma up_merge fuel sac fav : stable upto (merge_clusters fuel sac fav).
Proof. unfold merge_clusters, absorb. up. apply up_scan. Qed.
Lemma up_of ids : forall acc, stable upto (clusters_of ids acc).
Proof. induction ids as [|k ids IH]; intros acc; cbn [clusters_of]; up; apply IH. Qed.
Lemma up_equil ids limit : stable upto (equilibrium ids limit).
Proof. unfold equilibrium. up. Qed.
Lemma up_enter l : stable upto (sys_initializeWalkers l).
Proof. unfold sys_initializeWalkers, init_walker. up; apply up_feature. Qed.
Lemma up_leave id p : stable upto (sys_removeWalker clk id p).
Proof. unfold sys_removeWalker, f_removeWalker. up. apply up_feature. Qed.
Lemma up_visits k : stable upto (sys_getVisits k).
Proof. unfold sys_getVisits. up. Qed.
Lemma up_move id p src dst : stable upto (hop_move clk id p src dst).
Proof. unfold hop_move, f_vacate. up; apply up_feature. Qed.
End Ids.
Lemma up_more n m g : n <= m -> upto n g -> upto m g.
Proof. unfold upto. lia. Qed.
Lemma up_new n : tri (upto n) (new_cluster clk) (fun _ => upto (n + 1)).
Proof. intros g c g' Hg E. inversion E; subst. unfold upto in *. cbn. lia. Qed.
Ltac up := repeat first [apply up_sites|apply up_clusters|apply up_walker|apply up_local|apply up_tick|apply up_clock|apply up_seed|apply st_gets].
Lemma up_create n fuel ids limit : tri (upto n) (create_cluster clk fuel ids limit) (fun _ => upto (n + 2)).
Proof.
  unfold create_cluster. eapply tri_bind; [apply up_new|]. intros c0. cbv beta. apply st_bind; [apply up_copy|intros l].
  apply st_bind; [up|intros h]. apply st_bind; [up|intros c1]. apply st_bind; [up|intros [t|]]; [|apply st_stop].
  apply st_bind; [up|intros c2]. apply st_bind; [up|intros s]. apply st_bind; [up|intros c3]. apply st_bind; [up|intros ?].
  eapply tri_bind; [apply up_new|]. intros c4. cbv beta. replace (n + 1 + 1) with (n + 2) by lia. apply st_mfor. intros k. apply st_bind; [up|intros ?].
  apply st_modify. intros ? H; exact H.
Qed.
Lemma tri_up {A} n m (x : M world A) : n <= m -> stable (upto n) x -> tri (upto n) x (fun _ => upto m).
Proof. intros H. apply tri_weak. intros _ s. apply up_more, H. Qed.
Lemma up_grain n fuel k : tri (upto n) (coarse_grain clk fuel k) (fun _ => upto (n + 2)).
Proof.
  assert (T : forall A (x : A), tri (upto n) (ret x) (fun _ => upto (n + 2))) by (intros; apply tri_up; [lia|apply st_ret]).
  unfold coarse_grain. cbv zeta.
  repeat match goal with
    | |- tri _ (bind (create_cluster _ _ _ _) _) _ => eapply tri_bind; [apply up_create|intros ? ? ? ? ? E; inversion E; subst; assumption]
    | |- tri _ (bind (merge_clusters _ _ _) _) _ => apply st_bind; [apply up_merge|intros]
    | |- tri _ (bind _ _) _ => apply st_bind; [|intros]
    | |- tri _ (ret _) _ => apply T
    | |- tri _ (throw _) _ => apply st_throw
    | |- tri _ (stop _) _ => apply st_stop
    | |- tri _ (match ?x with _ => _ end) _ => destruct x
    | |- tri _ (create_cluster _ _ _ _) _ => apply up_create
    | |- tri _ (merge_clusters _ _ _) _ => apply tri_up; [lia|apply up_merge]
    | |- stable _ (lift _) => apply st_lift
    | |- stable _ (cassert _) => apply st_assert
    | |- stable _ (modify _) => apply st_modify; let H := fresh in intros ? H; exact H
    | |- stable _ _ => first [apply up_tick|apply up_equil|apply up_of|apply st_gets|apply st_ret]
    end.
Qed.
Lemma up_hop n fuel id p : tri (upto n) (sys_hop clk fuel id p) (fun _ => upto (n + 2)).
Proof.
  unfold sys_hop. apply st_bind; [up|intros src]. apply st_bind; [up|intros dst]. apply st_bind; [apply up_move|intros ?].
  unfold hop_attempt. apply st_bind; [up|intros i]. apply st_bind; [apply st_lift|intros i'].
  apply st_bind; [apply st_modify; intros ? H; exact H|intros ?]. apply st_bind; [up|intros t].
  destruct (t <? i'); [|apply tri_up; [lia|apply st_ret]]. apply st_bind; [up|intros m].
  apply tri_bind with (R := fun _ => upto (n + 2)); [|intros ?; apply st_modify; intros ? H; exact H].
  destruct (negb (m =? inf_iterations)); [|apply tri_up; [lia|apply st_ret]].
  eapply tri_bind; [apply up_grain|]. intros b. cbv beta. destruct b; [apply st_modify; intros ? H; exact H|].
  apply st_bind; [up|intros ?]. apply st_bind; [apply st_lift|intros ?]. apply st_modify; intros ? H; exact H.
Qed.
Lemma step_ids n g ws c g' ws' : step clk g ws c g' ws' -> c <> KElsewhere -> upto n g -> upto (n + 2 * hops [c]) g'.
Proof.
  intros St Hc Hg. destruct St; cbn [hops filter is_hop length Z.of_nat]; rewrite ?Z.mul_0_r, ?Z.add_0_r.
  - inversion H; subst; exact Hg.
  - unfold sys_setTimeResolution in H. destruct (nleb t n0); inversion H; subst; exact Hg.
  - inversion H; subst; exact Hg.
  - unfold sys_setRandomSeed in H. apply bind_ret_inv in H. destruct H as (f & g1 & E1 & E). inversion E1; subst. destruct (g_feats g1); inversion E; subst; exact Hg.
  - eapply up_init; eauto.
  - exact Hg.
  - exact Hg.
  - contradiction.
  - eapply up_enter; eauto.
  - eapply up_hop; eauto.
  - eapply up_leave; eauto.
  - eapply up_visits; eauto.
Qed.
Lemma hops_more t1 t2 : hops (t1 ++ t2) = hops t1 + hops t2.
Proof. unfold hops. rewrite filter_app, app_length. lia. Qed.
Lemma steps_ids g ws tr g' ws' : steps clk g ws tr g' ws' -> only_here tr -> g_count g' <= g_count g + 2 * hops tr.
Proof.
  induction 1 as [|tr g1 ws1 c g2 ws2 H IH St]; intros Ho; [cbn; lia|].
  rewrite hops_more. assert (X : upto (g_count g1 + 2 * hops [c]) g2).
  { eapply step_ids; [exact St|apply Ho, in_or_app; right; left; reflexivity|unfold upto; lia]. }
  unfold upto in X. assert (Y : only_here tr) by (intros x Hx; apply Ho, in_or_app; left; exact Hx). specialize (IH Y). lia.
Qed.
Lemma reach_counts tr g ws : reach_by clk tr g ws -> counts_within (arrivals tr) (departures tr) g.
Proof.
  intros (w & h & n & t & _ & _ & H). eapply steps_counts in H; [exact H|]. split; intros k x [].
Qed.
End Moves.
End Counters.
