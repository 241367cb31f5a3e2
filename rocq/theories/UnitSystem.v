(** * Systems in another unit of time *)
From Coq Require Import ZArith List Bool Reals Lra Lia.
From Verif Require Import Base BaseProofs Num WalkerModel SiteModel SiteProofs ClusterModel ClusterFrame
  ContainerModel BasinModel SystemModel SystemSpec SystemRuns SystemQuery QuerySpec UnitSpec UnitNum UnitCluster UnitUpdate UnitMerge UnitBasin.
Import ListNotations.
Open Scope Z_scope.

Section Unit.
Context {I : Impl} {N : Num} {G : @Rng N}.
Variables U U' : @Ugly N.
Hypothesis K : keys_only.
Variable c : lawful N.
Hypothesis HU : same_choices c U U'.
Variable clk : Z -> Z.
Notation rt := (rt c).
Notation tm := (tm c).
Notation su := (su c).
Notation crel := (crel c).
Notation loose := (loose c).
Notation eachc := (eachc c).
Notation timed := (timed c).

Definition wu (w : walker) : walker := mkWalker (w_cur w) (w_pot w) (tm (w_dwell w)).
Definition nheap (h : heap) : heap := fun a => rt (h a).
(** the world in the new unit, with the clusters [m] *)
Definition nw (m : umap cluster) (g : @world N G) : world :=
  mkWorld (g_perf g) (g_seed g) (option_map tm (g_res g)) (g_iter g) (g_thr g) (g_thrmin g) (g_feats g) (vmap su (g_sites g)) m
    (vmap wu (g_walkers g)) (nheap (g_heap g)) (g_count g) (g_tick g).
Definition wrel (g g' : world) : Prop := exists m, g' = nw m g /\ eachc (g_clusters g) m.
(** a cluster whose time constant could not be set *)
Definition wbad (g : world) : Prop := exists e, In e (g_clusters g) /\ c_tau (snd e) = @ndblmin N.
Definition wrelE (g g' : world) : Prop := wrel g g' \/ wbad g.

Ltac wf := cbn [nw g_perf g_seed g_res g_iter g_thr g_thrmin g_feats g_sites g_clusters g_walkers g_heap g_count g_tick].
Ltac done_w := eexists; (split; [unfold nw; wf; reflexivity|]); wf; try assumption.

Lemma eachc_keys m m' : eachc m m' -> ukeys m = ukeys m'.
Proof. induction 1 as [|? ? ? ? [? ?]]; cbn; [reflexivity|]. f_equal; assumption. Qed.
Lemma eachc_replace k d d' m m' : eachc m m' -> crel d d' -> eachc (ureplace k d m) (ureplace k d' m').
Proof.
  intros H Hd. induction H as [|[a x] [b y] m m' [E1 E2] H IH]; [constructor|]. cbn in E1, E2. subst b. cbn [ureplace].
  destruct (k =? a); constructor; auto.
Qed.
Lemma eachc_remove k m m' : eachc m m' -> eachc (uremove k m) (uremove k m').
Proof.
  intros H. induction H as [|[a x] [b y] m m' [E1 E2] H IH]; [constructor|]. cbn in E1, E2. subst b. cbn [uremove].
  destruct (k =? a); [assumption|constructor; auto].
Qed.
Lemma eachc_pairs m m' : eachc m m' -> exists w : umap (cluster * cluster), m = vmap fst w /\ m' = vmap snd w /\ Forall (fun e => crel (fst (snd e)) (snd (snd e))) w.
Proof.
  induction 1 as [|[a x] [b y] m m' [E1 E2] H (w & -> & -> & Hw)]; [exists []; repeat constructor|].
  cbn in E1, E2. subst b. exists ((a, (x, y)) :: w). repeat constructor; assumption.
Qed.
Lemma pairs_eachc (w : umap (cluster * cluster)) : Forall (fun e => crel (fst (snd e)) (snd (snd e))) w -> eachc (vmap fst w) (vmap snd w).
Proof. induction 1; constructor; auto. Qed.
Lemma eachc_set k d d' m m' : eachc m m' -> crel d d' -> eachc (uset m k d) (uset m' k d').
Proof.
  intros H Hd. unfold uset. rewrite (umem_keys _ _ k (eachc_keys _ _ H)). destruct (umem k m'); [apply eachc_replace; assumption|].
  destruct (eachc_pairs _ _ H) as (w & -> & -> & Hw). change d with (fst (d, d')) at 1. change d' with (snd (d, d')) at 2.
  rewrite !K. apply pairs_eachc. rewrite Forall_forall in *. intros e He.
  apply (Permutation.Permutation_in _ (hplace_perm _ w k (d, d'))) in He. destruct He as [<-|He]; [exact Hd|apply Hw, He].
Qed.

(** ** Plumbing *)
Lemma y_clusters {A B} (Q : A -> B -> Prop) m m' : agr eachc eachc Q m m' -> agr wrel wrel Q (in_clusters m) (in_clusters m').
Proof.
  intros H g g' x t x' t' (n & -> & Hn) E E'. unfold in_clusters, zoom in *. revert E'. wf. intros E'.
  destruct (m (g_clusters g)) eqn:E1; inversion E; subst. destruct (m' n) eqn:E2; inversion E'; subst.
  destruct (H _ _ _ _ _ _ Hn E1 E2) as [Hq He]. split; [exact Hq|]. unfold g_with_clusters. wf. done_w.
Qed.
Lemma y_at {A B} (Q : A -> B -> Prop) k d d' m m' : (forall s, match d s with Ret _ _ => False | _ => True end) ->
  agr crel crel Q m m' -> agr eachc eachc Q (at_key k d m) (at_key k d' m').
Proof.
  intros Hd H n n' x t x' t' Hn E E'. unfold at_key in *. pose proof (eachc_lookup c k _ _ Hn) as L. specialize (Hd n).
  destruct (ulookup k n) as [e|]; [|rewrite E in Hd; destruct Hd].
  destruct (ulookup k n') as [e'|]; [|destruct L].
  destruct (m e) eqn:E1; inversion E; subst. destruct (m' e') eqn:E2; inversion E'; subst.
  destruct (H _ _ _ _ _ _ L E1 E2). split; [assumption|]. apply eachc_replace; assumption.
Qed.
Lemma y_atT {A B} (Q : A -> B -> Prop) k e m m' : agr crel crel Q m m' -> agr eachc eachc Q (at_key k (throw e) m) (at_key k (throw e) m').
Proof. apply y_at. intros s. exact Logic.I. Qed.
Lemma y_atH {A B} (Q : A -> B -> Prop) k e m m' : agr crel crel Q m m' -> agr eachc eachc Q (at_key k (stop e) m) (at_key k (stop e) m').
Proof. apply y_at. intros s. exact Logic.I. Qed.
Definition sites_rel (m m' : umap site) : Prop := m' = vmap su m.
Lemma y_sites {A B} (Q : A -> B -> Prop) m m' : agr sites_rel sites_rel Q m m' -> agr wrel wrel Q (in_sites m) (in_sites m').
Proof.
  intros H g g' x t x' t' (n & -> & Hn) E E'. unfold in_sites, zoom in *. revert E'. wf. intros E'.
  destruct (m (g_sites g)) eqn:E1; inversion E; subst. destruct (m' (vmap su (g_sites g))) eqn:E2; inversion E'; subst.
  destruct (H _ _ _ _ _ _ eq_refl E1 E2) as [Hq ->]. split; [exact Hq|]. unfold g_with_sites. wf. done_w.
Qed.
Lemma y_site_at {A B} (Q : A -> B -> Prop) k d d' m m' : (forall s, match d s with Ret _ _ => False | _ => True end) ->
  agr (srel c) (srel c) Q m m' -> agr sites_rel sites_rel Q (at_key k d m) (at_key k d' m').
Proof.
  intros Hd H n n' x t x' t' -> E E'. unfold at_key in *. specialize (Hd n). rewrite vm_lookup in E'.
  destruct (ulookup k n) as [e|]; [|rewrite E in Hd; destruct Hd]. cbn [option_map] in E'.
  destruct (m e) eqn:E1; inversion E; subst. destruct (m' (su e)) eqn:E2; inversion E'; subst.
  destruct (H _ _ _ _ _ _ eq_refl E1 E2) as [Hq ->]. split; [exact Hq|]. unfold sites_rel. apply vm_replace.
Qed.
Lemma y_site_read {A B} (Q : A -> B -> Prop) k f f' : (forall s a b, f s = Ok a -> f' (su s) = Ok b -> Q a b) ->
  agr sites_rel sites_rel Q (read_key k f) (read_key k f').
Proof.
  intros H n n' x t x' t' -> E E'. unfold read_key in *. rewrite vm_lookup in E'. destruct (ulookup k n) as [e|]; [|discriminate].
  cbn [option_map] in E'. unfold lift in E, E'. destruct (f e) eqn:E1; inversion E; subst. destruct (f' (su e)) eqn:E2; inversion E'; subst.
  split; [eapply H; eauto|reflexivity].
Qed.
Definition walker_rel (w w' : walker) : Prop := w' = wu w.
Lemma y_walker {A B} (Q : A -> B -> Prop) p m m' : agr walker_rel walker_rel Q m m' -> agr wrel wrel Q (in_walker p m) (in_walker p m').
Proof.
  intros H g g' x t x' t' (n & -> & Hn) E E'. unfold in_walker, zoom, at_key in *. revert E'. wf. intros E'. rewrite vm_lookup in E'.
  destruct (ulookup p (g_walkers g)) as [w|]; [|discriminate]. cbn [option_map] in E'.
  destruct (m w) eqn:E1; inversion E; subst. destruct (m' (wu w)) eqn:E2; inversion E'; subst.
  destruct (H _ _ _ _ _ _ eq_refl E1 E2) as [Hq ->]. split; [exact Hq|]. rewrite vm_replace. unfold g_with_walkers. wf. done_w.
Qed.
Lemma y_local {S A B} (R R' : S -> S -> Prop) (Q : A -> B -> Prop) m m' s s' : agr R R' Q m m' -> R s s' ->
  agr wrel wrel (fun x y => Q (fst x) (fst y) /\ R' (snd x) (snd y)) (local m s) (local m' s').
Proof.
  intros H Hs g g' x t x' t' Hg E E'. unfold local in *. destruct (m s) eqn:E1; inversion E; subst. destruct (m' s') eqn:E2; inversion E'; subst.
  split; [exact (H _ _ _ _ _ _ Hs E1 E2)|exact Hg].
Qed.
Lemma y_mod v v' : (forall m g, eachc (g_clusters g) m -> exists m', v' (nw m g) = nw m' (v g) /\ eachc (g_clusters (v g)) m') ->
  agr wrel wrel (@eq unit) (modify v) (modify v').
Proof. intros H. apply agree_modify with (R := wrel). intros g g' (m & -> & Hm). destruct (H m g Hm) as (m' & -> & Hm'). exists m'. auto. Qed.
Lemma y_gets {A} (v : world -> A) v' : (forall m g, v' (nw m g) = v g) -> agr wrel wrel eq (gets v) (gets v').
Proof. intros H. apply agree_gets with (R := wrel). intros g g' (m & -> & _). symmetry. apply H. Qed.
Lemma y_ret {A B} (Q : A -> B -> Prop) a b : Q a b -> agr wrel wrel Q (ret a) (ret b).
Proof. apply agree_ret with (R := wrel). Qed.
Lemma y_stop {A B} (R R' : world -> world -> Prop) (Q : A -> B -> Prop) e m : agr R R' Q (stop e) m.
Proof. intros s s' x t x' t' Hs E E'. discriminate. Qed.
Lemma y_throw {A B} (R R' : world -> world -> Prop) (Q : A -> B -> Prop) e m : agr R R' Q (throw e) m.
Proof. intros s s' x t x' t' Hs E E'. discriminate. Qed.
Lemma y_lift {A} (r : res A) : agr wrel wrel eq (lift r) (lift r).
Proof. apply agree_lift with (R := wrel). Qed.

Lemma y_tick : agr wrel wrel eq next_tick next_tick.
Proof.
  intros g g' x t x' t' (n & -> & Hn) E E'. inversion E; inversion E'; subst. split; [reflexivity|]. unfold g_with_tick. wf. done_w.
Qed.
Lemma y_clock : agr wrel wrel eq (read_clock clk) (read_clock clk).
Proof. unfold read_clock. eapply agr_eq; [apply y_tick|intros]. apply y_ret. reflexivity. Qed.
Lemma y_useseed : agr wrel wrel eq use_seed use_seed.
Proof.
  intros g g' x t x' t' (n & -> & Hn) E E'. unfold use_seed in *. revert E'. wf. intros E'.
  destruct (g_seed g); inversion E; inversion E'; subst; (split; [reflexivity|]); unfold g_with_seed; wf; done_w.
Qed.
Lemma y_feats k v : agr wrel wrel eq (modify (fun g => g_with_feats (uset (g_feats g) k v) g)) (modify (fun g => g_with_feats (uset (g_feats g) k v) g)).
Proof. apply y_mod. intros m g Hm. unfold g_with_feats. wf. done_w. Qed.
Lemma y_new : agr wrel wrel (fun x y => y = x /\ loose x x) (new_cluster clk) (new_cluster clk).
Proof.
  unfold new_cluster. eapply agr_bind; [apply y_clock|intros t ? <-]. eapply agr_bind; [apply y_gets; reflexivity|intros i ? <-].
  eapply agr_bind; [apply y_mod; intros m g Hm; unfold g_with_count; wf; done_w|intros _ _ _].
  apply y_ret. split; [reflexivity|apply loose_new].
Qed.
Lemma y_feature {A B} (Q : A -> B -> Prop) k ms ms' mc mc' : agr (srel c) (srel c) Q ms ms' -> agr crel crel Q mc mc' -> agr wrel wrel Q (on_feature k ms mc) (on_feature k ms' mc').
Proof.
  intros H1 H2. unfold on_feature. eapply agr_bind; [apply y_gets; reflexivity|intros f ? <-].
  destruct f as [[|j|j]|]; try apply y_stop; [apply y_sites, y_site_at; [intros; exact Logic.I|exact H1]|apply y_clusters, y_atH, H2].
Qed.

(** ** Settings *)
Lemma y_perf p : agr wrel wrel eq (sys_setPerformanceRatio p) (sys_setPerformanceRatio p).
Proof. apply y_mod. intros m g Hm. unfold g_with_perf. wf. done_w. Qed.
Lemma y_res t : agr wrel wrel eq (sys_setTimeResolution t) (sys_setTimeResolution (tm t)).
Proof.
  unfold sys_setTimeResolution. rewrite (m_leb0 c). destruct (nleb t n0); [apply y_throw|].
  apply y_mod. intros m g Hm. unfold g_with_res. wf. done_w.
Qed.
Lemma y_thr t : agr wrel wrel eq (sys_setThreshold t) (sys_setThreshold t).
Proof. apply y_mod. intros m g Hm. unfold g_with_thr, g_with_thrmin. wf. done_w. Qed.
Lemma y_seed s : agr wrel wrel eq (sys_setRandomSeed s) (sys_setRandomSeed s).
Proof.
  unfold sys_setRandomSeed. eapply agr_eq; [apply y_gets; reflexivity|intros f]. destruct f; [|apply y_throw].
  apply y_mod. intros m g Hm. unfold g_with_seed. wf. done_w.
Qed.
Lemma y_heap h : agr wrel wrel eq (modify (g_with_heap h)) (modify (g_with_heap (nheap h))).
Proof. apply y_mod. intros m g Hm. unfold g_with_heap. wf. done_w. Qed.

(** ** Sites *)
Lemma y_addSite s : agr sites_rel sites_rel eq (sc_addSite s) (sc_addSite (su s)).
Proof.
  intros m m' x t x' t' -> E E'. unfold sc_addSite, bind, lift, gets in E, E'. change (s_getId (su s)) with (s_getId s) in E'.
  destruct (s_getId s) as [i| |]; try discriminate. rewrite vm_mem in E'. destruct (umem i m); [discriminate|].
  unfold modify in E, E'. inversion E; inversion E'; subst. split; [reflexivity|]. unfold sites_rel. apply (vm_set K).
Qed.
Lemma y_get_heap {B B'} (P : B -> B' -> Prop) (R2 : world -> world -> Prop) k k' :
  (forall h, agr wrel R2 P (k h) (k' (nheap h))) -> agr wrel R2 P (bind (gets g_heap) k) (bind (gets g_heap) k').
Proof.
  intros H. eapply agr_bind; [apply agree_gets with (R := wrel) (Q := fun h h' => h' = nheap h); intros g g' (m & -> & _); reflexivity|].
  intros h ? ->. apply H.
Qed.
Lemma y_init_site k rates : agr wrel wrel eq (init_site clk k rates) (init_site clk k rates).
Proof.
  unfold init_site. eapply agr_eq; [apply y_clock|intros t]. apply y_get_heap. intros h.
  eapply agr_bind; [apply y_local with (R := srel c) (R' := srel c) (Q := eq)|].
  { eapply agr_eq; [apply u_setId|intros _]. apply u_setRates; [reflexivity]. }
  { unfold srel. rewrite (su_new c). reflexivity. }
  intros s s' [_ Es]. rewrite Es. eapply agr_eq; [apply y_useseed|intros seed].
  eapply agr_bind; [apply y_local with (R := srel c) (R' := srel c) (Q := eq); [|reflexivity]|].
  { destruct seed; [apply u_s_seed|apply agree_ret with (R := srel c); reflexivity]. }
  intros q q' [_ Eq]. rewrite Eq. eapply agr_eq; [apply y_sites, y_addSite|intros _]. apply y_feats.
Qed.
Lemma y_init_drain k : agr wrel wrel eq (init_drain clk k) (init_drain clk k).
Proof.
  unfold init_drain. eapply agr_eq; [apply y_clock|intros t].
  eapply agr_bind; [apply y_local with (R := srel c) (R' := srel c) (Q := eq); [apply u_setId|]|].
  { unfold srel. rewrite (su_new c). reflexivity. }
  intros s s' [_ Es]. rewrite Es. eapply agr_eq; [apply y_sites, y_addSite|intros _]. apply y_feats.
Qed.
Lemma y_mfor {A} (l : list A) b b' : (forall x, agr wrel wrel eq (b x) (b' x)) -> agr wrel wrel eq (mfor l b) (mfor l b').
Proof. intros H. apply agree_mfor_eq. exact H. Qed.
Lemma y_init rates : agr wrel wrel eq (sys_initializeSystem clk rates) (sys_initializeSystem clk rates).
Proof.
  unfold sys_initializeSystem. eapply agr_bind; [apply agree_gets with (R := wrel) (Q := fun x y => y = option_map tm x); intros g g' (m & -> & _); reflexivity|].
  intros r ? ->. destruct r; cbn [option_map]; [|apply y_throw].
  eapply agr_eq; [apply y_mfor; intros; apply y_init_site|intros _]. apply y_mfor. intros. apply y_init_drain.
Qed.

(** ** Walkers *)
Lemma y_w_site p : agr wrel wrel eq (in_walker p w_getSite) (in_walker p w_getSite).
Proof.
  apply y_walker. intros w w' x t x' t' -> E E'. unfold w_getSite in *. cbn [wu w_cur] in E'.
  destruct (w_cur w =? unassignedId); inversion E; inversion E'; subst. split; reflexivity.
Qed.
Lemma y_w_pot p : agr wrel wrel eq (in_walker p w_getPotentialSite) (in_walker p w_getPotentialSite).
Proof.
  apply y_walker. intros w w' x t x' t' -> E E'. unfold w_getPotentialSite in *. cbn [wu w_pot] in E'.
  destruct (w_pot w =? unassignedId); inversion E; inversion E'; subst. split; reflexivity.
Qed.
Lemma y_w_setpot p k : agr wrel wrel eq (in_walker p (w_setPotentialSite k)) (in_walker p (w_setPotentialSite k)).
Proof. apply y_walker, agree_modify with (R := walker_rel). intros w w' ->. reflexivity. Qed.
Lemma y_w_occupy p k : agr wrel wrel eq (in_walker p (w_occupySite k)) (in_walker p (w_occupySite k)).
Proof. apply y_walker, agree_modify with (R := walker_rel). intros w w' ->. reflexivity. Qed.
Lemma y_w_dwell p t : agr wrel wrel eq (in_walker p (w_setDwellTime t)) (in_walker p (w_setDwellTime (tm t))).
Proof. apply y_walker, agree_modify with (R := walker_rel). intros w w' ->. reflexivity. Qed.
Lemma y_f_dwell k w : agr wrel wrel timed (f_getDwellTime k w) (f_getDwellTime k w).
Proof. apply y_feature; [apply u_s_dwell|apply cu_dwell; exact K]. Qed.
Lemma y_f_pick k w : agr wrel wrel eq (f_pick k w) (f_pick k w).
Proof. apply y_feature; [apply u_s_pick|apply cu_pick]. Qed.
Lemma y_f_occupy k j : agr wrel wrel eq (f_occupy k j) (f_occupy k j).
Proof. apply y_feature; [apply u_s_occupy|apply cu_occupy, K]. Qed.
Lemma y_f_occupy0 k : agr wrel wrel eq (f_occupy0 k) (f_occupy0 k).
Proof. apply y_feature; [apply u_s_occupy|apply cu_occupy0]. Qed.
Lemma y_f_vacate k j : agr wrel wrel eq (f_vacate clk k j) (f_vacate clk k j).
Proof. unfold f_vacate. eapply agr_eq; [apply y_clock|intros t]. apply y_feature; [apply u_s_vacate|apply cu_vacate, K]. Qed.
Lemma y_f_occupied k j : agr wrel wrel eq (f_isOccupied k j) (f_isOccupied k j).
Proof. apply y_feature; [apply agree_gets with (R := srel c); intros s s' ->; reflexivity|apply cu_occupied]. Qed.
Lemma y_leave id p : agr wrel wrel eq (sys_removeWalker clk id p) (sys_removeWalker clk id p).
Proof.
  unfold sys_removeWalker, f_removeWalker. eapply agr_eq; [apply y_w_site|intros k]. eapply agr_eq; [apply y_clock|intros t].
  apply y_feature; [apply u_s_vacate|apply cu_vacate, K].
Qed.
Lemma y_enter l : agr wrel wrel eq (sys_initializeWalkers l) (sys_initializeWalkers l).
Proof.
  unfold sys_initializeWalkers. eapply agr_eq; [apply y_gets; reflexivity|intros f]. destruct f; [apply y_throw|].
  apply y_mfor. intros [id p']. unfold init_walker. cbn [fst snd]. eapply agr_eq; [apply y_w_site|intros k].
  eapply agr_eq; [apply y_gets; reflexivity|intros f']. destruct (umem k f'); [|apply y_throw].
  eapply agr_eq; [apply y_f_occupy0|intros _]. eapply agr_bind; [apply y_f_dwell|]. intros t ? ->.
  eapply agr_eq; [apply y_f_pick|intros n]. eapply agr_eq; [apply y_w_dwell|intros _]. apply y_w_setpot.
Qed.
Lemma y_move id p src dst : agr wrel wrel eq (hop_move clk id p src dst) (hop_move clk id p src dst).
Proof.
  unfold hop_move. eapply agr_eq; [apply y_f_occupied|intros b]. destruct b.
  - eapply agr_eq; [apply y_f_vacate|intros _]. eapply agr_eq; [apply y_f_occupy|intros _].
    eapply agr_bind; [apply y_f_dwell|]. intros t ? ->. eapply agr_eq; [apply y_w_dwell|intros _].
    eapply agr_eq; [apply y_f_pick|intros n]. apply y_w_setpot.
  - eapply agr_eq; [apply y_f_vacate|intros _]. eapply agr_eq; [apply y_f_occupy|intros _]. eapply agr_eq; [apply y_w_occupy|intros _].
    eapply agr_bind; [apply y_f_dwell|]. intros t ? ->. eapply agr_eq; [apply y_w_dwell|intros _].
    eapply agr_eq; [apply y_f_pick|intros n]. apply y_w_setpot.
Qed.

(** ** Coarse graining *)
Lemma y_part k : agr wrel wrel eq (in_sites (sc_partOfCluster k)) (in_sites (sc_partOfCluster k)).
Proof. apply y_sites, y_site_read. intros s a b E E'. inversion E; inversion E'; subst. reflexivity. Qed.
Lemma y_cid k : agr wrel wrel eq (in_sites (sc_getClusterId k)) (in_sites (sc_getClusterId k)).
Proof. apply y_sites, y_site_read. intros s a b E E'. inversion E; inversion E'; subst. reflexivity. Qed.
Lemma y_site k : agr wrel wrel (srel c) (in_sites (sc_getSite k)) (in_sites (sc_getSite k)).
Proof. apply y_sites, y_site_read. intros s a b E E'. inversion E; inversion E'; subst. reflexivity. Qed.
Lemma y_setcid k i : agr wrel wrel eq (in_sites (sc_setClusterId k i)) (in_sites (sc_setClusterId k i)).
Proof. apply y_sites, y_site_at; [intros; exact Logic.I|apply u_s_cluster]. Qed.
Lemma y_equil ids limit : agr wrel wrel eq (equilibrium ids limit) (equilibrium ids (tm limit)).
Proof.
  unfold equilibrium. eapply agr_bind; [apply agree_gets with (R := wrel) (Q := wrel); auto|]. intros g g' (m & -> & Hm). wf.
  eapply agr_bind with (R1 := wrel) (Q := timed).
  { intros x x' a y a' y' Hx E E'. unfold nheap in E'.
    rewrite (b_exit_time c (g_heap g) _ (fun a => eq_refl)) in E'.
    destruct (exit_time (g_heap g) (g_sites g) ids); cbn [rmap] in E'; inversion E; inversion E'; subst. split; [reflexivity|exact Hx]. }
  intros tc ? ->. rewrite !(m_mul c), (m_ltb c). destruct (nltb (nmul (nmul limit (nofZ 2)) (g_perf g)) tc); [|apply y_ret; reflexivity].
  destruct (g_res g); cbn [option_map]; [|apply y_stop]. rewrite (m_ltb c). apply y_ret. reflexivity.
Qed.
Lemma y_clusters_of ids : forall acc, agr wrel wrel eq (clusters_of ids acc) (clusters_of ids acc).
Proof.
  induction ids as [|k ids IH]; intros acc; cbn [clusters_of]; [apply y_ret; reflexivity|].
  eapply agr_eq; [apply y_part|intros b]. eapply agr_eq; [destruct b; [apply y_cid|apply y_ret; reflexivity]|intros i]. apply IH.
Qed.
Lemma y_copy ids : agr wrel wrel (fun l l' => l' = map su l) (copy_sites ids) (copy_sites ids).
Proof.
  induction ids as [|k ids IH]; cbn [copy_sites]; [apply y_ret; reflexivity|].
  eapply agr_bind; [apply y_site|]. intros s ? ->. eapply agr_bind; [exact IH|]. intros l ? ->. apply y_ret. reflexivity.
Qed.
(** calls that leave the clusters alone *)
Definition keeps {A} (m : M world A) : Prop := forall g a g', m g = Ret a g' -> g_clusters g' = g_clusters g.
Lemma keeps_bind {A B} (m : M world A) (k : A -> M world B) : keeps m -> (forall a, keeps (k a)) -> keeps (bind m k).
Proof.
  intros H1 H2 g a g' E. apply bind_ret_inv in E. destruct E as (x & u & E1 & E2). rewrite (H2 _ _ _ _ E2). eapply H1, E1.
Qed.
Lemma keeps_mod v : (forall g, g_clusters (v g) = g_clusters g) -> keeps (modify v).
Proof. intros H g a g' E. inversion E; subst. apply H. Qed.
Lemma keeps_gets {A} (v : world -> A) : keeps (gets v).
Proof. intros g a g' E. inversion E; subst. reflexivity. Qed.
Lemma keeps_ret {A} (v : A) : keeps (ret v).
Proof. intros g a g' E. inversion E; subst. reflexivity. Qed.
Lemma keeps_lift {A} (r : res A) : keeps (lift r).
Proof. intros g a g' E. destruct r; inversion E; subst. reflexivity. Qed.
Lemma keeps_sites {A} (m : M _ A) : keeps (in_sites m).
Proof. intros g a g' E. unfold in_sites, zoom in E. destruct (m (g_sites g)); inversion E; subst. reflexivity. Qed.
Lemma keeps_mfor {A} (l : list A) b : (forall x, keeps (b x)) -> keeps (mfor l b).
Proof. intros H. induction l as [|x l IH]; cbn [mfor]; [apply keeps_ret|]. apply keeps_bind; [apply H|intros; exact IH]. Qed.
Lemma keeps_new : keeps (new_cluster clk).
Proof.
  unfold new_cluster, read_clock. apply keeps_bind; [apply keeps_bind; [intros g a g' E; inversion E; subst; reflexivity|intros; apply keeps_ret]|intros t].
  apply keeps_bind; [apply keeps_gets|intros i]. apply keeps_bind; [apply keeps_mod; reflexivity|intros; apply keeps_ret].
Qed.
Lemma agr_E (m m' : M world unit) : keeps m -> agr wrel wrel eq m m' -> agr wrelE wrelE eq m m'.
Proof.
  intros H1 H2 g g' a t a' t' [Hr|Hb] E E'.
  - destruct (H2 _ _ _ _ _ _ Hr E E'). split; [assumption|left; assumption].
  - split; [destruct a, a'; reflexivity|right]. unfold wbad. rewrite (H1 _ _ _ E). exact Hb.
Qed.
Definition crelE (d d' : @cluster N G) : Prop := crel d d' \/ c_tau d = @ndblmin N.

Lemma y_addCluster d d' : crelE d d' -> agr wrel wrelE eq (in_clusters (cc_addCluster d)) (in_clusters (cc_addCluster d')).
Proof.
  intros [H|H] g g' a t a' t' Hg E E'.
  - assert (X : agr wrel wrel eq (in_clusters (cc_addCluster d)) (in_clusters (cc_addCluster d'))).
    { apply y_clusters. unfold cc_addCluster. eapply agr_bind; [apply agree_gets with (R := eachc) (Q := eachc); auto|]. intros m m' Hm.
      assert (Ei : c_id d' = c_id d) by (destruct H as (sv & pv & iw & it & t0 & i & -> & _); reflexivity).
      rewrite Ei, (umem_keys _ _ _ (eachc_keys _ _ Hm)). destruct (umem (c_id d) m'); [intros s s' x y x' y' Hs E1; discriminate E1|].
      apply agree_modify with (R := eachc). intros q q' Hq. apply eachc_set; assumption. }
    destruct (X _ _ _ _ _ _ Hg E E'). split; [assumption|left; assumption].
  - split; [destruct a, a'; reflexivity|right]. clear E'. unfold in_clusters, zoom, cc_addCluster, bind, gets in E.
    destruct (umem (c_id d) (g_clusters g)) eqn:Em; [discriminate|]. unfold modify in E. inversion E; subst.
    exists (c_id d, d). split; [|exact H]. unfold g_with_clusters. wf. unfold uset. rewrite Em.
    apply (Permutation.Permutation_in _ (Permutation.Permutation_sym (hplace_perm _ _ _ _))). left. reflexivity.
Qed.
Lemma E_seed x : agr crelE crelE eq (c_setRandomSeed x) (c_setRandomSeed x).
Proof.
  intros d d' a t a' t' [H|H] E E'.
  - destruct (cu_seed c x _ _ _ _ _ _ H E E'). split; [assumption|left; assumption].
  - inversion E; subst. split; [destruct a'; reflexivity|right; exact H].
Qed.
Lemma y_create f f' ids limit : agr wrel wrelE eq (create_cluster clk f ids limit) (create_cluster clk f' ids (tm limit)).
Proof.
  unfold create_cluster. eapply agr_bind; [apply y_new|]. intros c0 ? [-> Hn]. eapply agr_bind; [apply y_copy|]. intros l ? ->.
  apply y_get_heap. intros h.
  eapply agr_bind; [apply y_local with (R := loose) (R' := crel) (Q := eq); [|exact Hn]|].
  { eapply agr_eq; [apply lu_method|intros _]. eapply agr_eq; [apply lu_tolerance|intros _].
    eapply agr_bind; [apply lu_addSites, K|]. intros _ _ _. apply lu_update; [exact K|reflexivity]. }
  intros [[] d] [[] d'] [_ Hd]. cbn [snd] in *.
  eapply agr_bind; [apply agree_gets with (R := wrel) (Q := fun x y => y = option_map tm x); intros g g' (m & -> & _); reflexivity|].
  intros r ? ->. destruct r as [tres|]; cbn [option_map]; [|apply y_stop].
  eapply agr_bind with (Q := fun x y => crelE (snd x) (snd y)).
  { assert (X : c_tau d = @ndblmin N \/ c_tau d' = tm (c_tau d)).
    { destruct Hd as (sv & pv & iw & it & t & i & -> & [H|[-> _]]); [left; exact H|right; reflexivity]. }
    destruct X as [X|X].
    - intros g g' x y x' y' Hg E E'. split.
      + right. unfold local, c_setResolution, bind, cassert in E.
        destruct (nleb _ _); [|discriminate]. cbn in E. inversion E; subst. exact X.
      + unfold local in E, E'. destruct (c_setResolution _ d); inversion E; subst. destruct (c_setResolution _ d'); inversion E'; subst. exact Hg.
    - unfold c_getTimeConstant. rewrite X, b_resolution.
      eapply agr_weak; [| | |apply y_local with (R := crel) (R' := crel) (Q := eq); [apply cu_resolution|exact Hd]]; auto.
      cbv beta. intros ? ? [_ Y]. left. exact Y. }
  intros [[] e] [[] e'] He. cbn [snd] in *. eapply agr_eq; [apply y_useseed|intros seed].
  eapply agr_bind; [apply y_local with (R := crelE) (R' := crelE) (Q := eq); [|exact He]|].
  { destruct seed; [apply E_seed|apply agree_ret with (R := crelE); reflexivity]. }
  intros [[] q] [[] q'] [_ Hq]. cbn [snd] in *. eapply agr_bind; [apply y_addCluster, Hq|]. intros _ _ _.
  apply agr_E.
  - apply keeps_bind; [apply keeps_new|intros _]. apply keeps_mfor. intros k. apply keeps_bind; [apply keeps_sites|intros _].
    apply keeps_mod. reflexivity.
  - eapply agr_bind; [apply y_new|]. intros _ _ _. apply y_mfor. intros k. eapply agr_eq; [apply y_setcid|intros _]. apply y_feats.
Qed.
Lemma y_get k : agr eachc eachc crel (cc_getCluster k) (cc_getCluster k).
Proof.
  intros m m' x t x' t' Hm E E'. unfold cc_getCluster, read_key in *. pose proof (eachc_lookup c k _ _ Hm) as L.
  destruct (ulookup k m); [|discriminate]. destruct (ulookup k m'); [|discriminate].
  cbn in E, E'. inversion E; inversion E'; subst. split; [exact L|exact Hm].
Qed.
Lemma remove_replace {V} k (v : V) m : uremove k (ureplace k v m) = uremove k m.
Proof.
  induction m as [|[a x] m IH]; [reflexivity|]. cbn [ureplace uremove]. destruct (k =? a) eqn:E; cbn [uremove]; rewrite E; [reflexivity|].
  rewrite IH. reflexivity.
Qed.
Lemma y_drop k d d' : agr wrel wrel eq (in_clusters (modify (ureplace k d)) ;; in_clusters (cc_erase k))
  (in_clusters (modify (ureplace k d')) ;; in_clusters (cc_erase k)).
Proof.
  intros g g' x t x' t' (m & -> & Hm) E E'. unfold in_clusters, zoom, bind, modify, cc_erase in E, E'. inversion E; inversion E'; subst.
  split; [reflexivity|]. unfold g_with_clusters. wf. rewrite !remove_replace. eexists. split; [unfold nw; wf; reflexivity|]. wf.
  apply eachc_remove, Hm.
Qed.
Lemma y_scan fav sac : forall iso cids, agr wrel wrel (fun x y => fst y = map su (fst x) /\ snd y = snd x) (merge_scan fav sac iso cids) (merge_scan fav sac (map su iso) cids).
Proof.
  induction sac as [|[k d] sac IH]; intros iso cids; cbn [merge_scan]; [apply y_ret; auto|].
  destruct (d =? fav); [apply IH|].
  eapply agr_bind with (R1 := wrel) (Q := fun l l' => l' = map su l).
  { destruct (d =? unassignedId); [|apply y_ret; reflexivity]. eapply agr_bind; [apply y_site|]. intros s ? ->. apply y_ret. rewrite map_app. reflexivity. }
  intros l ? ->. eapply agr_bind; [apply y_clusters, y_get|]. intros _ _ _.
  eapply agr_bind; [apply y_feats|]. intros _ _ _. eapply agr_bind; [apply y_setcid|]. intros _ _ _. apply IH.
Qed.
Lemma y_absorb f f' fav k : agr wrel wrel eq (absorb f fav k) (absorb f' fav k).
Proof.
  unfold absorb. eapply agr_bind; [apply y_clusters, y_get|]. intros a a' Ha.
  eapply agr_bind; [apply y_clusters, y_get|]. intros b b' Hb. apply y_get_heap. intros h.
  eapply agr_bind; [apply y_local with (R := crel2 c) (R' := half2 c) (Q := any); [apply lu_migrate; [exact K|reflexivity]|split; assumption]|].
  intros p p' [_ [H1 _]].
  eapply agr_bind; [apply y_clusters, agree_modify with (R := eachc); intros; apply eachc_replace; assumption|]. intros _ _ _.
  apply y_drop.
Qed.
Lemma y_merge f f' sac fav : agr wrel wrel eq (merge_clusters f sac fav) (merge_clusters f' sac fav).
Proof.
  unfold merge_clusters. eapply agr_bind; [apply (y_scan fav sac [] [])|]. intros [l cids] [l' cids'] [H1 H2]. cbn [fst snd] in *. subst.
  apply y_get_heap. intros h. eapply agr_bind; [apply y_clusters, y_atT, lu_addSites, K|]. intros _ _ _.
  eapply agr_bind; [apply y_clusters, y_atT; eapply agr_pre; [apply crel_loose|apply lu_update; [exact K|reflexivity]]|]. intros _ _ _.
  apply y_mfor. intros k. apply y_absorb.
Qed.
Lemma agr_post {S A B} (R R1 R2 : S -> S -> Prop) (Q : A -> B -> Prop) m m' : (forall s s', R1 s s' -> R2 s s') -> agr R R1 Q m m' -> agr R R2 Q m m'.
Proof. intros H1 H s s' a t a' t' Hs E E'. destruct (H _ _ _ _ _ _ Hs E E'). auto. Qed.
Lemma wE g g' : wrel g g' -> wrelE g g'.
Proof. left. assumption. Qed.
Lemma E_ret {A} (a : A) : agr wrelE wrelE eq (ret a) (ret a).
Proof. apply agree_ret with (R := wrelE). reflexivity. Qed.
Lemma y_grain f f' k : agr wrel wrelE eq (coarse_grain (U := U) clk f k) (coarse_grain (U := U') clk f' k).
Proof.
  unfold coarse_grain. eapply agr_bind; [apply y_tick|]. intros nonce ? <-.
  eapply agr_bind; [apply agree_gets with (R := wrel) (Q := wrel); auto|]. intros g g' (m & -> & Hm). wf.
  eapply agr_bind with (R1 := wrel) (Q := eq).
  { intros w w' ids y ids' y' Hw E E'. unfold lift in E, E'.
    destruct (find_basin (U := U) f _ _ _ _ _ _) as [r| |] eqn:E1; inversion E; subst.
    destruct (find_basin (U := U') f' _ _ _ _ _ _) as [r'| |] eqn:E2; inversion E'; subst.
    split; [symmetry; eapply (b_find U U' K c HU (g_heap g) (nheap (g_heap g)) (fun a => eq_refl)); eauto|exact Hw]. }
  intros ids ? <-. rewrite (b_limit U U' c HU (g_heap g) (nheap (g_heap g)) (fun a => eq_refl)).
  eapply agr_eq; [apply y_equil|intros ok]. destruct ok; [|eapply agr_post; [apply wE|apply y_ret; reflexivity]].
  eapply agr_eq; [apply y_clusters_of|intros sac].
  destruct (_ && _).
  - eapply agr_eq; [apply y_create|intros _]. apply E_ret.
  - eapply agr_post; [apply wE|]. destruct (negb _); [|apply y_ret; reflexivity].
    eapply agr_eq; [apply y_merge|intros _]. apply y_ret. reflexivity.
Qed.
Lemma y_attempt f f' k : agr wrel wrelE eq (hop_attempt (U := U) clk f k) (hop_attempt (U := U') clk f' k).
Proof.
  unfold hop_attempt. eapply agr_eq; [apply y_gets; reflexivity|intros i]. eapply agr_eq; [apply y_lift|intros i'].
  eapply agr_bind; [apply y_mod; intros m g Hm; unfold g_with_iter; wf; done_w|intros _ _ _].
  eapply agr_eq; [apply y_gets; reflexivity|intros t]. destruct (t <? i'); [|eapply agr_post; [apply wE|apply y_ret; reflexivity]].
  eapply agr_eq; [apply y_gets; reflexivity|intros b].
  assert (E0 : agr wrelE wrelE eq (modify (g_with_iter 0)) (modify (g_with_iter 0))).
  { apply agr_E; [apply keeps_mod; reflexivity|]. apply y_mod; intros m g Hm; unfold g_with_iter; wf; done_w. }
  eapply agr_bind with (Q := eq); [|intros _ _ _; exact E0].
  destruct (negb _); [|eapply agr_post; [apply wE|apply y_ret; reflexivity]].
  eapply agr_eq; [apply y_grain|intros ok]. apply agr_E.
  - destruct ok; [apply keeps_mod; reflexivity|]. apply keeps_bind; [apply keeps_gets|intros]. apply keeps_bind; [apply keeps_lift|intros].
    apply keeps_mod. reflexivity.
  - destruct ok; [apply y_mod; intros m g Hm; unfold g_with_thr; wf; done_w|].
    eapply agr_eq; [apply y_gets; reflexivity|intros t1]. eapply agr_eq; [apply y_lift|intros t2].
    apply y_mod; intros m g Hm; unfold g_with_thr; wf; done_w.
Qed.
Lemma y_hop f f' id p : agr wrel wrelE eq (sys_hop (U := U) clk f id p) (sys_hop (U := U') clk f' id p).
Proof.
  unfold sys_hop. eapply agr_eq; [apply y_w_site|intros src]. eapply agr_eq; [apply y_w_pot|intros dst].
  eapply agr_eq; [apply y_move|intros _]. apply y_attempt.
Qed.
Lemma y_visits k : agr wrel wrel any (sys_getVisits k) (sys_getVisits k).
Proof.
  unfold sys_getVisits. eapply agr_bind; [apply agree_gets with (R := wrel) (Q := sites_rel); intros g g' (m & -> & _); reflexivity|].
  intros m ? ->. rewrite vm_mem. destruct (umem k m); [|apply y_throw].
  eapply agr_bind; [apply y_site|]. intros s ? _. eapply agr_bind; [apply y_part|]. intros b ? <-.
  destruct b; [|apply y_ret; exact Logic.I]. eapply agr_bind; [apply y_cid|]. intros d ? <-.
  eapply agr_bind; [apply y_clusters, y_atT, (agr_vis c); intros; eapply vis_visits; eauto|]. intros. apply y_ret. exact Logic.I.
Qed.

(** ** Programs *)
Lemma map_ext' {A B} (f f' : A -> B) l : (forall x, f x = f' x) -> map f l = map f' l.
Proof. intros H. apply map_ext. exact H. Qed.
Lemma y_cur m g p : cur_of (nw m g) p = cur_of g p.
Proof. unfold cur_of. wf. rewrite vm_lookup. destruct (ulookup p (g_walkers g)); reflexivity. Qed.
Lemma y_enter_ok g g' ws l : wrel g g' -> enter_ok g' ws l = enter_ok g ws l.
Proof.
  intros (m & -> & H). unfold enter_ok. f_equal; [f_equal; [f_equal|]|].
  - f_equal. apply map_ext'. apply y_cur.
  - apply forallb_ext'. intros p. rewrite y_cur. f_equal. induction ws as [|q ws IH]; [reflexivity|]. cbn [existsb]. rewrite !y_cur, IH. reflexivity.
  - apply forallb_ext'. intros p. rewrite y_cur. unfold sys_getClusterId, in_sites, zoom, sc_getClusterId, read_key. wf. rewrite vm_lookup.
    destruct (ulookup (cur_of g p) (g_sites g)); reflexivity.
Qed.
Lemma after_y {A} (o o' : M world A) Q g g' ws r r' : agr wrel wrelE Q o o' -> wrel g g' ->
  after (o g) ws = Some r -> after (o' g') ws = Some r' -> snd r' = snd r /\ wrelE (fst r) (fst r').
Proof.
  intros H Hg E E'. destruct (o g) as [a t|? ?|?] eqn:E1; inversion E; subst. destruct (o' g') as [a' t'|? ?|?] eqn:E2; inversion E'; subst.
  split; [reflexivity|]. exact (proj2 (H _ _ _ _ _ _ Hg E1 E2)).
Qed.
Lemma new_tm t : new_time c t = tm t.
Proof. reflexivity. Qed.
Lemma exec1_y a a' g g' ws r r' : new_act c a a' -> wrel g g' -> exec1 (U := U) clk a (g, ws) = Some r -> exec1 (U := U') clk a' (g', ws) = Some r' ->
  snd r' = snd r /\ wrelE (fst r) (fst r').
Proof.
  intros Ha Hg E E'.
  destruct Ha; cbn [exec1] in E, E'.
  - revert E E'. apply after_y with (Q := eq); [eapply agr_post; [apply wE|apply y_perf]|exact Hg].
  - revert E E'. apply after_y with (Q := eq); [eapply agr_post; [apply wE|apply y_res]|exact Hg].
  - revert E E'. apply after_y with (Q := eq); [eapply agr_post; [apply wE|apply y_thr]|exact Hg].
  - revert E E'. apply after_y with (Q := eq); [eapply agr_post; [apply wE|apply y_seed]|exact Hg].
  - destruct (rates_ok rates); [|discriminate]. revert E E'. apply after_y with (Q := eq); [eapply agr_post; [apply wE|apply y_init]|exact Hg].
  - inversion E; inversion E'; subst. split; [reflexivity|]. left. destruct Hg as (m & -> & Hm). exists m. split; [reflexivity|exact Hm].
  - rewrite (y_enter_ok _ _ _ _ Hg) in E'. destruct (enter_ok g ws l); [|discriminate].
    revert E E'. apply after_y with (Q := eq); [eapply agr_post; [apply wE|apply y_enter]|exact Hg].
  - destruct (existsb (Z.eqb p) ws); [|discriminate]. revert E E'. apply after_y with (Q := eq); [apply y_hop|exact Hg].
  - destruct (existsb (Z.eqb p) ws); [|discriminate]. revert E E'. apply after_y with (Q := eq); [eapply agr_post; [apply wE|apply y_leave]|exact Hg].
  - revert E E'. apply after_y with (Q := any); [eapply agr_post; [apply wE|apply y_visits]|exact Hg].
Qed.
Lemma eachc_per {V} (t : V -> V) (f : cluster -> V) m m' : (forall e, In e m -> forall d', crel (snd e) d' -> f d' = t (f (snd e))) -> eachc m m' ->
  per_cluster f m' = vmap t (per_cluster f m).
Proof.
  intros Hf H. unfold per_cluster. change (@nil (Z * V)) with (vmap t (@nil (Z * V))) at 1. generalize (@nil (Z * V)).
  induction H as [|[a x] [b y] m m' [E1 E2] H IH]; intros acc; [reflexivity|].
  cbn in E1, E2. subst b. cbn [fold_left fst snd]. rewrite (Hf (a, x) (or_introl eq_refl) _ E2), (vm_set K). apply IH. intros e He. apply Hf. right; exact He.
Qed.
Lemma vm_id {V} (m : umap V) : vmap (fun v => v) m = m.
Proof. unfold vmap. induction m as [|[k v] m IH]; [reflexivity|]. cbn. rewrite IH. reflexivity. Qed.
Lemma y_same g g' : ~ wbad g -> wrel g g' -> same_in_unit c g g'.
Proof.
  intros Nb (m & -> & H). split; [reflexivity|].
  assert (P : forall V (t : V -> V) (f : cluster -> V), (forall e, In e (g_clusters g) -> forall d', crel (snd e) d' -> f d' = t (f (snd e))) -> forall v v' x x',
    in_clusters (gets (per_cluster f)) g = Ret v x -> in_clusters (gets (per_cluster f)) (nw m g) = Ret v' x' -> v' = vmap t v).
  { intros V t f Hf v v' x x' E E'. inversion E; inversion E'; subst. wf. apply eachc_per; assumption. }
  split; [|split; [|split]].
  - intros v v' x x' E E'. rewrite <- (vm_id v). symmetry. revert E E'. apply P. intros e _ d' (sv & pv & iw & it & t & i & -> & _).
    apply (vm_keys (UnitCluster.su c) (c_sites (snd e))).
  - intros v v' x x' E E'. rewrite <- (vm_id v). symmetry. revert E E'. apply P. intros e _ d' (sv & pv & iw & it & t & i & -> & _). reflexivity.
  - intros v v' x x' E E'. revert E E'. apply P. intros e He d' (sv & pv & iw & it & t & i & -> & [X|[-> ->]]); [|reflexivity].
    exfalso. apply Nb. exists e. auto.
  - split.
    + intros k i. unfold cluster_of, sys_getClusterId, in_sites, zoom, sc_getClusterId, read_key. wf. rewrite vm_lookup.
      destruct (ulookup k (g_sites g)); cbn [option_map lift]; split; intros (y & E); inversion E; subst; eauto.
    + intros k b. unfold taken, f_isOccupied, on_feature, bind, gets. wf.
      destruct (ulookup k (g_feats g)) as [[|j|j]|]; try (split; intros (y & E); discriminate).
      * unfold in_sites, zoom, at_key. wf. rewrite vm_lookup. destruct (ulookup j (g_sites g)); cbn [option_map]; split; intros (y & E); inversion E; subst; eauto.
      * unfold in_clusters, zoom, at_key. wf. pose proof (eachc_lookup c j _ _ H) as L.
        destruct (ulookup j (g_clusters g)) as [x|], (ulookup j m) as [y|]; try destruct L; try (split; intros (z & E); discriminate).
        destruct H0 as (pv & iw & it & t & i & -> & _). unfold c_isOccupied. cbn [c_sites skew]. rewrite vm_lookup.
        destruct (ulookup k (c_sites x)); cbn [lift option_map]; split; intros (z & E); inversion E; subst; eauto.
Qed.
End Unit.
