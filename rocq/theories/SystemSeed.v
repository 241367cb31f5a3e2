(** * The clock does not reach a seeded system *)
From Coq Require Import ZArith List Bool Lia.
From Verif Require Import Base BaseProofs Num WalkerModel SiteModel SiteProofs ClusterModel ClusterFrame
  ContainerModel BasinModel SystemModel SystemSpec SystemShape SystemHop SystemCoarse SystemMerge SystemProofs
  SystemFacts SystemRuns SeedSpec.
Import ListNotations.
Open Scope Z_scope.

(** ** Computations that pass a change of the state through *)
Definition lets {S A} (f : S -> S) (o : outcome S A) : outcome S A :=
  match o with Ret a s => Ret a (f s) | Thr e s => Thr e (f s) | Halt h => Halt h end.
Definition blind {S A} (f : S -> S) (m : M S A) : Prop := forall s, m (f s) = lets f (m s).
Lemma blind_ret {S A} (f : S -> S) (a : A) : blind f (ret a).
Proof. intros s; reflexivity. Qed.
Lemma blind_stop {S A} (f : S -> S) h : blind f (@stop S A h).
Proof. intros s; reflexivity. Qed.
Lemma blind_bind {S A B} (f : S -> S) (m : M S A) (k : A -> M S B) :
  blind f m -> (forall a, blind f (k a)) -> blind f (bind m k).
Proof. intros H1 H2 s. unfold bind. rewrite (H1 s). destruct (m s); cbn [lets]; [apply H2|reflexivity|reflexivity]. Qed.
Lemma blind_gets {S A} (f : S -> S) (v : S -> A) : (forall s, v (f s) = v s) -> blind f (gets v).
Proof. intros E s. unfold gets. rewrite E. reflexivity. Qed.
Lemma blind_modify {S} (f : S -> S) (v : S -> S) : (forall s, v (f s) = f (v s)) -> blind f (modify v).
Proof. intros E s. unfold modify. rewrite E. reflexivity. Qed.
Lemma blind_lift {S A} (f : S -> S) (r : res A) : blind f (lift r).
Proof. intros s. destruct r; reflexivity. Qed.
Lemma blind_assert {S} (f : S -> S) b : blind f (cassert b).
Proof. intros s. destruct b; reflexivity. Qed.
Lemma blind_mfor {S A} (f : S -> S) (l : list A) (b : A -> M S unit) : (forall x, blind f (b x)) -> blind f (mfor l b).
Proof. intros H. induction l; cbn [mfor]; [apply blind_ret|]. apply blind_bind; auto. Qed.
Lemma blind_self {S A} (f : S -> S) (k : S -> M S A) :
  (forall c s, k (f c) s = k c s) -> (forall c, blind f (k c)) -> blind f (bind (gets (fun c => c)) k).
Proof. intros H1 H2 s. unfold bind, gets. rewrite H1. apply H2. Qed.
Lemma blind_if {S A} (f : S -> S) (b : bool) (m m' : M S A) : blind f m -> blind f m' -> blind f (if b then m else m').
Proof. destruct b; auto. Qed.

Section Seed.
Context {I : Impl} {N : Num} {G : Rng} {U : Ugly}.

Ltac see :=
  repeat match goal with
    | |- blind _ (bind (gets (fun c => c)) _) => apply blind_self; [intros; reflexivity|intros]
    | |- blind _ (bind _ _) => apply blind_bind; [|intros]
    | |- blind _ (ret _) => apply blind_ret
    | |- blind _ (stop _) => apply blind_stop
    | |- blind _ (lift _) => apply blind_lift
    | |- blind _ (cassert _) => apply blind_assert
    | |- blind _ (gets _) => apply blind_gets; intros; reflexivity
    | |- blind _ (modify _) => apply blind_modify; intros; reflexivity
    | |- blind _ (mfor _ _) => apply blind_mfor; intros
    | |- blind _ (if _ then _ else _) => apply blind_if
    | |- blind _ (match ?x with _ => _ end) => destruct x
    end.

Lemma blind_setRates h rates e : blind (s_with_rng e) (s_setRates h rates).
Proof.
  unfold s_setRates, s_calcTau. see. intros s.
  unfold s_calcProb; cbn; destruct (prob_loop _ _ _ _); reflexivity.
Qed.
Lemma spread_rng e c d l : forall sv, spread_visits (c_with_rng e c) d l sv = spread_visits c d l sv.
Proof.
  induction l as [|x l IH]; intros sv; [reflexivity|]. cbn [spread_visits].
  cbn [c_sites c_idwell c_pon c_tau c_res c_with_rng].
  destruct (ulookup (fst x) (c_sites c)), (ulookup (fst x) (c_idwell c)); auto.
Qed.
Lemma blind_visits k e : blind (c_with_rng e) (c_getVisits k).
Proof.
  unfold c_getVisits. apply blind_self.
  - intros c s. cbn [c_visits c_prev c_svisits c_tau c_with_rng]. rewrite spread_rng. reflexivity.
  - intros c. see.
Qed.
Lemma blind_visitList l e : blind (c_with_rng e) (c_visitList l).
Proof. induction l; cbn [c_visitList]; see; [apply blind_visits|apply IHl]. Qed.
Lemma blind_update fuel h e : blind (c_with_rng e) (c_update fuel h).
Proof.
  unfold c_update. see; try apply blind_visitList.
  - unfold c_solve, c_calcHopToInternal, c_calcHopToNeighbors, c_calcInternalDwell. see.
  - unfold c_calcSumOff. see.
  - unfold c_calcSumInt. see.
  - unfold c_calcHopOff. see.
  - unfold c_calcHopBetween. see.
  - unfold c_calcTau. see.
  - unfold c_calcITau. see.
  - unfold c_setVisits. see.
  - unfold c_calcInternalDwell. see.
Qed.
Lemma blind_addSites l e : blind (c_with_rng e) (c_addSites l).
Proof. unfold c_addSites, c_addSite. see. Qed.

(** ** Sites, clusters and members *)
Variables clk1 clk2 : Z -> Z.
Definition seeded (g : world) : Prop := exists x, g_seed g = Some x.

Lemma mfor_agree {S A} (P : S -> Prop) (l : list A) (b1 b2 : A -> M S unit) :
  (forall x s, In x l -> P s -> b1 x s = b2 x s) -> (forall x s s', P s -> b2 x s = Ret tt s' -> P s') ->
  forall s, P s -> mfor l b1 s = mfor l b2 s.
Proof.
  intros H1 H2. induction l as [|x l IH]; intros s Hs; cbn [mfor]; [reflexivity|].
  unfold bind. rewrite (H1 x s (or_introl eq_refl) Hs).
  destruct (b2 x s) as [[] s'|? ?|?] eqn:E; [|reflexivity|reflexivity]. apply IH; [|eapply H2; eauto].
  intros y t Hy. apply H1. right; exact Hy.
Qed.

Lemma bind_Ret {S A B} (m : M S A) (k : A -> M S B) s a s' : m s = Ret a s' -> bind m k s = k a s'.
Proof. unfold bind. intros ->. reflexivity. Qed.
Lemma bind_Thr {S A B} (m : M S A) (k : A -> M S B) s e s' : m s = Thr e s' -> bind m k s = Thr e s'.
Proof. unfold bind. intros ->. reflexivity. Qed.
Lemma bind_Halt {S A B} (m : M S A) (k : A -> M S B) s h : m s = Halt h -> bind m k s = Halt h.
Proof. unfold bind. intros ->. reflexivity. Qed.
Lemma local_lets {S A} (m : M S A) (f : S -> S) s (g : world) : blind f m ->
  local m (f s) g = match local m s g with Ret (a, s') g' => Ret (a, f s') g' | Thr e g' => Thr e g' | Halt h => Halt h end.
Proof. intros B. unfold local. rewrite (B s). destruct (m s); reflexivity. Qed.
(** a local value known up to [f] *)
Lemma local_agree {S A B} (m : M S A) (f1 f2 : S -> S) s (g : world) (k1 k2 : A * S -> M world B) :
  blind f1 m -> blind f2 m -> (forall a s', k1 (a, f1 s') g = k2 (a, f2 s') g) ->
  bind (local m (f1 s)) k1 g = bind (local m (f2 s)) k2 g.
Proof. intros B1 B2 E. unfold bind, local. rewrite (B1 s), (B2 s). destruct (m s); cbn [lets]; auto. Qed.

Lemma read_clock_eq clk (g : world) : read_clock clk g = Ret (clk (g_tick g)) (g_with_tick (g_tick g + 1) g).
Proof. reflexivity. Qed.
Lemma init_site_agree k r (g : world) : seeded g -> init_site clk1 k r g = init_site clk2 k r g.
Proof.
  intros [x Ex]. unfold init_site.
  rewrite (bind_Ret _ _ _ _ _ (read_clock_eq clk1 g)), (bind_Ret _ _ _ _ _ (read_clock_eq clk2 g)).
  set (g1 := g_with_tick (g_tick g + 1) g).
  rewrite !(bind_Ret _ _ _ _ _ (eq_refl : gets g_heap g1 = Ret (g_heap g1) g1)).
  assert (B : forall e, blind (s_with_rng e) (s_setId k ;; s_setRates (g_heap g1) r)).
  { intros e. apply blind_bind; [apply blind_modify; reflexivity|]. intros _. apply blind_setRates. }
  change (site_new (clk1 (g_tick g))) with (s_with_rng (eseed (clk1 (g_tick g))) (site_new 0)).
  change (site_new (clk2 (g_tick g))) with (s_with_rng (eseed (clk2 (g_tick g))) (site_new 0)).
  apply local_agree; [apply B|apply B|]. intros a s'.
  assert (E : use_seed g1 = Ret (Some x) (g_with_seed (Some ((x + 1) mod 2 ^ 64)) g1)) by (unfold use_seed, g1; cbn; rewrite Ex; reflexivity).
  rewrite !(bind_Ret _ _ _ _ _ E). cbn [snd]. reflexivity.
Qed.
Lemma init_site_seeded k r (g g' : world) : seeded g -> init_site clk2 k r g = Ret tt g' -> seeded g'.
Proof.
  intros [x Ex] E. unfold init_site in E. rewrite (bind_Ret _ _ _ _ _ (read_clock_eq clk2 g)) in E.
  set (g1 := g_with_tick (g_tick g + 1) g) in *.
  rewrite !(bind_Ret _ _ _ _ _ (eq_refl : gets g_heap g1 = Ret (g_heap g1) g1)) in E.
  apply bind_ret_inv in E. destruct E as ([u s] & g2 & E1 & E). apply local_ret in E1. destruct E1 as [-> _].
  assert (E1 : use_seed g1 = Ret (Some x) (g_with_seed (Some ((x + 1) mod 2 ^ 64)) g1)) by (unfold use_seed, g1; cbn; rewrite Ex; reflexivity).
  rewrite !(bind_Ret _ _ _ _ _ E1) in E.
  apply bind_ret_inv in E. destruct E as ([u2 s2] & g2 & E2 & E). apply local_ret in E2. destruct E2 as [-> _].
  apply bind_ret_inv in E. destruct E as (u3 & g3 & E3 & E). unfold in_sites, zoom in E3.
  destruct (sc_addSite _ _); inversion E3; subst. inversion E; subst. exists ((x + 1) mod 2 ^ 64). reflexivity.
Qed.

Lemma no_drain (r : umap (umap Z)) : (forall k, mentioned r k -> In k (ukeys r)) -> drains r = [].
Proof.
  intros H. unfold drains.
  assert (X : forall l d, incl l r -> fold_left (fun d e => fold_left (fun d n => if umem (fst n) r then d else uinsert d (fst n)) (snd e) d) l d = d).
  { induction l as [|e l IH]; intros d Hl; [reflexivity|]. cbn [fold_left].
    rewrite IH by (intros y Hy; apply Hl; right; exact Hy).
    assert (Y : forall ns, incl ns (snd e) -> fold_left (fun (d : umap unit) (n : Z * Z) => if umem (fst n) r then d else uinsert d (fst n)) ns d = d).
    { induction ns as [|n ns IHn]; intros Hn; [reflexivity|]. cbn [fold_left].
      assert (E : umem (fst n) r = true).
      { apply umem_In, H. right. destruct e as [k' r']. cbn [snd] in Hn. exists k', r'. split; [apply Hl; left; reflexivity|]. apply in_map, Hn. left; reflexivity. }
      rewrite E. apply IHn. intros y Hy. apply Hn. right; exact Hy. }
    apply Y. apply incl_refl. }
  apply X, incl_refl.
Qed.

(** ** The seed stays set *)
Definition stays {A} (m : M world A) : Prop := forall g a g', seeded g -> m g = Ret a g' -> seeded g'.
Lemma stays_bind {A B} (m : M world A) (k : A -> M world B) : stays m -> (forall a, stays (k a)) -> stays (bind m k).
Proof. intros H1 H2 g a g' Hg E. apply bind_ret_inv in E. destruct E as (x & g1 & E1 & E2). eapply H2; [|exact E2]. eapply H1; eauto. Qed.
Lemma stays_ret {A} (a : A) : stays (ret a).
Proof. intros g b g' Hg E. inversion E; subst; exact Hg. Qed.
Lemma stays_gets {A} (f : world -> A) : stays (gets f).
Proof. intros g b g' Hg E. inversion E; subst; exact Hg. Qed.
Lemma stays_throw {A} e : stays (@throw world A e).
Proof. intros g b g' Hg E. discriminate. Qed.
Lemma stays_stop {A} e : stays (@stop world A e).
Proof. intros g b g' Hg E. discriminate. Qed.
Lemma stays_lift {A} (r : res A) : stays (lift r).
Proof. intros g b g' Hg E. destruct r; inversion E; subst; exact Hg. Qed.
Lemma stays_local {S A} (m : M S A) s : stays (local m s).
Proof. intros g [b x] g' Hg E. apply local_ret in E. destruct E as [-> _]. exact Hg. Qed.
Lemma stays_sites {A} (m : M _ A) : stays (in_sites m).
Proof. intros g b g' Hg E. unfold in_sites, zoom in E. destruct (m (g_sites g)); inversion E; subst; exact Hg. Qed.
Lemma stays_clusters {A} (m : M _ A) : stays (in_clusters m).
Proof. intros g b g' Hg E. unfold in_clusters, zoom in E. destruct (m (g_clusters g)); inversion E; subst; exact Hg. Qed.
Lemma stays_walker {A} q (m : M _ A) : stays (in_walker q m).
Proof. intros g b g' Hg E. unfold in_walker, zoom in E. destruct (at_key _ _ _ (g_walkers g)); inversion E; subst; exact Hg. Qed.
Lemma stays_modify f : (forall g, seeded g -> seeded (f g)) -> stays (modify f).
Proof. intros H g b g' Hg E. inversion E; subst; auto. Qed.
Lemma stays_mfor {A} (l : list A) b : (forall x, stays (b x)) -> stays (mfor l b).
Proof. intros H. induction l; cbn [mfor]; [apply stays_ret|]. apply stays_bind; auto. Qed.
Lemma stays_seed : stays use_seed.
Proof. intros g b g' [x Ex] E. unfold use_seed in E. rewrite Ex in E. inversion E; subst. eexists; reflexivity. Qed.
Lemma stays_clock clk : stays (read_clock clk).
Proof. intros g b g' Hg E. inversion E; subst. exact Hg. Qed.
Lemma stays_tick : stays next_tick.
Proof. intros g b g' Hg E. inversion E; subst. exact Hg. Qed.
Ltac stay :=
  repeat match goal with
    | |- stays (bind _ _) => apply stays_bind; [|intros]
    | |- stays (ret _) => apply stays_ret
    | |- stays (gets _) => apply stays_gets
    | |- stays (throw _) => apply stays_throw
    | |- stays (stop _) => apply stays_stop
    | |- stays (lift _) => apply stays_lift
    | |- stays (local _ _) => apply stays_local
    | |- stays (in_sites _) => apply stays_sites
    | |- stays (in_clusters _) => apply stays_clusters
    | |- stays (in_walker _ _) => apply stays_walker
    | |- stays (modify _) => apply stays_modify; intros ? Hg; exact Hg
    | |- stays (mfor _ _) => apply stays_mfor; intros
    | |- stays use_seed => apply stays_seed
    | |- stays (read_clock _) => apply stays_clock
    | |- stays next_tick => apply stays_tick
    | |- stays (match ?x with _ => _ end) => destruct x
    end.
Lemma stays_feature {A} k (ms : M site A) mc : stays (on_feature k ms mc).
Proof. unfold on_feature. stay. Qed.
Lemma stays_new clk : stays (new_cluster clk).
Proof. unfold new_cluster. stay. Qed.
Lemma stays_copy ids : stays (copy_sites ids).
Proof. induction ids; cbn [copy_sites]; stay. exact IHids. Qed.
Lemma stays_create clk fuel ids limit : stays (create_cluster clk fuel ids limit).
Proof. unfold create_cluster. stay; try apply stays_new. apply stays_copy. Qed.
Lemma stays_scan fav sac : forall iso cids, stays (merge_scan fav sac iso cids).
Proof. induction sac as [|[k c] sac IH]; intros iso cids; cbn [merge_scan]; stay; apply IH. Qed.
Lemma stays_merge fuel sac fav : stays (merge_clusters fuel sac fav).
Proof. unfold merge_clusters, absorb. stay. apply stays_scan. Qed.
Lemma stays_clusters_of ids : forall acc, stays (clusters_of ids acc).
Proof. induction ids as [|k ids IH]; intros acc; cbn [clusters_of]; stay. apply IH. Qed.
Lemma stays_coarse clk fuel k : stays (coarse_grain clk fuel k).
Proof.
  unfold coarse_grain, equilibrium. cbv zeta. stay; try apply stays_clusters_of; try apply stays_create; try apply stays_merge.
Qed.
Lemma stays_attempt clk fuel k : stays (hop_attempt clk fuel k).
Proof. unfold hop_attempt. stay. apply stays_coarse. Qed.
Lemma stays_move clk id p src dst : stays (hop_move clk id p src dst).
Proof. unfold hop_move, f_isOccupied, f_vacate, f_occupy, f_getDwellTime, f_pick. stay; apply stays_feature. Qed.
Lemma stays_hop clk fuel id p : stays (sys_hop clk fuel id p).
Proof. unfold sys_hop. stay; [apply stays_move|apply stays_attempt]. Qed.
Lemma stays_init clk r : stays (sys_initializeSystem clk r).
Proof. unfold sys_initializeSystem, init_site, init_drain. stay. Qed.
Lemma stays_enter l : stays (sys_initializeWalkers l).
Proof. unfold sys_initializeWalkers, init_walker, f_occupy0, f_getDwellTime, f_pick. stay; apply stays_feature. Qed.
Lemma stays_leave clk id p : stays (sys_removeWalker clk id p).
Proof. unfold sys_removeWalker, f_removeWalker. stay; apply stays_feature. Qed.
Lemma stays_visits k : stays (sys_getVisits k).
Proof. unfold sys_getVisits. stay. Qed.

Lemma exec1_seeded clk a g ws g' ws' : seeded g -> exec1 clk a (g, ws) = Some (g', ws') -> seeded g'.
Proof.
  intros Hg E. assert (Af : forall A (o : outcome world A) ws1, after o ws1 = Some (g', ws') -> exists a, o = Ret a g').
  { intros A o ws1 X. destruct o as [b x|x y|x]; inversion X; subst; eauto. }
  destruct a; cbn [exec1] in E.
  - apply Af in E. destruct E as [u E]. inversion E; subst; exact Hg.
  - apply Af in E. destruct E as [u E]. unfold sys_setTimeResolution in E. destruct (nleb t n0); inversion E; subst; exact Hg.
  - apply Af in E. destruct E as [u E]. inversion E; subst; exact Hg.
  - apply Af in E. destruct E as [u E]. unfold sys_setRandomSeed in E. apply bind_ret_inv in E.
    destruct E as (f & g1 & E1 & E). inversion E1; subst f g1. destruct (g_feats g); inversion E; subst. eexists; reflexivity.
  - destruct (rates_ok rates); [|discriminate]. apply Af in E. destruct E as [u E]. eapply stays_init; eauto.
  - inversion E; subst. exact Hg.
  - destruct (enter_ok g ws l); [|discriminate]. apply Af in E. destruct E as [u E]. eapply stays_enter; eauto.
  - destruct (existsb _ _); [|discriminate]. apply Af in E. destruct E as [u E]. eapply stays_hop; eauto.
  - destruct (existsb _ _); [|discriminate]. apply Af in E. destruct E as [u E]. eapply stays_leave; eauto.
  - apply Af in E. destruct E as [u E]. eapply stays_visits; eauto.
Qed.

(** ** Two clocks, one step *)
Lemma vacate_agree k (g : world) : shape g -> f_vacate clk1 k k g = f_vacate clk2 k k g.
Proof.
  intros Sh. unfold f_vacate.
  rewrite (bind_Ret _ _ _ _ _ (read_clock_eq clk1 g)), (bind_Ret _ _ _ _ _ (read_clock_eq clk2 g)).
  set (g1 := g_with_tick (g_tick g + 1) g). unfold on_feature, bind, gets.
  change (g_feats g1) with (g_feats g). rewrite (h_feat _ _ _ Sh k).
  destruct (ulookup k (g_sites g)) as [s|] eqn:Es; [|reflexivity].
  destruct (Z.eqb_spec (s_cluster s) unassignedId) as [Eu|Eu]; [reflexivity|].
  unfold in_clusters, zoom, at_key. change (g_clusters g1) with (g_clusters g).
  destruct (ulookup (s_cluster s) (g_clusters g)) as [cl|] eqn:Ec; [|reflexivity].
  destruct (h_own _ _ _ Sh k s cl Es Ec) as (c' & m & (x & Ex & Em) & [-> | [_ []]]).
  assert (x = cl) by congruence. subst x.
  unfold c_vacate, bind, modify. rewrite Em. reflexivity.
Qed.
Lemma remove_agree k id (g : world) : shape g -> f_removeWalker clk1 k id k g = f_removeWalker clk2 k id k g.
Proof. intros Sh. exact (vacate_agree k g Sh). Qed.

Lemma create_agree fuel ids limit (g : world) : seeded g -> create_cluster clk1 fuel ids limit g = create_cluster clk2 fuel ids limit g.
Proof.
  intros Hg. unfold create_cluster.
  assert (Nw : forall clk (x : world), new_cluster clk x = Ret (c_with_rng (eseed (clk (g_tick x))) (cluster_new (g_count x) 0))
            (g_with_count (g_count x + 1) (g_with_tick (g_tick x + 1) x))) by reflexivity.
  rewrite (bind_Ret _ _ _ _ _ (Nw clk1 g)), (bind_Ret _ _ _ _ _ (Nw clk2 g)).
  set (g1 := g_with_count _ _). assert (Hg1 : seeded g1) by exact Hg. clearbody g1.
  destruct (copy_sites ids g1) as [l g2|e g2|h] eqn:Ec;
    [|rewrite !(bind_Thr _ _ _ _ _ Ec); reflexivity|rewrite !(bind_Halt _ _ _ _ Ec); reflexivity].
  rewrite !(bind_Ret _ _ _ _ _ Ec). pose proof (stays_copy _ _ _ _ Hg1 Ec) as [x Ex].
  rewrite !(bind_Ret _ _ _ _ _ (eq_refl : gets g_heap g2 = Ret (g_heap g2) g2)).
  assert (B : forall e, blind (c_with_rng e) (c_setMethod ByTolerance;; c_setTolerance (nlit 1 1000);; c_addSites l;; c_update fuel (g_heap g2))).
  { intros e. unfold c_setMethod, c_setTolerance. see; [apply blind_addSites|apply blind_update]. }
  apply local_agree; [apply B|apply B|]. intros a c.
  rewrite !(bind_Ret _ _ _ _ _ (eq_refl : gets g_res g2 = Ret (g_res g2) g2)).
  destruct (g_res g2) as [tres|]; [|reflexivity]. cbn [snd].
  change (c_getTimeConstant (c_with_rng (eseed (clk1 (g_tick g))) c)) with (c_getTimeConstant c).
  change (c_getTimeConstant (c_with_rng (eseed (clk2 (g_tick g))) c)) with (c_getTimeConstant c).
  assert (B2 : forall r e, blind (c_with_rng e) (c_setResolution r)) by (intros; unfold c_setResolution; see).
  apply local_agree; [apply B2|apply B2|]. intros b c'. cbn [snd].
  assert (E : use_seed g2 = Ret (Some x) (g_with_seed (Some ((x + 1) mod 2 ^ 64)) g2)) by (unfold use_seed; rewrite Ex; reflexivity).
  rewrite !(bind_Ret _ _ _ _ _ E). reflexivity.
Qed.
Lemma bind_agree {S A B} (m : M S A) (k1 k2 : A -> M S B) s :
  (forall a s', m s = Ret a s' -> k1 a s' = k2 a s') -> bind m k1 s = bind m k2 s.
Proof. intros H. unfold bind. destruct (m s); auto. Qed.
Lemma bind_agree2 {S A B} (m1 m2 : M S A) (k1 k2 : A -> M S B) s :
  m1 s = m2 s -> (forall a s', m1 s = Ret a s' -> k1 a s' = k2 a s') -> bind m1 k1 s = bind m2 k2 s.
Proof. intros E H. unfold bind. rewrite <- E. destruct (m1 s); auto. Qed.
Lemma equilibrium_world ids limit (g : world) b g' : equilibrium ids limit g = Ret b g' -> g' = g.
Proof.
  unfold equilibrium. intros E. apply bind_ret_inv in E. destruct E as (x & g1 & E1 & E). inversion E1; subst x g1.
  apply bind_ret_inv in E. destruct E as (x & g1 & E2 & E). apply lift_ret in E2. destruct E2 as [_ ->].
  destruct (nltb _ _); [|inversion E; reflexivity]. destruct (g_res g); inversion E; reflexivity.
Qed.
Lemma coarse_agree fuel k (g : world) : seeded g -> coarse_grain clk1 fuel k g = coarse_grain clk2 fuel k g.
Proof.
  intros Hg. unfold coarse_grain. apply bind_agree. intros n g1 E1. pose proof (stays_tick _ _ _ Hg E1) as Hg1.
  apply bind_agree. intros x g2 E2. inversion E2; subst x g2. apply bind_agree. intros ids g2 E3.
  apply lift_ret in E3. destruct E3 as [_ ->]. cbv zeta. apply bind_agree. intros ok g2 E4.
  apply equilibrium_world in E4. subst g2. destruct ok; [|reflexivity].
  apply bind_agree. intros sac g2 E5. pose proof (stays_clusters_of _ _ _ _ _ Hg1 E5) as Hg2.
  destruct (_ && _); [|reflexivity]. unfold bind at 1 2. rewrite (create_agree _ _ _ _ Hg2). reflexivity.
Qed.
Lemma attempt_agree fuel k (g : world) : seeded g -> hop_attempt clk1 fuel k g = hop_attempt clk2 fuel k g.
Proof.
  intros Hg. unfold hop_attempt. apply bind_agree. intros i g1 E1. inversion E1; subst.
  apply bind_agree. intros i' g2 E2. apply lift_ret in E2. destruct E2 as [_ ->].
  apply bind_agree. intros u g2 E3. inversion E3; subst. apply bind_agree. intros t g3 E4. inversion E4; subst.
  destruct (_ <? _); [|reflexivity]. apply bind_agree. intros m g4 E5. inversion E5; subst.
  apply bind_agree2; [|reflexivity]. destruct (negb _); [|reflexivity]. apply bind_agree2; [|reflexivity].
  apply coarse_agree. exact Hg.
Qed.
Lemma hop_agree fuel id p (g : world) ws : inv g ws -> In p ws -> seeded g -> sys_hop clk1 fuel id p g = sys_hop clk2 fuel id p g.
Proof.
  intros V Hp Hg. unfold sys_hop. apply bind_agree. intros src g1 E1.
  pose proof (stays_walker _ _ _ _ _ Hg E1) as Hg1. apply getSite_ret in E1. destruct E1 as (-> & _).
  apply bind_agree. intros dst g1 E2. pose proof (stays_walker _ _ _ _ _ Hg E2) as Hg2.
  assert (g1 = g) by (apply getPotential_ret in E2; tauto). subst g1.
  assert (Em : hop_move clk1 id p src dst g = hop_move clk2 id p src dst g).
  { unfold hop_move. apply bind_agree. intros b g1 E3.
    destruct (occupied_step _ _ _ _ _ (v_shape _ _ V) E3 (v_occ _ _ V)) as (-> & _).
    destruct b; (apply bind_agree2; [apply vacate_agree, V|reflexivity]). }
  apply bind_agree2; [exact Em|]. intros u g1 E3. apply attempt_agree. eapply stays_move; eauto.
Qed.

Lemma init_agree r (g : world) : seeded g -> (forall k, mentioned r k -> In k (ukeys r)) ->
  sys_initializeSystem clk1 r g = sys_initializeSystem clk2 r g.
Proof.
  intros Hg Hr. unfold sys_initializeSystem. rewrite (no_drain r Hr). apply bind_agree. intros t g1 E. inversion E; subst.
  destruct (g_res g1); [|reflexivity]. apply bind_agree2; [|reflexivity].
  apply (mfor_agree seeded); [| |exact Hg].
  - intros x s _ Hs. apply init_site_agree, Hs.
  - intros x s s' Hs Ex. eapply init_site_seeded; eauto.
Qed.

Lemma exec1_agree a g ws : inv g ws -> seeded g \/ g_sites g = [] ->
  (forall r, a = AInit r -> seeded g /\ forall k, mentioned r k -> In k (ukeys r)) ->
  exec1 clk1 a (g, ws) = exec1 clk2 a (g, ws).
Proof.
  intros V Hg Ha. assert (Hs : forall p, In p ws -> seeded g).
  { intros p Hp. destruct Hg as [Hg|E]; [exact Hg|]. destruct (v_on _ _ V p Hp) as (k & _ & Hk). rewrite E in Hk. destruct Hk. }
  destruct a; cbn [exec1]; try reflexivity.
  - destruct (rates_ok rates); [|reflexivity]. destruct (Ha rates eq_refl) as [H1 H2]. rewrite (init_agree _ _ H1 H2). reflexivity.
  - destruct (existsb (Z.eqb p) ws) eqn:Ep; [|reflexivity]. apply in_ok in Ep.
    rewrite (hop_agree _ _ _ _ _ V Ep (Hs p Ep)). reflexivity.
  - destruct (existsb (Z.eqb p) ws) eqn:Ep; [|reflexivity]. apply in_ok in Ep. f_equal.
    unfold sys_removeWalker. apply bind_agree. intros k g1 E. apply getSite_ret in E. destruct E as (-> & _).
    apply remove_agree, V.
Qed.

Lemma exec1_empty clk a g ws g' ws' : inv g ws -> g_sites g = [] -> (forall r, a <> AInit r) ->
  exec1 clk a (g, ws) = Some (g', ws') -> g_sites g' = [].
Proof.
  intros V E0 Na E.
  assert (W : ws = []).
  { destruct ws as [|p ws]; [reflexivity|]. destruct (v_on _ _ V p (or_introl eq_refl)) as (k & _ & Hk). rewrite E0 in Hk. destruct Hk. }
  subst ws. destruct a; cbn [exec1] in E.
  - inversion E; subst. exact E0.
  - unfold sys_setTimeResolution in E. destruct (nleb t n0); inversion E; subst. exact E0.
  - inversion E; subst. exact E0.
  - unfold sys_setRandomSeed, bind, gets in E. destruct (g_feats g); inversion E; subst. exact E0.
  - destruct (Na rates eq_refl).
  - inversion E; subst. exact E0.
  - destruct (enter_ok g [] l); [|discriminate]. unfold sys_initializeWalkers, bind, gets in E.
    destruct (g_feats g) as [|[k f] fs] eqn:Ef; [discriminate|].
    pose proof (h_feat _ _ _ (v_shape _ _ V) k) as Hf. rewrite E0, Ef in Hf. cbn [ulookup] in Hf. rewrite Z.eqb_refl in Hf. discriminate.
  - discriminate.
  - discriminate.
  - unfold sys_getVisits, bind at 1, gets in E. rewrite E0 in E. discriminate.
Qed.

Theorem exec_agree l : forall g ws, inv g ws -> seeded g \/ g_sites g = [] ->
  (forall l1 r l2, l = l1 ++ AInit r :: l2 -> seeded g \/ exists s, In (ASeed s) l1) -> no_drains l ->
  exec clk1 l (g, ws) = exec clk2 l (g, ws).
Proof.
  induction l as [|a l IH]; intros g ws V Hg Hl Hd; [reflexivity|]. cbn [exec].
  assert (Ea : exec1 clk1 a (g, ws) = exec1 clk2 a (g, ws)).
  { apply exec1_agree; [exact V|exact Hg|]. intros r ->. split.
    - destruct (Hl [] r l eq_refl) as [H|(s & [])]. exact H.
    - apply Hd. left; reflexivity. }
  rewrite Ea. destruct (exec1 clk2 a (g, ws)) as [[g1 ws1]|] eqn:E1; [|reflexivity].
  apply IH.
  - eapply (step_inv clk2); [exact V|]. eapply exec1_ok; exact E1.
  - destruct Hg as [Hg|E0]; [left; eapply exec1_seeded; eauto|].
    destruct (match a with AInit r => Some r | _ => None end) as [r|] eqn:Er.
    + destruct a; inversion Er; subst. destruct (Hl [] r l eq_refl) as [H|(s & [])]. left. eapply exec1_seeded; eauto.
    + right. eapply exec1_empty; eauto. intros r ->. discriminate.
  - intros l1 r l2 E. destruct (Hl (a :: l1) r l2) as [H|(s & [->|Hs])]; [cbn; congruence| | |].
    + left. eapply exec1_seeded; eauto.
    + left. cbn [exec1] in E1. unfold sys_setRandomSeed, bind, gets in E1. destruct (g_feats g); inversion E1; subst. eexists; reflexivity.
    + right. eauto.
  - intros r Hr. apply Hd. right; exact Hr.
Qed.
End Seed.
