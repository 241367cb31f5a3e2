(** * The ids of walkers are only names *)
From Coq Require Import ZArith List Bool Lia.
From Verif Require Import Base BaseProofs Num WalkerModel SiteModel SiteProofs ClusterModel ClusterFrame
  ContainerModel BasinModel ClusterCounts SystemModel SystemSpec SystemShape SystemProofs SystemRuns QuerySpec SystemQuery NameSpec.
Import ListNotations.
Open Scope Z_scope.

(** ** Two runs from related states end in the same way *)
Definition follows {S A B} (R : S -> S -> Prop) (Q : A -> B -> Prop) (m : M S A) (m' : M S B) : Prop :=
  forall s s', R s s' ->
  match m s, m' s' with
  | Ret a t, Ret a' t' => Q a a' /\ R t t'
  | Thr e t, Thr e' t' => e = e' /\ R t t'
  | Halt h, Halt h' => h = h'
  | _, _ => False
  end.
Section Follows.
Context {S : Type} (R : S -> S -> Prop).
Lemma f_bind {A A' B B'} (Q : A -> A' -> Prop) (P : B -> B' -> Prop) m m' k k' :
  follows R Q m m' -> (forall a a', Q a a' -> follows R P (k a) (k' a')) -> follows R P (bind m k) (bind m' k').
Proof.
  intros H1 H2 s s' Hs. unfold bind. specialize (H1 s s' Hs).
  destruct (m s), (m' s'); try contradiction; [|assumption|assumption]. destruct H1 as [Hq Ht]. apply H2; assumption.
Qed.
Lemma f_eq {A B} (P : B -> B -> Prop) (m : M S A) m' k k' :
  follows R eq m m' -> (forall a, follows R P (k a) (k' a)) -> follows R P (bind m k) (bind m' k').
Proof. intros H1 H2. eapply f_bind; [exact H1|]. intros a a' <-. apply H2. Qed.
Lemma f_ret {A B} (Q : A -> B -> Prop) a b : Q a b -> follows R Q (ret a) (ret b).
Proof. intros H s s' Hs. cbn. auto. Qed.
Lemma f_throw {A B} (Q : A -> B -> Prop) e : follows R Q (throw e) (throw e).
Proof. intros s s' Hs. cbn. auto. Qed.
Lemma f_stop {A B} (Q : A -> B -> Prop) h : follows R Q (stop h) (stop h).
Proof. intros s s' Hs. reflexivity. Qed.
Lemma f_gets {A B} (Q : A -> B -> Prop) v v' : (forall s s', R s s' -> Q (v s) (v' s')) -> follows R Q (gets v) (gets v').
Proof. intros H s s' Hs. cbn. auto. Qed.
Lemma f_modify v v' : (forall s s', R s s' -> R (v s) (v' s')) -> follows R (@eq unit) (modify v) (modify v').
Proof. intros H s s' Hs. cbn. auto. Qed.
Lemma f_lift {A} (r : res A) : follows R eq (lift r) (lift r).
Proof. intros s s' Hs. destruct r; cbn; auto. Qed.
Lemma f_assert b : follows R eq (cassert b) (cassert b).
Proof. intros s s' Hs. destruct b; cbn; auto. Qed.
Lemma f_mfor {A} (l : list A) b b' : (forall x, In x l -> follows R (@eq unit) (b x) (b' x)) -> follows R eq (mfor l b) (mfor l b').
Proof. intros H. induction l; cbn [mfor]; [apply f_ret; reflexivity|]. apply f_eq; [apply H; left; reflexivity|intros _; apply IHl]. intros; apply H; right; assumption. Qed.
Lemma f_mfor2 {A B} (Q : A -> B -> Prop) l l' b b' : Forall2 Q l l' ->
  (forall x y, Q x y -> follows R (@eq unit) (b x) (b' y)) -> follows R eq (mfor l b) (mfor l' b').
Proof. intros H Hb. induction H; cbn [mfor]; [apply f_ret; reflexivity|]. apply f_eq; auto. Qed.
Lemma f_self {A B} (Q : A -> B -> Prop) k k' :
  (forall s s', R s s' -> follows R Q (k s) (k' s')) -> follows R Q (bind (gets (fun c => c)) k) (bind (gets (fun c => c)) k').
Proof. intros H. eapply f_bind; [apply f_gets with (Q := R); auto|]. intros; apply H; assumption. Qed.
Lemma f_if {A B} (Q : A -> B -> Prop) (b : bool) m1 m2 n1 n2 : follows R Q m1 n1 -> follows R Q m2 n2 -> follows R Q (if b then m1 else m2) (if b then n1 else n2).
Proof. destruct b; auto. Qed.
End Follows.

(** ** Clusters that differ in the names of the walkers that stay in them *)
Section Clusters.
Context {I : Impl} {N : Num} {G : Rng}.
Variable f : Z -> Z.
Variable D : Z -> Prop.
Hypothesis inj : forall i j, D i -> D j -> f i = f j -> i = j.

Definition stays (m m' : umap num) : Prop :=
  NoDup (ukeys m) /\ NoDup (ukeys m') /\ forall w, D w -> ulookup (f w) m' = ulookup w m.
Definition names (c c' : cluster) : Prop := exists r, c' = c_with_remaining r c /\ stays (c_remaining c) r.

Lemma inj_eqb i j : D i -> D j -> (f i =? f j) = (i =? j).
Proof.
  intros Hi Hj. destruct (i =? j) eqn:E; [apply Z.eqb_eq in E; subst; apply Z.eqb_refl|].
  apply Z.eqb_neq in E. apply Z.eqb_neq. intros H. apply E, inj; assumption.
Qed.
Lemma stays_mem m m' w : stays m m' -> D w -> umem (f w) m' = umem w m.
Proof. intros (_ & _ & H) Hw. unfold umem. rewrite H by exact Hw. reflexivity. Qed.
Lemma stays_get m m' w d : stays m m' -> D w -> uget d (f w) m' = uget d w m.
Proof. intros (_ & _ & H) Hw. unfold uget. rewrite H by exact Hw. reflexivity. Qed.
Lemma stays_set m m' w d : stays m m' -> D w -> stays (uset m w d) (uset m' (f w) d).
Proof.
  intros (H1 & H2 & H) Hw. split; [apply uset_NoDup, H1|]. split; [apply uset_NoDup, H2|].
  intros j Hj. rewrite !uset_lookup by assumption. rewrite inj_eqb by assumption. destruct (j =? w); [reflexivity|apply H, Hj].
Qed.
Lemma stays_remove m m' w : stays m m' -> D w -> stays (uremove w m) (uremove (f w) m').
Proof.
  intros (H1 & H2 & H) Hw. split; [apply uremove_NoDup, H1|]. split; [apply uremove_NoDup, H2|].
  intros j Hj. rewrite !uremove_lookup by assumption. rewrite inj_eqb by assumption. destruct (j =? w); [reflexivity|apply H, Hj].
Qed.
Lemma stays_nil : stays [] [].
Proof. repeat split; constructor. Qed.

Ltac fields := cbn [c_id c_occ c_visits c_prev c_tau c_rng c_res c_iters c_tol c_method c_inc c_itau c_remaining c_pnbr c_cnbr c_idwell c_svisits c_sumoff c_sumint c_sites c_hopoff c_hopbet c_pon c_pint c_cint c_with_remaining].
Ltac see :=
  repeat match goal with
    | |- follows _ _ (bind (gets (fun c => c)) _) _ => apply f_self; intros ? ? (? & -> & ?); fields
    | |- follows _ _ (bind _ _) _ => apply f_eq; [|intros]
    | |- follows _ _ (ret _) _ => apply f_ret; reflexivity
    | |- follows _ _ (stop _) _ => apply f_stop
    | |- follows _ _ (lift _) _ => apply f_lift
    | |- follows _ _ (cassert _) _ => apply f_assert
    | |- follows _ eq (gets _) _ => apply f_gets; intros ? ? (? & -> & ?); reflexivity
    | |- follows _ _ (modify _) _ => apply f_modify; intros ? ? (? & -> & ?); eexists; split; [reflexivity|assumption]
    | |- follows _ _ (mfor _ _) _ => apply f_mfor; intros ? _
    | |- follows _ _ (if _ then _ else _) _ => apply f_if
    | |- follows _ _ (match ?x with _ => _ end) _ => destruct x
    end.

Lemma n_occupied k : follows names eq (c <- gets (fun c => c) ;; lift (c_isOccupied c k)) (c <- gets (fun c => c) ;; lift (c_isOccupied c k)).
Proof. see. Qed.
Lemma n_occupy k : follows names eq (c_occupy k) (c_occupy k).
Proof. unfold c_occupy. see. Qed.
Lemma n_occupy0 : follows names eq c_occupy0 c_occupy0.
Proof. unfold c_occupy0. see. Qed.
Lemma n_vacate t k : follows names eq (c_vacate t k) (c_vacate t k).
Proof. unfold c_vacate, c_vacate0. see. Qed.
Lemma n_remove t w w' k : follows names eq (c_removeWalker t w k) (c_removeWalker t w' k).
Proof. apply n_vacate. Qed.
Lemma n_draw : follows names eq c_draw c_draw.
Proof.
  intros s s' (r & -> & H). unfold c_draw. fields. destruct (edraw (c_rng s)) as [u e]. split; [reflexivity|].
  exists r. split; [reflexivity|exact H].
Qed.
Lemma n_dwell w : D w -> follows names eq (c_getDwellTime w) (c_getDwellTime (f w)).
Proof.
  intros Hw. unfold c_getDwellTime. apply f_self. intros c ? (r & -> & H). fields. apply f_eq; [apply f_assert|intros _].
  rewrite (stays_mem _ _ _ H Hw). apply f_eq.
  - apply f_if; [see|]. apply f_eq; [apply n_draw|intros u]. apply f_modify. intros a ? (q & -> & Hq).
    eexists. split; [reflexivity|]. apply (stays_set _ _ _ _ Hq Hw).
  - intros _. clear c r H. apply f_self. intros c ? (r & -> & H). fields. rewrite (stays_get _ _ _ _ H Hw). apply f_eq; [|intros _; see].
    apply f_modify. intros a ? (q & -> & Hq). eexists. split; [reflexivity|]. apply (stays_set _ _ _ _ Hq Hw).
Qed.
Lemma n_pick w : D w -> follows names eq (c_pick w) (c_pick (f w)).
Proof.
  intros Hw. unfold c_pick, c_pickInternal, c_pickNeighbor. apply f_self. intros c ? (r & -> & H).
  unfold c_hopWithin. fields. rewrite (proj2 (proj2 H) w Hw). apply f_eq; [apply f_lift|intros b].
  apply f_if; [see; apply n_draw|]. apply f_eq; [|intros _; see; apply n_draw].
  apply f_modify. intros a ? (q & -> & Hq). eexists. split; [reflexivity|]. apply (stays_remove _ _ _ Hq Hw).
Qed.
Lemma n_addSites l : follows names eq (c_addSites l) (c_addSites l).
Proof. unfold c_addSites, c_addSite. see. Qed.
Lemma n_seed x : follows names eq (c_setRandomSeed x) (c_setRandomSeed x).
Proof. unfold c_setRandomSeed. see. Qed.
Lemma n_resolution x : follows names eq (c_setResolution x) (c_setResolution x).
Proof. unfold c_setResolution. see. Qed.
Lemma n_set v k : follows names eq (c_setVisits v k) (c_setVisits v k).
Proof. unfold c_setVisits. see. Qed.
Lemma spread_other r c d l : forall sv, spread_visits (c_with_remaining r c) d l sv = spread_visits c d l sv.
Proof.
  induction l as [|e l IH]; intros sv; [reflexivity|]. cbn [spread_visits]. fields.
  destruct (ulookup (fst e) (c_sites c)); [|reflexivity]. destruct (ulookup (fst e) (c_idwell c)); [|reflexivity]. apply IH.
Qed.
Lemma n_visits k : follows names eq (c_getVisits k) (c_getVisits k).
Proof.
  unfold c_getVisits. apply f_self. intros c ? (r & -> & H). fields. rewrite spread_other. see.
Qed.
Lemma n_visitList l : follows names eq (c_visitList l) (c_visitList l).
Proof. induction l as [|k l IH]; cbn [c_visitList]; see; [apply n_visits|exact IH]. Qed.
Lemma n_update fuel h : follows names eq (c_update fuel h) (c_update fuel h).
Proof.
  unfold c_update, c_solve, c_calcHopToInternal, c_calcHopToNeighbors, c_calcInternalDwell, c_calcSumOff, c_calcSumInt, c_calcHopOff, c_calcHopBetween, c_calcTau, c_calcITau.
  see; first [apply n_visitList|apply n_set].
Qed.

Definition names2 (p p' : cluster * cluster) : Prop := names (fst p) (fst p') /\ names (snd p) (snd p').
Lemma n_fst {A B} (Q : A -> B -> Prop) m m' : follows names Q m m' -> follows names2 Q (onFst m) (onFst m').
Proof.
  intros H [a b] [a' b'] [Ha Hb]. unfold onFst, zoom. cbn [fst snd] in *. specialize (H a a' Ha).
  destruct (m a), (m' a'); try contradiction; [destruct H; split; [|split]; assumption..|exact H].
Qed.
Lemma n_snd {A B} (Q : A -> B -> Prop) m m' : follows names Q m m' -> follows names2 Q (onSnd m) (onSnd m').
Proof.
  intros H [a b] [a' b'] [Ha Hb]. unfold onSnd, zoom. cbn [fst snd] in *. specialize (H b b' Hb).
  destruct (m b), (m' b'); try contradiction; [destruct H; split; [|split]; assumption..|exact H].
Qed.
Lemma names_sites c c' : names c c' -> c_sites c' = c_sites c.
Proof. intros (? & -> & ?). reflexivity. Qed.
Lemma names_id c c' : names c c' -> c_id c' = c_id c.
Proof. intros (? & -> & ?). reflexivity. Qed.
Lemma n_clear : follows names eq (modify c_clearMigrated) (modify c_clearMigrated).
Proof. apply f_modify. intros c ? (r & -> & H). exists r. split; [reflexivity|exact H]. Qed.
Lemma n_migrate fuel h : follows names2 eq (c_migrate fuel h) (c_migrate fuel h).
Proof.
  unfold c_migrate.
  apply f_eq; [apply f_gets; intros p p' [H _]; symmetry; apply names_id, H|intros i].
  apply f_eq; [apply n_snd; see|intros _].
  apply f_eq; [apply f_gets; intros p p' [_ H]; unfold c_siteIds; rewrite (names_sites _ _ H); reflexivity|intros ids].
  apply f_eq; [apply n_snd, n_visitList|intros vs].
  apply f_eq; [apply f_gets; intros p p' [_ H]; symmetry; apply names_sites, H|intros moved].
  apply f_eq; [apply n_fst; see|intros _].
  apply f_eq; [apply n_snd, n_clear|intros _].
  apply f_eq; [apply n_fst, n_update|intros _].
  apply f_mfor. intros e _. apply n_fst, n_set.
Qed.
End Clusters.

(** ** Systems *)
Section Systems.
Context {I : Impl} {N : Num} {G : Rng} {U : Ugly}.
Hypothesis K : keys_only.
Variable f : Z -> Z.
Variable D : Z -> Prop.
Hypothesis inj : forall i j, D i -> D j -> f i = f j -> i = j.
Notation names := (names f D).

Definition alls (m m' : umap cluster) : Prop := Forall2 (fun e e' => fst e = fst e' /\ names (snd e) (snd e')) m m'.
Definition pair (g g' : world) : Prop := exists m, g' = g_with_clusters m g /\ alls (g_clusters g) m.

Lemma alls_lookup k m m' : alls m m' -> match ulookup k m, ulookup k m' with Some c, Some c' => names c c' | None, None => True | _, _ => False end.
Proof.
  induction 1 as [|[a x] [b y] m m' [E1 E2] H IH]; [exact Logic.I|]. cbn in E1, E2. subst b. cbn [ulookup].
  destruct (k =? a); assumption.
Qed.
Lemma alls_replace k c c' m m' : alls m m' -> names c c' -> alls (ureplace k c m) (ureplace k c' m').
Proof.
  intros H Hc. induction H as [|[a x] [b y] m m' [E1 E2] H IH]; [constructor|]. cbn in E1, E2. subst b. cbn [ureplace].
  destruct (k =? a); constructor; auto.
Qed.
Lemma alls_remove k m m' : alls m m' -> alls (uremove k m) (uremove k m').
Proof.
  intros H. induction H as [|[a x] [b y] m m' [E1 E2] H IH]; [constructor|]. cbn in E1, E2. subst b. cbn [uremove].
  destruct (k =? a); [assumption|constructor; auto].
Qed.
Lemma alls_keys m m' : alls m m' -> ukeys m = ukeys m'.
Proof. induction 1 as [|? ? ? ? [? ?]]; cbn; [reflexivity|]. f_equal; assumption. Qed.
Lemma alls_pairs m m' : alls m m' -> exists w : umap (cluster * cluster), m = vmap fst w /\ m' = vmap snd w /\ Forall (fun e => names (fst (snd e)) (snd (snd e))) w.
Proof.
  induction 1 as [|[a x] [b y] m m' [E1 E2] H (w & -> & -> & Hw)]; [exists []; repeat constructor|].
  cbn in E1, E2. subst b. exists ((a, (x, y)) :: w). repeat constructor; assumption.
Qed.
Lemma pairs_alls (w : umap (cluster * cluster)) : Forall (fun e => names (fst (snd e)) (snd (snd e))) w -> alls (vmap fst w) (vmap snd w).
Proof. induction 1; constructor; auto. Qed.
Lemma alls_set k c c' m m' : alls m m' -> names c c' -> alls (uset m k c) (uset m' k c').
Proof.
  intros H Hc. unfold uset. rewrite (umem_keys _ _ k (alls_keys _ _ H)). destruct (umem k m'); [apply alls_replace; assumption|].
  destruct (alls_pairs _ _ H) as (w & -> & -> & Hw). change c with (fst (c, c')) at 1. change c' with (snd (c, c')) at 2.
  rewrite !K. apply pairs_alls. rewrite Forall_forall in *. intros e He.
  apply (Permutation.Permutation_in _ (hplace_perm _ w k (c, c'))) in He. destruct He as [<-|He]; [exact Hc|apply Hw, He].
Qed.

Lemma p_clusters {A B} (Q : A -> B -> Prop) m m' : follows alls Q m m' -> follows pair Q (in_clusters m) (in_clusters m').
Proof.
  intros H g g' (n & -> & Hn). unfold in_clusters, zoom. cbn [g_clusters g_with_clusters]. specialize (H _ _ Hn).
  destruct (m (g_clusters g)), (m' n); try contradiction; [destruct H as [? H]; (split; [assumption|]); eexists; (split; [reflexivity|exact H])..|exact H].
Qed.
Lemma p_at {A} (Q : A -> A -> Prop) k d m m' : follows alls Q d d ->
  follows names Q m m' -> follows alls Q (at_key k d m) (at_key k d m').
Proof.
  intros Hd H n n' Hn. unfold at_key. pose proof (alls_lookup k _ _ Hn) as L.
  destruct (ulookup k n) as [c|], (ulookup k n') as [c'|]; try contradiction; [|apply Hd, Hn].
  specialize (H c c' L). destruct (m c), (m' c'); try contradiction; [destruct H as [? H]; (split; [assumption|apply alls_replace; assumption])..|exact H].
Qed.
Lemma p_atT {A} (Q : A -> A -> Prop) k e m m' : follows names Q m m' -> follows alls Q (at_key k (throw e) m) (at_key k (throw e) m').
Proof. apply p_at, f_throw. Qed.
Lemma p_atH {A} (Q : A -> A -> Prop) k e m m' : follows names Q m m' -> follows alls Q (at_key k (stop e) m) (at_key k (stop e) m').
Proof. apply p_at, f_stop. Qed.
Lemma p_sites {A} (m : M _ A) : follows pair eq (in_sites m) (in_sites m).
Proof.
  intros g g' (n & -> & Hn). unfold in_sites, zoom. cbn [g_sites g_with_clusters].
  destruct (m (g_sites g)); [(split; [reflexivity|exists n; split; [reflexivity|exact Hn]])..|reflexivity].
Qed.
Lemma p_walker {A} p (m : M _ A) : follows pair eq (in_walker p m) (in_walker p m).
Proof.
  intros g g' (n & -> & Hn). unfold in_walker, zoom. cbn [g_walkers g_with_clusters].
  destruct (at_key p _ m (g_walkers g)); [(split; [reflexivity|exists n; split; [reflexivity|exact Hn]])..|reflexivity].
Qed.
Lemma p_local {S A B} (R : S -> S -> Prop) (Q : A -> B -> Prop) m m' s s' : follows R Q m m' -> R s s' ->
  follows pair (fun x y => Q (fst x) (fst y) /\ R (snd x) (snd y)) (local m s) (local m' s').
Proof.
  intros H Hs g g' Hg. unfold local. specialize (H s s' Hs). destruct (m s), (m' s'); try contradiction; [split; [exact H|exact Hg]|split; [apply H|exact Hg]|exact H].
Qed.
Lemma p_local_eq {S A} (m : M S A) s : follows pair eq (local m s) (local m s).
Proof. intros g g' Hg. unfold local. destruct (m s); cbn; auto. Qed.

Ltac look :=
  repeat match goal with
    | |- follows _ _ (bind _ _) _ => apply f_eq; [|intros]
    | |- follows _ _ (ret _) _ => apply f_ret; reflexivity
    | |- follows _ _ (stop _) _ => apply f_stop
    | |- follows _ _ (throw _) _ => apply f_throw
    | |- follows _ _ (lift _) _ => apply f_lift
    | |- follows _ _ (in_sites _) _ => apply p_sites
    | |- follows _ _ (in_walker _ _) _ => apply p_walker
    | |- follows _ _ (local _ _) _ => apply p_local_eq
    | |- follows _ eq (gets _) _ => apply f_gets; intros ? ? (? & -> & ?); reflexivity
    | |- follows _ _ (modify _) _ => apply f_modify; intros ? ? (? & -> & ?); eexists; split; [reflexivity|assumption]
    | |- follows _ _ (mfor _ _) _ => apply f_mfor; intros ? _
    | |- follows _ _ (if _ then _ else _) _ => apply f_if
    | |- follows _ _ (match ?x with _ => _ end) _ => destruct x
    end.

Variable clk : Z -> Z.
Lemma p_tick : follows pair eq next_tick next_tick.
Proof. intros g g' (n & -> & Hn). split; [reflexivity|]. exists n. split; [reflexivity|exact Hn]. Qed.
Lemma p_clock : follows pair eq (read_clock clk) (read_clock clk).
Proof. unfold read_clock. look. apply p_tick. Qed.
Lemma p_useseed : follows pair eq use_seed use_seed.
Proof.
  intros g g' (n & -> & Hn). unfold use_seed. cbn [g_seed g_with_clusters].
  destruct (g_seed g); (split; [reflexivity|]); exists n; (split; [reflexivity|exact Hn]).
Qed.
Lemma p_new : follows pair (fun c c' => c' = c /\ c_remaining c = []) (new_cluster clk) (new_cluster clk).
Proof. unfold new_cluster. look; [apply p_clock|]. apply f_ret. split; reflexivity. Qed.
Lemma p_feature {A} k (ms ms' : M _ A) mc mc' : ms' = ms -> follows names eq mc mc' -> follows pair eq (on_feature k ms mc) (on_feature k ms' mc').
Proof. intros -> H. unfold on_feature. look. apply p_clusters, p_atH, H. Qed.

Lemma p_init rates : follows pair eq (sys_initializeSystem clk rates) (sys_initializeSystem clk rates).
Proof. unfold sys_initializeSystem, init_site, init_drain. look; first [apply p_clock|apply p_useseed]. Qed.
Lemma p_enter l : (forall i, In i (map fst l) -> D i) ->
  follows pair eq (sys_initializeWalkers l) (sys_initializeWalkers (map (fun w => (f (fst w), snd w)) l)).
Proof.
  intros Hl. unfold sys_initializeWalkers. apply f_eq; [look|intros [|x y]]; [look|].
  apply f_mfor2 with (Q := fun w w' => D (fst w) /\ w' = (f (fst w), snd w)).
  - clear x y. induction l as [|w l IH]; constructor; [split; [apply Hl; left; reflexivity|reflexivity]|]. apply IH. intros; apply Hl; right; assumption.
  - intros w ? [Hw ->]. cbn [fst snd]. unfold init_walker, f_occupy0, f_getDwellTime, f_pick.
    look; apply p_feature; first [reflexivity|apply n_occupy0|apply n_dwell; assumption|apply n_pick; assumption].
Qed.
Lemma p_leave id p : follows pair eq (sys_removeWalker clk id p) (sys_removeWalker clk (f id) p).
Proof. unfold sys_removeWalker, f_removeWalker. look; [apply p_clock|apply p_feature; [reflexivity|apply n_remove]]. Qed.
Lemma p_move id p src dst : D id -> follows pair eq (hop_move clk id p src dst) (hop_move clk (f id) p src dst).
Proof.
  intros Hd. unfold hop_move, f_isOccupied, f_vacate, f_occupy, f_getDwellTime, f_pick.
  look; first [apply p_clock|apply p_feature; [reflexivity|]; first [apply n_occupied|apply n_vacate|apply n_occupy|apply n_dwell; assumption|apply n_pick; assumption]].
Qed.
Lemma p_basin fuel nonce h b s m m' k : alls m m' -> find_basin fuel nonce h b s m' k = find_basin fuel nonce h b s m k.
Proof.
  intros H. unfold find_basin. destruct (ask (sc_getFastest h k) s); cbn [rbind]; try reflexivity.
  destruct (ask (sc_partOfCluster k) s) as [[]| |]; cbn [rbind]; try reflexivity.
  destruct (ask (sc_getClusterId k) s) as [c| |]; cbn [rbind]; try reflexivity.
  pose proof (alls_lookup c _ _ H) as L. unfold ask, cc_getCluster, read_key.
  destruct (ulookup c m), (ulookup c m'); try destruct L as (r & -> & L); cbn [lift rbind]; try reflexivity; destruct L.
Qed.
Lemma p_copy ids : follows pair eq (copy_sites ids) (copy_sites ids).
Proof. induction ids; cbn [copy_sites]; look. exact IHids. Qed.
Lemma p_create fuel ids limit : follows pair eq (create_cluster clk fuel ids limit) (create_cluster clk fuel ids limit).
Proof.
  unfold create_cluster. eapply f_bind; [apply p_new|]. intros c0 ? [-> Hr].
  assert (H0 : names c0 c0). { exists []. split; [destruct c0; cbn in Hr |- *; subst; reflexivity|]. rewrite Hr. apply stays_nil. }
  apply f_eq; [apply p_copy|intros l]. apply f_eq; [look|intros h].
  eapply f_bind; [apply p_local with (R := names) (Q := eq); [|exact H0]|].
  { unfold c_setMethod, c_setTolerance.
    apply f_eq; [apply f_modify; intros ? ? (? & -> & ?); eexists; split; [reflexivity|assumption]|intros _].
    apply f_eq; [apply f_eq; [apply f_assert|intros _]; apply f_modify; intros ? ? (? & -> & ?); eexists; split; [reflexivity|assumption]|intros _].
    apply f_eq; [apply n_addSites|intros _; apply n_update]. }
  intros x x' [_ Hx]. apply f_eq; [look|intros tres]. destruct tres as [tres|]; [|look].
  assert (Et : c_getTimeConstant (snd x') = c_getTimeConstant (snd x)) by (destruct Hx as (r & -> & _); reflexivity). rewrite Et.
  eapply f_bind; [apply p_local with (R := names) (Q := eq); [apply n_resolution|exact Hx]|]. intros y y' [_ Hy].
  apply f_eq; [apply p_useseed|intros seed].
  eapply f_bind; [apply p_local with (R := names) (Q := eq); [|exact Hy]|].
  { destruct seed; [apply n_seed|apply f_ret; reflexivity]. }
  intros z z' [_ Hz]. apply f_eq.
  { apply p_clusters. unfold cc_addCluster. apply f_self. intros m m' Hm. rewrite <- (names_id _ _ _ _ Hz).
    rewrite (umem_keys _ _ _ (alls_keys _ _ Hm)). replace (c_id (snd z)) with (c_id (snd z')) by apply (names_id _ _ _ _ Hz).
    apply f_if; [apply f_throw|]. apply f_modify. intros q q' Hq. apply alls_set; assumption. }
  intros _. eapply f_bind; [apply p_new|]. intros _ _ _. look.
Qed.
Lemma p_get k : follows alls names (cc_getCluster k) (cc_getCluster k).
Proof.
  intros m m' Hm. unfold cc_getCluster, read_key. pose proof (alls_lookup k _ _ Hm) as L.
  destruct (ulookup k m), (ulookup k m'); try contradiction; cbn; auto.
Qed.
Lemma p_scan fav sac : forall iso cids, follows pair eq (merge_scan fav sac iso cids) (merge_scan fav sac iso cids).
Proof.
  induction sac as [|[k c] sac IH]; intros iso cids; cbn [merge_scan]; [apply f_ret; reflexivity|].
  apply f_if; [apply IH|]. apply f_eq; [look|intros]. eapply f_bind; [apply p_clusters, p_get|]. intros ? ? _.
  look. apply IH.
Qed.
Lemma p_absorb fuel fav c : follows pair eq (absorb fuel fav c) (absorb fuel fav c).
Proof.
  unfold absorb. eapply f_bind; [apply p_clusters, p_get|]. intros a a' Ha.
  eapply f_bind; [apply p_clusters, p_get|]. intros b b' Hb. apply f_eq; [look|intros h].
  eapply f_bind; [apply p_local with (R := names2 f D); [apply n_migrate|split; assumption]|].
  intros p p' [_ [H1 H2]].
  apply f_eq; [apply p_clusters, f_modify; intros; apply alls_replace; assumption|intros].
  apply f_eq; [apply p_clusters, f_modify; intros; apply alls_replace; assumption|intros].
  apply p_clusters. unfold cc_erase. apply f_modify. intros. apply alls_remove; assumption.
Qed.
Lemma p_merge fuel sac fav : follows pair eq (merge_clusters fuel sac fav) (merge_clusters fuel sac fav).
Proof.
  unfold merge_clusters. look; first [apply p_scan|apply p_absorb|apply p_clusters, p_atT; first [apply n_addSites|apply n_update]].
Qed.
Lemma p_equil ids limit : follows pair eq (equilibrium ids limit) (equilibrium ids limit).
Proof. unfold equilibrium. apply f_self. intros g g' (m & -> & Hm). cbn [g_heap g_sites g_perf g_res g_with_clusters]. look. Qed.
Lemma p_clusters_of ids : forall acc, follows pair eq (clusters_of ids acc) (clusters_of ids acc).
Proof. induction ids as [|k ids IH]; intros acc; cbn [clusters_of]; look. apply IH. Qed.
Lemma p_grain fuel k : follows pair eq (coarse_grain clk fuel k) (coarse_grain clk fuel k).
Proof.
  unfold coarse_grain. apply f_eq; [apply p_tick|intros nonce]. apply f_self. intros g g' (m & -> & Hm).
  cbn [g_heap g_sites g_clusters g_with_clusters]. rewrite (p_basin _ _ _ _ _ _ _ _ Hm).
  apply f_eq; [look|intros ids]. apply f_eq; [apply p_equil|intros ok].
  look; first [apply p_clusters_of|apply p_create|apply p_merge].
Qed.
Lemma p_attempt fuel k : follows pair eq (hop_attempt clk fuel k) (hop_attempt clk fuel k).
Proof. unfold hop_attempt. look. apply p_grain. Qed.
Lemma p_hop fuel id p : D id -> follows pair eq (sys_hop clk fuel id p) (sys_hop clk fuel (f id) p).
Proof. intros Hd. unfold sys_hop. look; [apply p_move, Hd|apply p_attempt]. Qed.
Lemma p_visits k : follows pair eq (sys_getVisits k) (sys_getVisits k).
Proof. unfold sys_getVisits. look. apply p_clusters, p_atT, n_visits. Qed.

(** ** Programs *)
Lemma pair_enter g g' ws l : pair g g' -> enter_ok g' ws (map (fun w => (f (fst w), snd w)) l) = enter_ok g ws l.
Proof.
  intros (m & -> & H). unfold enter_ok, cur_of, sys_getClusterId, in_sites, zoom. rewrite map_map. cbn [snd g_walkers g_sites g_with_clusters].
  f_equal. apply forallb_ext'. intros p. destruct (sc_getClusterId _ (g_sites g)); reflexivity.
Qed.
Definition both (r r' : option (world * list Z)) : Prop :=
  match r, r' with Some x, Some x' => snd x' = snd x /\ pair (fst x) (fst x') | None, None => True | _, _ => False end.
Lemma after_both {A} (o o' : M world A) g g' ws : follows pair eq o o' -> pair g g' -> both (after (o g) ws) (after (o' g') ws).
Proof. intros H Hg. specialize (H g g' Hg). destruct (o g), (o' g'); try contradiction; cbn; [|exact Logic.I..]. split; [reflexivity|apply H]. Qed.
Lemma ends_both {A} (o o' : M world A) g g' : follows pair eq o o' -> pair g g' -> ends (o' g') = ends (o g).
Proof. intros H Hg. specialize (H g g' Hg). destruct (o g), (o' g'); try contradiction; cbn; [reflexivity|f_equal; symmetry; apply H|f_equal; symmetry; exact H]. Qed.
Lemma exec1_both a g g' ws : (forall i, In i (ids_of a) -> D i) -> pair g g' -> both (exec1 clk a (g, ws)) (exec1 clk (rename f a) (g', ws)).
Proof.
  intros Ha Hg. destruct a; cbn [exec1 rename ids_of] in *.
  - apply after_both; [unfold sys_setPerformanceRatio; look|exact Hg].
  - apply after_both; [unfold sys_setTimeResolution; look|exact Hg].
  - apply after_both; [unfold sys_setThreshold; look|exact Hg].
  - apply after_both; [unfold sys_setRandomSeed; look|exact Hg].
  - destruct (rates_ok rates); [|exact Logic.I]. apply after_both; [apply p_init|exact Hg].
  - split; [reflexivity|]. destruct Hg as (m & -> & Hm). exists m. split; [reflexivity|exact Hm].
  - rewrite (pair_enter _ _ _ _ Hg). destruct (enter_ok g ws l); [|exact Logic.I].
    rewrite map_map. cbn [snd]. apply after_both; [apply p_enter, Ha|exact Hg].
  - destruct (existsb (Z.eqb p) ws); [|exact Logic.I]. apply after_both; [apply p_hop, Ha; left; reflexivity|exact Hg].
  - destruct (existsb (Z.eqb p) ws); [|exact Logic.I]. apply after_both; [apply p_leave|exact Hg].
  - apply after_both; [apply p_visits|exact Hg].
Qed.
Lemma outcome_both a g g' : (forall i, In i (ids_of a) -> D i) -> pair g g' -> outcome_of clk (rename f a) g' = outcome_of clk a g.
Proof.
  intros Ha Hg. destruct a; cbn [outcome_of rename ids_of] in *; try reflexivity; apply ends_both; try exact Hg;
    try (unfold sys_setTimeResolution, sys_setThreshold, sys_setRandomSeed; look; fail).
  - apply p_init.
  - apply p_enter, Ha.
  - apply p_hop, Ha; left; reflexivity.
  - apply p_leave.
  - apply p_visits.
Qed.
Lemma exec_both l : forall g g' ws, (forall i, In i (flat_map ids_of l) -> D i) -> pair g g' -> both (exec clk l (g, ws)) (exec clk (map (rename f) l) (g', ws)).
Proof.
  induction l as [|a l IH]; intros g g' ws Hl Hg; cbn [exec map]; [split; [reflexivity|exact Hg]|].
  cbn [flat_map] in Hl. pose proof (exec1_both a g g' ws (fun i Hi => Hl i (in_or_app _ _ _ (or_introl Hi))) Hg) as H.
  destruct (exec1 clk a (g, ws)) as [[g1 ws1]|], (exec1 clk (rename f a) (g', ws)) as [[g2 ws2]|]; try contradiction; [|exact Logic.I].
  destruct H as [E H]. cbn [fst snd] in E, H. subst ws2. apply IH; [intros i Hi; apply Hl, in_or_app; right; exact Hi|exact H].
Qed.
Lemma alls_per {V} (v : cluster -> V) m m' : (forall c c', names c c' -> v c' = v c) -> alls m m' -> per_cluster v m' = per_cluster v m.
Proof.
  intros Hv H. unfold per_cluster. generalize (@nil (Z * V)). induction H as [|[a x] [b y] m m' [E1 E2] H IH]; intros acc; [reflexivity|].
  cbn in E1, E2. subst b. cbn [fold_left fst snd]. rewrite (Hv _ _ E2). apply IH.
Qed.
Lemma follows_iff {A} (m m' : M world A) g g' : follows pair eq m m' -> pair g g' -> forall a, (exists x, m g = Ret a x) <-> exists x, m' g' = Ret a x.
Proof.
  intros H Hg a. specialize (H g g' Hg). destruct (m g), (m' g'); try contradiction; try (split; intros (x & E); discriminate).
  destruct H as [<- _]. split; intros (x & E); inversion E; subst; eauto.
Qed.
Lemma pair_answers g g' : pair g g' -> same_answers g g'.
Proof.
  intros Hg. split; [destruct Hg as (m & -> & H); reflexivity|].
  assert (P : forall V (v : cluster -> V), (forall c c', names c c' -> v c' = v c) ->
    follows pair eq (in_clusters (gets (per_cluster v))) (in_clusters (gets (per_cluster v)))).
  { intros V v Hv. apply p_clusters, f_gets. intros m m' Hm. symmetry. apply alls_per; assumption. }
  split; [apply follows_iff; [apply P; intros ? ? (? & -> & ?); reflexivity|exact Hg]|].
  split; [apply follows_iff; [apply P; intros ? ? (? & -> & ?); reflexivity|exact Hg]|].
  split; [apply follows_iff; [apply P; intros ? ? (? & -> & ?); reflexivity|exact Hg]|].
  split; [intros k; apply follows_iff; [unfold sys_getClusterId; look|exact Hg]|].
  split; [intros k; apply follows_iff; [unfold f_isOccupied; apply p_feature; [reflexivity|apply n_occupied]|exact Hg]|].
  intros k; apply follows_iff; [apply p_visits|exact Hg].
Qed.
Lemma pair_new w h n t : pair (world_new w h n t) (world_new w h n t).
Proof. exists []. split; [reflexivity|constructor]. Qed.
End Systems.
