(** * Walkers a system does not use do not matter to it *)
From Coq Require Import ZArith List Bool Lia.
From Verif Require Import Base BaseProofs Num WalkerModel SiteModel ClusterModel ContainerModel BasinModel
  SystemModel SystemSpec SystemShape SystemProofs SystemRuns SystemName.
Import ListNotations.
Open Scope Z_scope.

Section Apart.
Context {I : Impl} {N : Num} {G : Rng} {U : Ugly}.
Variable P : Z -> Prop.
(** the same but for walkers outside [P] *)
Definition same_here (g g' : world) : Prop :=
  exists w', g' = g_with_walkers w' g /\ forall p, P p -> ulookup p w' = ulookup p (g_walkers g).
Lemma same_here_refl g : same_here g g.
Proof. exists (g_walkers g). split; [destruct g; reflexivity|auto]. Qed.

Lemma w_sites {A} (m : M _ A) : follows same_here eq (in_sites m) (in_sites m).
Proof.
  intros g g' (n & -> & Hn). unfold in_sites, zoom. cbn [g_sites g_with_walkers].
  destruct (m (g_sites g)); [(split; [reflexivity|exists n; split; [reflexivity|exact Hn]])..|reflexivity].
Qed.
Lemma w_clusters {A} (m : M _ A) : follows same_here eq (in_clusters m) (in_clusters m).
Proof.
  intros g g' (n & -> & Hn). unfold in_clusters, zoom. cbn [g_clusters g_with_walkers].
  destruct (m (g_clusters g)); [(split; [reflexivity|exists n; split; [reflexivity|exact Hn]])..|reflexivity].
Qed.
Lemma w_walker {A} p (m : M _ A) : P p -> follows same_here eq (in_walker p m) (in_walker p m).
Proof.
  intros Hp g g' (n & -> & Hn). unfold in_walker, zoom, at_key. cbn [g_walkers g_with_walkers]. rewrite (Hn p Hp).
  assert (X : forall w q, P q -> ulookup q (ureplace p w n) = ulookup q (ureplace p w (g_walkers g))).
  { intros w q Hq. rewrite !ureplace_lookup. unfold umem. rewrite (Hn p Hp), (Hn q Hq). reflexivity. }
  destruct (ulookup p (g_walkers g)) as [w|] eqn:E; [|reflexivity].
  destruct (m w) as [a s|e s|h]; [| |reflexivity]; (split; [reflexivity|]); eexists; (split; [reflexivity|]); cbn [g_walkers g_with_walkers]; apply X.
Qed.
Lemma w_local {S A} (m : M S A) s : follows same_here eq (local m s) (local m s).
Proof. intros g g' Hg. unfold local. destruct (m s); cbn; auto. Qed.

Ltac look :=
  repeat match goal with
    | |- follows _ _ (bind (gets (fun c => c)) _) _ => apply f_self; intros ? ? (? & -> & ?); cbn [g_heap g_sites g_clusters g_perf g_res g_with_walkers]
    | |- follows _ _ (bind _ _) _ => apply f_eq; [|intros]
    | |- follows _ _ (ret _) _ => apply f_ret; reflexivity
    | |- follows _ _ (stop _) _ => apply f_stop
    | |- follows _ _ (throw _) _ => apply f_throw
    | |- follows _ _ (lift _) _ => apply f_lift
    | |- follows _ _ (in_sites _) _ => apply w_sites
    | |- follows _ _ (in_clusters _) _ => apply w_clusters
    | |- follows _ _ (in_walker _ _) _ => apply w_walker; assumption
    | |- follows _ _ (local _ _) _ => apply w_local
    | |- follows _ eq (gets _) _ => apply f_gets; intros ? ? (? & -> & ?); reflexivity
    | |- follows _ _ (modify _) _ => apply f_modify; intros ? ? (? & -> & ?); eexists; split; [reflexivity|assumption]
    | |- follows _ _ (mfor _ _) _ => apply f_mfor; intros ? ?
    | |- follows _ _ (if _ then _ else _) _ => apply f_if
    | |- follows _ _ (match ?x with _ => _ end) _ => destruct x
    end.

Variable clk : Z -> Z.
Lemma w_tick : follows same_here eq next_tick next_tick.
Proof. intros g g' (n & -> & Hn). split; [reflexivity|]. exists n. split; [reflexivity|exact Hn]. Qed.
Lemma w_clock : follows same_here eq (read_clock clk) (read_clock clk).
Proof. unfold read_clock. look. apply w_tick. Qed.
Lemma w_useseed : follows same_here eq use_seed use_seed.
Proof.
  intros g g' (n & -> & Hn). unfold use_seed. cbn [g_seed g_with_walkers].
  destruct (g_seed g); (split; [reflexivity|]); exists n; (split; [reflexivity|exact Hn]).
Qed.
Lemma w_new : follows same_here eq (new_cluster clk) (new_cluster clk).
Proof. unfold new_cluster. look. apply w_clock. Qed.
Lemma w_feature {A} k (ms : M _ A) mc : follows same_here eq (on_feature k ms mc) (on_feature k ms mc).
Proof. unfold on_feature. look. Qed.
Lemma w_init r : follows same_here eq (sys_initializeSystem clk r) (sys_initializeSystem clk r).
Proof. unfold sys_initializeSystem, init_site, init_drain. look; try apply w_clock; apply w_useseed. Qed.
Lemma w_enter l : (forall p, In p (map snd l) -> P p) -> follows same_here eq (sys_initializeWalkers l) (sys_initializeWalkers l).
Proof.
  intros H. assert (X : forall x, In x l -> follows same_here eq (init_walker (fst x) (snd x)) (init_walker (fst x) (snd x))).
  { intros x Hx. assert (Px : P (snd x)) by (apply H, in_map, Hx). unfold init_walker, f_occupy0, f_getDwellTime, f_pick. look; apply w_feature. }
  unfold sys_initializeWalkers. look. apply X; assumption.
Qed.
Lemma w_leave id p : P p -> follows same_here eq (sys_removeWalker clk id p) (sys_removeWalker clk id p).
Proof. intros H. unfold sys_removeWalker, f_removeWalker. look; [apply w_clock|apply w_feature]. Qed.
Lemma w_equilibrium ids x : follows same_here eq (equilibrium ids x) (equilibrium ids x).
Proof. unfold equilibrium. look. Qed.
Lemma w_clusters_of ids : forall acc, follows same_here eq (clusters_of ids acc) (clusters_of ids acc).
Proof. induction ids; intros acc; cbn [clusters_of]; look. apply IHids. Qed.
Lemma w_copy ids : follows same_here eq (copy_sites ids) (copy_sites ids).
Proof. induction ids; cbn [copy_sites]; look. apply IHids. Qed.
Lemma w_create fuel ids x : follows same_here eq (create_cluster clk fuel ids x) (create_cluster clk fuel ids x).
Proof. unfold create_cluster. look; try apply w_new; try apply w_copy; apply w_useseed. Qed.
Lemma w_scan fav sac : forall iso cids, follows same_here eq (merge_scan fav sac iso cids) (merge_scan fav sac iso cids).
Proof. induction sac as [|[k c] sac IH]; intros iso cids; cbn [merge_scan]; look; apply IH. Qed.
Lemma w_absorb fuel fav c : follows same_here eq (absorb fuel fav c) (absorb fuel fav c).
Proof. unfold absorb. look. Qed.
Lemma w_merge fuel sac fav : follows same_here eq (merge_clusters fuel sac fav) (merge_clusters fuel sac fav).
Proof. unfold merge_clusters. look; [apply w_scan|apply w_absorb]. Qed.
Lemma w_grain fuel k : follows same_here eq (coarse_grain clk fuel k) (coarse_grain clk fuel k).
Proof. unfold coarse_grain. look; try apply w_tick; try apply w_equilibrium; try apply w_clusters_of; try apply w_create; apply w_merge. Qed.
Lemma w_hop fuel id p : P p -> follows same_here eq (sys_hop clk fuel id p) (sys_hop clk fuel id p).
Proof.
  intros H. unfold sys_hop, hop_move, hop_attempt, f_isOccupied, f_vacate, f_occupy, f_getDwellTime, f_pick.
  look; try apply w_clock; try apply w_feature; apply w_grain.
Qed.
Lemma w_visits k : follows same_here eq (sys_getVisits k) (sys_getVisits k).
Proof. unfold sys_getVisits. look. Qed.

(** the walkers a call brings in *)
Definition comes (a : act) : list Z := match a with AEnter l => map snd l | _ => [] end.
Lemma w_ok g g' ws l : same_here g g' -> (forall p, In p ws -> P p) -> (forall p, In p (map snd l) -> P p) -> enter_ok g' ws l = enter_ok g ws l.
Proof.
  intros (n & -> & Hn) Hw Hl.
  assert (C : forall p, P p -> cur_of (g_with_walkers n g) p = cur_of g p).
  { intros p Hp. unfold cur_of. cbn [g_walkers g_with_walkers]. rewrite Hn; auto. }
  assert (F : forall (f f' : Z -> bool) (m : list Z), (forall x, In x m -> f x = f' x) -> forallb f m = forallb f' m).
  { intros f f' m. induction m as [|x m IH]; cbn; intros E; [reflexivity|]. rewrite E by auto. rewrite IH by auto. reflexivity. }
  assert (X : forall (f f' : Z -> bool) (m : list Z), (forall x, In x m -> f x = f' x) -> existsb f m = existsb f' m).
  { intros f f' m. induction m as [|x m IH]; cbn; intros E; [reflexivity|]. rewrite E by auto. rewrite IH by auto. reflexivity. }
  unfold enter_ok. f_equal; [f_equal; [f_equal|]|].
  - f_equal. apply map_ext_in. intros p Hp. apply C, Hl, Hp.
  - apply F. intros p Hp. f_equal. apply X. intros q Hq. rewrite (C q), (C p); auto.
  - apply F. intros p Hp. rewrite (C p) by auto. unfold sys_getClusterId, in_sites, zoom. cbn [g_sites g_with_walkers].
    destruct (sc_getClusterId (cur_of g p) (g_sites g)); reflexivity.
Qed.
Definition alike (o o' : option (world * list Z)) : Prop :=
  match o, o' with
  | Some (g, ws), Some (g', ws') => ws' = ws /\ same_here g g' /\ (forall p, In p ws -> P p)
  | None, None => True
  | _, _ => False
  end.
Lemma after_alike {A} (m : M world A) g g' ws : follows same_here eq m m -> same_here g g' -> (forall p, In p ws -> P p) -> alike (after (m g) ws) (after (m g') ws).
Proof.
  intros F H Hw. specialize (F g g' H). destruct (m g), (m g'); try contradiction; cbn; auto. destruct F as [_ F]. auto.
Qed.
Lemma in_P p ws : existsb (Z.eqb p) ws = true -> (forall p, In p ws -> P p) -> P p.
Proof. intros E H. apply H, in_ok, E. Qed.
Lemma exec1_alike a g g' ws : same_here g g' -> (forall p, In p ws -> P p) -> (forall p, In p (comes a) -> P p) ->
  alike (exec1 clk a (g, ws)) (exec1 clk a (g', ws)).
Proof.
  intros H Hw Ha. destruct a; cbn [exec1 comes] in *.
  - apply after_alike; auto. unfold sys_setPerformanceRatio. look.
  - apply after_alike; auto. unfold sys_setTimeResolution. look.
  - apply after_alike; auto. unfold sys_setThreshold. look.
  - apply after_alike; auto. unfold sys_setRandomSeed. look.
  - destruct (rates_ok rates); [|exact Logic.I]. apply after_alike; auto. apply w_init.
  - cbn. split; [reflexivity|]. split; [|exact Hw]. destruct H as (n & -> & Hn). exists n. split; [reflexivity|exact Hn].
  - rewrite (w_ok g g' ws l H Hw Ha). destruct (enter_ok g ws l); [|exact Logic.I]. apply after_alike; auto; [apply w_enter, Ha|].
    intros p Hp. apply in_app_iff in Hp. destruct Hp; auto.
  - destruct (existsb (Z.eqb p) ws) eqn:E; [|exact Logic.I]. apply after_alike; auto. apply w_hop. eapply in_P; eauto.
  - destruct (existsb (Z.eqb p) ws) eqn:E; [|exact Logic.I]. apply after_alike; auto; [apply w_leave; eapply in_P; eauto|].
    intros q Hq. apply Hw. eapply in_remove; exact Hq.
  - apply after_alike; auto. apply w_visits.
Qed.
End Apart.
