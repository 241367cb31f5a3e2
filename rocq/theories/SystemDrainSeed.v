(** * The clock does not reach a seeded system through its drains *)
From Coq Require Import ZArith List Bool Lia.
From Verif Require Import Base BaseProofs Num WalkerModel SiteModel SiteProofs ClusterModel ClusterFrame
  ContainerModel BasinModel ClusterCounts SystemModel SystemSpec SystemShape SystemHop SystemCoarse SystemMerge SystemProofs
  SystemFacts SystemRuns QuerySpec SystemQuery NameSpec SeedSpec.
From Verif Require UnitNum SystemSeed SystemName.
Import ListNotations.
Import SystemSeed SystemName UnitNum.
Open Scope Z_scope.

Lemma follows_through {S A} (f : S -> S) (m : M S A) : blind f m -> follows (fun s s' => f s = f s') eq m m.
Proof.
  intros B s s' Hs. pose proof (B s) as B1. pose proof (B s') as B2. rewrite Hs in B1. rewrite B1 in B2.
  destruct (m s), (m s'); cbn [lets] in B2; inversion B2; auto.
Qed.

(** ** Clusters whose members differ in their engines *)
Section Erase.
Context {I : Impl} {N : Num} {G : Rng}.
Hypothesis K : keys_only.

Definition noeng (s : site) : site := s_with_rng (eseed 0) s.
Notation ve := (vmap noeng).
Definition era (c : cluster) : cluster := c_with_sites (ve (c_sites c)) c.
Definition like (c c' : cluster) : Prop := era c = era c'.

Lemma e_mem k m : umem k (ve m) = umem k m.
Proof. apply vm_mem. Qed.
Lemma e_keys m : ukeys (ve m) = ukeys m.
Proof. apply vm_keys. Qed.
Lemma e_length m : length (ve m) = length m.
Proof. apply vm_length. Qed.
Lemma e_set k s m : uset (ve m) k (noeng s) = ve (uset m k s).
Proof. apply (vm_set K). Qed.
Lemma e_rates_where h keep m : rates_where h keep (ve m) = rates_where h keep m.
Proof.
  unfold rates_where. generalize ([] : umap (umap num)). induction m as [|e m IH]; intros acc; [reflexivity|].
  cbn [vmap map fold_left fst snd]. apply IH.
Qed.
Lemma rates_where_ext h f g m : (forall k, f k = g k) -> rates_where h f m = rates_where h g m.
Proof.
  intros E. unfold rates_where. generalize ([] : umap (umap num)). induction m as [|e m IH]; intros acc; [reflexivity|].
  cbn [fold_left]. rewrite IH. f_equal. generalize acc. induction (s_neigh (snd e)) as [|x l IHl]; intros a; [reflexivity|].
  cbn [fold_left]. rewrite E. apply IHl.
Qed.
Lemma e_ext h m : ext_rates h (ve m) = ext_rates h m.
Proof. unfold ext_rates. rewrite e_rates_where. apply rates_where_ext. intros k. rewrite e_mem. reflexivity. Qed.
Lemma e_int h m : int_rates h (ve m) = int_rates h m.
Proof. unfold int_rates. rewrite e_rates_where. apply rates_where_ext. intros k. apply e_mem. Qed.
Lemma e_tau m k : tau_of (ve m) k = tau_of m k.
Proof. unfold tau_of. rewrite vm_lookup. destruct (ulookup k m); reflexivity. Qed.
Lemma e_weigh m p : weigh_tau (ve m) p = weigh_tau m p.
Proof. induction p as [|e p IH]; [reflexivity|]. cbn [weigh_tau]. rewrite e_tau, IH. reflexivity. Qed.
Lemma e_sumtaus m p : forall a, sum_taus (ve m) p a = sum_taus m p a.
Proof. induction p as [|e p IH]; intros a; [reflexivity|]. cbn [sum_taus]. rewrite e_tau. destruct (tau_of m (fst e)); cbn [rbind]; auto. Qed.
Lemma e_hopoff m so sr st p : hopoff_raw (ve m) so sr st p = hopoff_raw m so sr st p.
Proof. induction p as [|e p IH]; [reflexivity|]. cbn [hopoff_raw]. rewrite e_tau, IH. reflexivity. Qed.
Lemma e_hopbet m p l : hopbet_raw (ve m) p l = hopbet_raw m p l.
Proof. induction l as [|e l IH]; [reflexivity|]. cbn [hopbet_raw]. rewrite e_tau, IH. reflexivity. Qed.
Lemma e_exit m p : exit_weights (ve m) p = exit_weights m p.
Proof.
  unfold exit_weights.
  assert (X : forall q l acc,
    fold_left (fun acc e => fold_left (fun acc n => a <-! acc; (if umem n (ve q) then Ok a
      else t <-! s_probTo (snd e) n; Ok (match ulookup n a with Some w => uset a n (nadd w (nmul t (uget n0 (fst e) p))) | None => uset a n (nmul t (uget n0 (fst e) p)) end)))
      (s_neighIds (snd e)) acc) (ve l) acc =
    fold_left (fun acc e => fold_left (fun acc n => a <-! acc; (if umem n q then Ok a
      else t <-! s_probTo (snd e) n; Ok (match ulookup n a with Some w => uset a n (nadd w (nmul t (uget n0 (fst e) p))) | None => uset a n (nmul t (uget n0 (fst e) p)) end)))
      (s_neighIds (snd e)) acc) l acc).
  { intros q. induction l as [|e l IH]; intros acc; [reflexivity|]. cbn [vmap map fold_left fst snd].
    change (map (fun e => (fst e, noeng (snd e))) l) with (ve l). rewrite IH. f_equal.
    change (s_neighIds (noeng (snd e))) with (s_neighIds (snd e)).
    revert acc. generalize (s_neighIds (snd e)). intros ns. induction ns as [|n ns IHn]; intros acc; [reflexivity|].
    cbn [fold_left]. rewrite IHn. f_equal. rewrite e_mem. reflexivity. }
  apply (X m m (Ok [])).
Qed.
Lemma e_temp m p k s : it_temp (ve m) p k (noeng s) = it_temp m p k s.
Proof.
  unfold it_temp. change (s_neighIds (noeng s)) with (s_neighIds s). generalize (Ok (uget n0 k p)). generalize (s_neighIds s).
  induction l as [|n l IH]; intros acc; [reflexivity|]. cbn [fold_left]. rewrite IH. f_equal.
  rewrite vm_lookup. destruct acc; cbn [rbind]; try reflexivity. destruct (ulookup n m); reflexivity.
Qed.
Lemma e_temps m p l : it_temps (ve m) p (ve l) = it_temps m p l.
Proof.
  induction l as [|e l IH]; [reflexivity|]. cbn [vmap map it_temps fst snd].
  change (map (fun e => (fst e, noeng (snd e))) l) with (ve l). rewrite e_temp, IH. reflexivity.
Qed.
Lemma e_iterate m p : iterate (ve m) p = iterate m p.
Proof. unfold iterate. rewrite e_temps. reflexivity. Qed.
Lemma e_iterate_n n m : forall p, iterate_n n (ve m) p = iterate_n n m p.
Proof. induction n as [|n IH]; intros p; [reflexivity|]. cbn [iterate_n]. rewrite e_iterate. destruct (iterate m p); cbn [rbind]; auto. Qed.
Lemma e_iterate_tol f tol m : forall e p, iterate_tol f tol e (ve m) p = iterate_tol f tol e m p.
Proof.
  induction f as [|f IH]; intros e p; cbn [iterate_tol]; [reflexivity|]. destruct (nltb tol e); [|reflexivity].
  rewrite e_iterate. destruct (iterate m p); cbn [rbind]; auto.
Qed.
Lemma e_init m p : init_pon (ve m) p = init_pon m p.
Proof.
  unfold init_pon. rewrite e_length. generalize (ndiv n1 (nofZ (Z.of_nat (length m)))). intros x. revert p.
  induction m as [|e m IH]; intros p; [reflexivity|]. cbn [vmap map fold_left fst]. apply IH.
Qed.
Lemma e_solve f me it tol m p : solve_pon f me it tol (ve m) p = solve_pon f me it tol m p.
Proof.
  unfold solve_pon. rewrite e_init, e_length. destruct me; [apply e_iterate_n|apply e_iterate_n|apply e_iterate_tol].
Qed.
Lemma e_fastest h c : c_fastestOff h (era c) = c_fastestOff h c.
Proof. unfold c_fastestOff. cbn [era c_sites c_with_sites]. rewrite e_ext. reflexivity. Qed.
Lemma e_spread c d l : forall sv, spread_visits (era c) d l sv = spread_visits c d l sv.
Proof.
  induction l as [|x l IH]; intros sv; [reflexivity|]. cbn [spread_visits].
  cbn [era c_sites c_idwell c_pon c_tau c_res c_with_sites]. rewrite vm_lookup.
  destruct (ulookup (fst x) (c_sites c)) as [s|], (ulookup (fst x) (c_idwell c)); cbn [option_map]; auto.
Qed.
Ltac fields := unfold era; cbn [c_id c_occ c_visits c_prev c_tau c_rng c_res c_iters c_tol c_method c_inc c_itau c_remaining c_pnbr c_cnbr c_idwell c_svisits c_sumoff c_sumint c_sites c_hopoff c_hopbet c_pon c_pint c_cint c_with_sites].
Ltac thin := fields; rewrite ?e_ext, ?e_int, ?e_solve, ?e_exit, ?e_weigh, ?e_sumtaus, ?e_hopoff, ?e_hopbet, ?e_mem, ?e_length; try reflexivity.
Ltac see :=
  repeat match goal with
    | |- blind _ (bind (gets (fun c => c)) _) => apply blind_self; [intros; thin|intros]
    | |- blind _ (bind _ _) => apply blind_bind; [|intros]
    | |- blind _ (ret _) => apply blind_ret
    | |- blind _ (stop _) => apply blind_stop
    | |- blind _ (lift _) => apply blind_lift
    | |- blind _ (cassert _) => apply blind_assert
    | |- blind _ (gets _) => apply blind_gets; intros; thin
    | |- blind _ (modify _) => apply blind_modify; intros; thin
    | |- blind _ (mfor _ _) => apply blind_mfor; intros
    | |- blind _ (if _ then _ else _) => apply blind_if
    | |- blind _ (match ?x with _ => _ end) => destruct x
    end.
Lemma e_occupied k : blind era (c <- gets (fun c => c) ;; lift (c_isOccupied c k)).
Proof.
  apply blind_self; [|intros; see]. intros c s. unfold c_isOccupied. fields. rewrite vm_lookup. destruct (ulookup k (c_sites c)); reflexivity.
Qed.
Lemma e_occupy k : blind era (c_occupy k).
Proof.
  intros c. unfold c_occupy, bind, gets, cassert, modify, stop. fields. destruct (umem k (c_svisits c)); [|reflexivity].
  rewrite vm_lookup. destruct (ulookup k (c_sites c)) as [s|]; cbn [option_map]; [|reflexivity].
  cbn [lets]. f_equal. fields. change (s_setToOccupied (noeng s)) with (noeng (s_setToOccupied s)).
  unfold c_with_visits; cbn. rewrite e_set. reflexivity.
Qed.
Lemma e_occupy0 : blind era c_occupy0.
Proof. unfold c_occupy0. see. Qed.
Lemma like_iff c c' : like c c' <-> exists m, c' = c_with_sites m c /\ ve m = ve (c_sites c).
Proof.
  unfold like. split.
  - intros E. exists (c_sites c'). destruct c, c'. unfold era, c_with_sites in E |- *. cbn in E |- *. injection E. intros. subst. split; [reflexivity|congruence].
  - intros (m & -> & E). fields. rewrite E. reflexivity.
Qed.
Lemma like_refl c : like c c.
Proof. reflexivity. Qed.
Lemma e_vacate t t' k : follows like eq (c_vacate t k) (c_vacate t' k).
Proof.
  intros c c' Hc. apply like_iff in Hc. destruct Hc as (m & -> & Hm). unfold c_vacate, c_vacate0, bind, modify. split; [reflexivity|].
  apply like_iff. eexists. split; [reflexivity|]. unfold c_with_occ; fields.
  rewrite <- !e_set, Hm. f_equal. pose proof (f_equal (ulookup k) Hm) as L. rewrite !vm_lookup in L.
  destruct (ulookup k (c_sites c)) as [s|], (ulookup k m) as [s'|]; cbn [option_map] in L; try discriminate; [|reflexivity].
  injection L. intros. unfold noeng, s_with_occ, s_with_rng. cbn. congruence.
Qed.
Lemma e_remove t t' w k : follows like eq (c_removeWalker t w k) (c_removeWalker t' w k).
Proof. apply e_vacate. Qed.
Lemma e_draw : blind era c_draw.
Proof. intros c. unfold c_draw. fields. destruct (edraw (c_rng c)). reflexivity. Qed.
Lemma e_dwell w : blind era (c_getDwellTime w).
Proof. unfold c_getDwellTime. see. apply e_draw. Qed.
Lemma e_pick w : blind era (c_pick w).
Proof. unfold c_pick, c_pickInternal, c_pickNeighbor, c_hopWithin. see; apply e_draw. Qed.
Lemma e_set_visits v k : blind era (c_setVisits v k).
Proof. unfold c_setVisits. see. Qed.
Lemma e_visits k : blind era (c_getVisits k).
Proof.
  unfold c_getVisits. apply blind_self; [|intros; see]. intros c s. rewrite e_spread. reflexivity.
Qed.
Lemma e_visitList l : blind era (c_visitList l).
Proof. induction l; cbn [c_visitList]; see; [apply e_visits|apply IHl]. Qed.
Lemma e_hopOff h : blind era (c_calcHopOff h).
Proof.
  unfold c_calcHopOff. apply blind_self; [|intros; see]. intros c s. unfold c_size. fields. rewrite e_ext, e_length, e_sumtaus.
  apply bind_agree. intros ? s1 _. apply bind_agree. intros ? s2 _. rewrite e_hopoff. reflexivity.
Qed.
Lemma e_update fuel h : blind era (c_update fuel h).
Proof.
  unfold c_update, c_solve, c_calcHopToInternal, c_calcHopToNeighbors, c_calcInternalDwell, c_calcSumOff, c_calcSumInt, c_calcHopBetween, c_calcTau, c_calcITau.
  see; first [apply e_visitList|apply e_hopOff|apply e_set_visits|idtac].
  all: try (unfold c_size; thin).
  unfold c_siteIds. fields. apply e_keys.
Qed.
Lemma e_resolution x : blind era (c_setResolution x).
Proof. unfold c_setResolution. see. Qed.
Lemma e_seed x : blind era (c_setRandomSeed x).
Proof. unfold c_setRandomSeed. see. Qed.
Lemma follows_blind {A} (m : M cluster A) : blind era m -> follows like eq m m.
Proof. apply follows_through. Qed.
(** also the engine of the cluster may differ *)
Definition kin (c c' : cluster) : Prop := exists e, like (c_with_rng e c) c'.
Lemma kin_follows {A} (m m' : M cluster A) : (forall e, blind (c_with_rng e) m) -> follows like eq m m' -> follows kin eq m m'.
Proof.
  intros B H c c' [e Hc]. specialize (H _ _ Hc). rewrite (B e c) in H.
  destruct (m c), (m' c'); cbn [lets] in H; try contradiction; [destruct H as [? H]; split; [assumption|exists e; exact H]..|exact H].
Qed.
Lemma e_addSite s s' : noeng s = noeng s' -> follows like (fun _ _ => True) (c_addSite s) (c_addSite s').
Proof.
  intros Hs. unfold c_addSite.
  assert (Ei : s_id s' = s_id s) by (apply (f_equal s_id) in Hs; cbn in Hs; congruence).
  assert (E1 : s_getId s' = s_getId s) by (unfold s_getId; rewrite Ei; reflexivity). rewrite E1.
  intros c c' Hc. apply like_iff in Hc. destruct Hc as (m & -> & Hm). unfold bind, lift, gets, cassert, modify, ret, throw, stop.
  destruct (s_getId s) as [i|x|x]; [|split; [reflexivity|apply like_iff; eexists; split; [reflexivity|exact Hm]]|reflexivity].
  fields. assert (Em : umem i m = umem i (c_sites c)) by (rewrite <- (e_mem i m), Hm; apply e_mem). rewrite Em.
  destruct (umem i (c_sites c)); cbn [negb]; [reflexivity|]. split; [exact Logic.I|].
  apply like_iff. eexists. split; [reflexivity|]. fields. rewrite <- !e_set, Hm. f_equal.
  unfold noeng, s_with_cluster, s_with_rng in *. cbn in *. injection Hs. intros. congruence.
Qed.
Lemma e_addSites l l' : Forall2 (fun s s' => noeng s = noeng s') l l' -> follows like eq (c_addSites l) (c_addSites l').
Proof.
  intros H. unfold c_addSites. eapply f_mfor2; [exact H|]. intros s s' Hs. eapply f_bind; [apply e_addSite, Hs|].
  intros; apply f_ret; reflexivity.
Qed.
Definition likes (p p' : cluster * cluster) : Prop := like (fst p) (fst p') /\ like (snd p) (snd p').
Lemma e_fst {A B} (Q : A -> B -> Prop) m m' : follows like Q m m' -> follows likes Q (onFst m) (onFst m').
Proof.
  intros H [a b] [a' b'] [Ha Hb]. unfold onFst, zoom. cbn [fst snd] in *. specialize (H a a' Ha).
  destruct (m a), (m' a'); try contradiction; [destruct H; split; [|split]; assumption..|exact H].
Qed.
Lemma e_snd {A B} (Q : A -> B -> Prop) m m' : follows like Q m m' -> follows likes Q (onSnd m) (onSnd m').
Proof.
  intros H [a b] [a' b'] [Ha Hb]. unfold onSnd, zoom. cbn [fst snd] in *. specialize (H b b' Hb).
  destruct (m b), (m' b'); try contradiction; [destruct H; split; [|split]; assumption..|exact H].
Qed.
Lemma like_id c c' : like c c' -> c_id c = c_id c'.
Proof. intros H. apply (f_equal c_id) in H. exact H. Qed.
Lemma like_ids c c' : like c c' -> c_siteIds c = c_siteIds c'.
Proof. intros H. apply like_iff in H. destruct H as (m & -> & H). unfold c_siteIds. fields. rewrite <- e_keys, <- H. apply e_keys. Qed.
Lemma like_sites c c' : like c c' -> ve (c_sites c) = ve (c_sites c').
Proof. intros H. apply like_iff in H. destruct H as (m & -> & H). fields. congruence. Qed.
Lemma e_take l l' m m' : ve l = ve l' -> ve m = ve m' ->
  ve (fold_left (fun m e => if umem (fst e) m then m else uset m (fst e) (snd e)) l m) =
  ve (fold_left (fun m e => if umem (fst e) m then m else uset m (fst e) (snd e)) l' m').
Proof.
  revert l' m m'. induction l as [|e l IH]; intros [|e' l'] m m' El Em; try discriminate; [exact Em|].
  assert (E1 : ve l = ve l') by exact (f_equal (@tl _) El).
  assert (E3 : fst e = fst e') by exact (f_equal (fun x => match x with y :: _ => fst y | [] => 0 end) El).
  assert (E2 : noeng (snd e) = noeng (snd e')) by exact (f_equal (fun x => match x with y :: _ => snd y | [] => noeng (snd e) end) El).
  cbn [fold_left]. apply IH; [exact E1|].
  rewrite <- E3. assert (X : umem (fst e) m = umem (fst e) m') by (rewrite <- (e_mem _ m), Em; apply e_mem).
  rewrite X. destruct (umem (fst e) m'); [exact Em|]. rewrite <- !e_set, Em, E2. reflexivity.
Qed.
Lemma e_migrate fuel h : follows likes eq (c_migrate fuel h) (c_migrate fuel h).
Proof.
  unfold c_migrate.
  apply f_eq; [apply f_gets; intros p p' [H _]; apply like_id, H|intros i].
  apply f_eq; [apply e_snd, follows_blind, blind_modify|intros _].
  { intros c. fields. unfold c_with_sites; cbn. f_equal. unfold vmap. rewrite !map_map. reflexivity. }
  apply f_eq; [apply f_gets; intros p p' [_ H]; apply like_ids, H|intros ids].
  apply f_eq; [apply e_snd, follows_blind, e_visitList|intros vs].
  eapply f_bind; [apply f_gets with (Q := fun x y => ve x = ve y); intros p p' [_ H]; apply like_sites, H|intros moved moved' Hm].
  apply f_eq; [apply e_fst, f_modify|intros _].
  { intros c c' Hc. pose proof (like_sites _ _ Hc) as Hs. apply like_iff in Hc. destruct Hc as (m & -> & Hq). fields. apply like_iff.
    eexists. split; [reflexivity|]. fields. symmetry. apply e_take; [exact Hm|congruence]. }
  apply f_eq; [apply e_snd, follows_blind, blind_modify; intros; reflexivity|intros _].
  apply f_eq; [apply e_fst, follows_blind, e_update|intros _].
  apply f_mfor. intros e _. apply e_fst, follows_blind, e_set_visits.
Qed.
End Erase.

(** ** Tables with related values *)
Section Tables.
Context {I : Impl} {V : Type} (R : V -> V -> Prop).
Hypothesis K : keys_only.
Definition rows (m m' : umap V) : Prop := Forall2 (fun e e' => fst e = fst e' /\ R (snd e) (snd e')) m m'.
Lemma rows_refl m : (forall v, R v v) -> rows m m.
Proof. intros H. induction m; constructor; auto. Qed.
Lemma rows_lookup k m m' : rows m m' -> match ulookup k m, ulookup k m' with Some c, Some c' => R c c' | None, None => True | _, _ => False end.
Proof.
  induction 1 as [|[a x] [b y] m m' [E1 E2] H IH]; [exact Logic.I|]. cbn in E1, E2. subst b. cbn [ulookup].
  destruct (k =? a); assumption.
Qed.
Lemma rows_replace k c c' m m' : rows m m' -> R c c' -> rows (ureplace k c m) (ureplace k c' m').
Proof.
  intros H Hc. induction H as [|[a x] [b y] m m' [E1 E2] H IH]; [constructor|]. cbn in E1, E2. subst b. cbn [ureplace].
  destruct (k =? a); constructor; auto.
Qed.
Lemma rows_remove k m m' : rows m m' -> rows (uremove k m) (uremove k m').
Proof.
  intros H. induction H as [|[a x] [b y] m m' [E1 E2] H IH]; [constructor|]. cbn in E1, E2. subst b. cbn [uremove].
  destruct (k =? a); [assumption|constructor; auto].
Qed.
Lemma rows_keys m m' : rows m m' -> ukeys m = ukeys m'.
Proof. induction 1 as [|? ? ? ? [? ?]]; cbn; [reflexivity|]. f_equal; assumption. Qed.
Lemma rows_pairs m m' : rows m m' -> exists w : umap (V * V), m = vmap fst w /\ m' = vmap snd w /\ Forall (fun e => R (fst (snd e)) (snd (snd e))) w.
Proof.
  induction 1 as [|[a x] [b y] m m' [E1 E2] H (w & -> & -> & Hw)]; [exists []; repeat constructor|].
  cbn in E1, E2. subst b. exists ((a, (x, y)) :: w). repeat constructor; assumption.
Qed.
Lemma pairs_rows (w : umap (V * V)) : Forall (fun e => R (fst (snd e)) (snd (snd e))) w -> rows (vmap fst w) (vmap snd w).
Proof. induction 1; constructor; auto. Qed.
Lemma rows_mem k m m' : rows m m' -> umem k m = umem k m'.
Proof. intros H. apply umem_keys, rows_keys, H. Qed.
Lemma rows_set k c c' m m' : rows m m' -> R c c' -> rows (uset m k c) (uset m' k c').
Proof.
  intros H Hc. unfold uset. rewrite (rows_mem k _ _ H). destruct (umem k m'); [apply rows_replace; assumption|].
  destruct (rows_pairs _ _ H) as (w & -> & -> & Hw). change c with (fst (c, c')) at 1. change c' with (snd (c, c')) at 2.
  rewrite !K. apply pairs_rows. rewrite Forall_forall in *. intros e He.
  apply (Permutation.Permutation_in _ (hplace_perm _ w k (c, c'))) in He. destruct He as [<-|He]; [exact Hc|apply Hw, He].
Qed.
Lemma rows_at {A B} (Q : A -> B -> Prop) k d d' m m' : follows rows Q d d' -> follows R Q m m' -> follows rows Q (at_key k d m) (at_key k d' m').
Proof.
  intros Hd H n n' Hn. unfold at_key. pose proof (rows_lookup k _ _ Hn) as L.
  destruct (ulookup k n) as [c|], (ulookup k n') as [c'|]; try contradiction; [|apply Hd, Hn].
  specialize (H c c' L). destruct (m c), (m' c'); try contradiction; [destruct H as [? H]; (split; [assumption|apply rows_replace; assumption])..|exact H].
Qed.
Lemma rows_read {A B} (Q : A -> B -> Prop) k (f : V -> res A) (f' : V -> res B) :
  (forall v v', R v v' -> follows rows Q (lift (f v)) (lift (f' v'))) -> follows rows Q (read_key k f) (read_key k f').
Proof.
  intros H n n' Hn. unfold read_key. pose proof (rows_lookup k _ _ Hn) as L.
  destruct (ulookup k n) as [c|], (ulookup k n') as [c'|]; try contradiction; [apply (H c c' L), Hn|split; [reflexivity|exact Hn]].
Qed.
End Tables.

(** ** Systems whose drains have other engines *)
Section Systems.
Context {I : Impl} {N : Num} {G : Rng} {U : Ugly}.
Hypothesis K : keys_only.
Variables clk1 clk2 : Z -> Z.
(** a site without rates keeps a walker for the same time whatever it draws *)
Hypothesis still : forall e e', dwell_of (fst (edraw e)) n0 = dwell_of (fst (edraw e')) n0.

Definition alike (s s' : site) : Prop := noeng s = noeng s' /\ (s' = s \/ s_prob s = [] /\ s_tau s = n0).
Notation likec := (@like I N G).
Definition twin (g g' : world) : Prop := seeded g /\ exists n m,
  g' = g_with_sites n (g_with_clusters m g) /\ rows alike (g_sites g) n /\ rows like (g_clusters g) m.

Lemma alike_refl s : alike s s.
Proof. split; auto. Qed.
Lemma alike_same s s' : alike s s' -> s_id s = s_id s' /\ s_cluster s = s_cluster s' /\ s_occ s = s_occ s' /\ s_visits s = s_visits s'
  /\ s_tau s = s_tau s' /\ s_neigh s = s_neigh s' /\ s_prob s = s_prob s'.
Proof. intros [E _]. destruct s, s'. unfold noeng, s_with_rng in E. cbn in E |- *. injection E. intros. repeat split; assumption. Qed.
Lemma alike_keep f s s' : (forall e x, f (s_with_rng e x) = s_with_rng e (f x)) -> (forall x, s_prob (f x) = s_prob x /\ s_tau (f x) = s_tau x) ->
  alike s s' -> alike (f s) (f s').
Proof.
  intros H1 H2 [E H]. split; [unfold noeng in *; rewrite <- !H1; congruence|].
  destruct H as [->|[Ha Hb]]; [left; reflexivity|right]. destruct (H2 s) as [-> ->]. auto.
Qed.
Lemma a_modify f : (forall e x, f (s_with_rng e x) = s_with_rng e (f x)) -> (forall x, s_prob (f x) = s_prob x /\ s_tau (f x) = s_tau x) ->
  follows alike eq (modify f) (modify f).
Proof. intros H1 H2. apply f_modify. intros; apply alike_keep; assumption. Qed.
Lemma a_gets {A} (f : site -> A) : (forall e x, f (s_with_rng e x) = f x) -> follows alike eq (gets f) (gets f).
Proof. intros H. apply f_gets. intros s s' [E _]. rewrite <- (H (eseed 0) s), <- (H (eseed 0) s'). f_equal. exact E. Qed.
Lemma a_dwell : follows alike eq s_getDwellTime s_getDwellTime.
Proof.
  intros s s' Hs. unfold s_getDwellTime, s_draw, bind, gets, ret. destruct (edraw (s_rng s)) as [u e] eqn:E1, (edraw (s_rng s')) as [u' e'] eqn:E2.
  cbn [s_tau s_with_rng]. destruct Hs as [Hn [->|[Hp Ht]]].
  - rewrite E1 in E2. inversion E2; subst. split; [reflexivity|apply alike_refl].
  - pose proof (alike_same s s' (conj Hn (or_intror (conj Hp Ht)))) as (_ & _ & _ & _ & T & _). split.
    + rewrite <- T, Ht. pose proof (still (s_rng s) (s_rng s')) as X. rewrite E1, E2 in X. exact X.
    + split; [exact Hn|right; split; assumption].
Qed.
Lemma a_pick : follows alike eq s_pick s_pick.
Proof.
  intros s s' Hs. unfold s_pick, s_draw, bind, gets, ret. destruct (edraw (s_rng s)) as [u e] eqn:E1, (edraw (s_rng s')) as [u' e'] eqn:E2.
  cbn [s_prob s_with_rng]. destruct Hs as [Hn [->|[Hp Ht]]].
  - rewrite E1 in E2. inversion E2; subst. split; [reflexivity|apply alike_refl].
  - pose proof (alike_same s s' (conj Hn (or_intror (conj Hp Ht)))) as (_ & _ & _ & _ & _ & _ & T). split.
    + rewrite <- T, Hp. reflexivity.
    + split; [exact Hn|right; split; assumption].
Qed.

Lemma t_clusters {A B} (Q : A -> B -> Prop) m m' : follows (rows like) Q m m' -> follows twin Q (in_clusters m) (in_clusters m').
Proof.
  intros H g g' (Hd & n & c & -> & Hn & Hc). unfold in_clusters, zoom. cbn [g_clusters g_with_clusters g_with_sites]. specialize (H _ _ Hc).
  destruct (m (g_clusters g)), (m' c); try contradiction; [destruct H as [? H]; (split; [assumption|]); split; [exact Hd|exists n; eexists; (split; [reflexivity|split; [exact Hn|exact H]])]..|exact H].
Qed.
Lemma t_sites {A B} (Q : A -> B -> Prop) m m' : follows (rows alike) Q m m' -> follows twin Q (in_sites m) (in_sites m').
Proof.
  intros H g g' (Hd & n & c & -> & Hn & Hc). unfold in_sites, zoom. cbn [g_sites g_with_clusters g_with_sites]. specialize (H _ _ Hn).
  destruct (m (g_sites g)), (m' n); try contradiction; [destruct H as [? H]; (split; [assumption|]); split; [exact Hd|do 2 eexists; (split; [reflexivity|split; [exact H|exact Hc]])]..|exact H].
Qed.
Lemma t_walker {A} p (m : M _ A) : follows twin eq (in_walker p m) (in_walker p m).
Proof.
  intros g g' (Hd & n & c & -> & Hn & Hc). unfold in_walker, zoom. cbn [g_walkers g_with_clusters g_with_sites].
  destruct (at_key p _ m (g_walkers g)); [(split; [reflexivity|split; [exact Hd|exists n, c; split; [reflexivity|split; assumption]]])..|reflexivity].
Qed.
Lemma t_local {S A B} (R : S -> S -> Prop) (Q : A -> B -> Prop) m m' s s' : follows R Q m m' -> R s s' ->
  follows twin (fun x y => Q (fst x) (fst y) /\ R (snd x) (snd y)) (local m s) (local m' s').
Proof.
  intros H Hs g g' Hg. unfold local. specialize (H s s' Hs). destruct (m s), (m' s'); try contradiction; [split; [exact H|exact Hg]|split; [apply H|exact Hg]|exact H].
Qed.
Lemma t_modify f : (forall g, seeded g -> seeded (f g)) -> (forall n m g, f (g_with_sites n (g_with_clusters m g)) = g_with_sites n (g_with_clusters m (f g))) ->
  (forall g, g_sites (f g) = g_sites g /\ g_clusters (f g) = g_clusters g) -> follows twin eq (modify f) (modify f).
Proof.
  intros H1 H2 H3. apply f_modify. intros g g' (Hd & n & m & -> & Hn & Hm). split; [apply H1, Hd|]. exists n, m. rewrite H2. destruct (H3 g) as [-> ->]. auto.
Qed.
Lemma t_gets {A} (f : world -> A) : (forall n m g, f (g_with_sites n (g_with_clusters m g)) = f g) -> follows twin eq (gets f) (gets f).
Proof. intros H. apply f_gets. intros g g' (_ & n & m & -> & _). symmetry. apply H. Qed.
Ltac look :=
  repeat match goal with
    | |- follows _ _ (bind _ _) _ => apply f_eq; [|intros]
    | |- follows _ _ (ret _) _ => apply f_ret; reflexivity
    | |- follows _ _ (stop _) _ => apply f_stop
    | |- follows _ _ (throw _) _ => apply f_throw
    | |- follows _ _ (lift _) _ => apply f_lift
    | |- follows _ _ (in_walker _ _) _ => apply t_walker
    | |- follows _ eq (gets _) _ => apply t_gets; intros; reflexivity
    | |- follows _ _ (modify _) _ => apply t_modify; [intros ? Hd; exact Hd|intros; reflexivity|intros; split; reflexivity]
    | |- follows _ _ (mfor _ _) _ => apply f_mfor; intros ? _
    | |- follows _ _ (if _ then _ else _) _ => apply f_if
    | |- follows _ _ (match ?x with _ => _ end) _ => destruct x
    end.
Lemma t_tick : follows twin eq next_tick next_tick.
Proof. intros g g' (Hd & n & m & -> & Hn & Hm). split; [reflexivity|]. split; [exact Hd|]. exists n, m. auto. Qed.
Lemma t_clock : follows twin (fun _ _ => True) (read_clock clk1) (read_clock clk2).
Proof. unfold read_clock. eapply f_bind; [apply t_tick|]. intros. apply f_ret. exact Logic.I. Qed.
Lemma t_seed : follows twin (fun x y => y = x /\ exists z, x = Some z) use_seed use_seed.
Proof.
  intros g g' (Hd & n & m & -> & Hn & Hm). unfold use_seed. cbn [g_seed g_with_clusters g_with_sites].
  destruct Hd as [x ->]. split; [split; [reflexivity|eauto]|]. split; [eexists; reflexivity|]. exists n, m. auto.
Qed.
Lemma t_new : follows twin (fun c c' => kin c c' /\ c_id c = c_id c') (new_cluster clk1) (new_cluster clk2).
Proof.
  unfold new_cluster. eapply f_bind; [apply t_clock|]. intros t t' _. look. apply f_ret. split; [|reflexivity].
  exists (eseed t'). reflexivity.
Qed.
Lemma t_feature {A} k (ms : M _ A) mc mc' : follows alike eq ms ms -> follows like eq mc mc' -> follows twin eq (on_feature k ms mc) (on_feature k ms mc').
Proof.
  intros Hs H. unfold on_feature. look; [apply t_sites, rows_at; [apply f_stop|exact Hs]|apply t_clusters, rows_at; [apply f_stop|exact H]].
Qed.
Lemma a_occupy : follows alike eq s_occupy s_occupy.
Proof. apply a_modify; intros; [reflexivity|split; reflexivity]. Qed.
Lemma a_vacate : follows alike eq s_vacate s_vacate.
Proof. apply a_modify; intros; [reflexivity|split; reflexivity]. Qed.
Lemma a_occupied : follows alike eq (gets s_isOccupied) (gets s_isOccupied).
Proof. apply a_gets. intros; reflexivity. Qed.
Lemma t_occupied k j : follows twin eq (f_isOccupied k j) (f_isOccupied k j).
Proof. apply t_feature; [apply a_occupied|apply follows_blind, e_occupied]. Qed.
Lemma t_occupy k j : follows twin eq (f_occupy k j) (f_occupy k j).
Proof. apply t_feature; [apply a_occupy|apply follows_blind, e_occupy, K]. Qed.
Lemma t_occupy0 k : follows twin eq (f_occupy0 k) (f_occupy0 k).
Proof. apply t_feature; [apply a_occupy|apply follows_blind, e_occupy0]. Qed.
Lemma t_vacate k j : follows twin eq (f_vacate clk1 k j) (f_vacate clk2 k j).
Proof. unfold f_vacate. eapply f_bind; [apply t_clock|]. intros t t' _. apply t_feature; [apply a_vacate|apply e_vacate, K]. Qed.
Lemma t_dwell k w : follows twin eq (f_getDwellTime k w) (f_getDwellTime k w).
Proof. apply t_feature; [apply a_dwell|apply follows_blind, e_dwell]. Qed.
Lemma t_pick k w : follows twin eq (f_pick k w) (f_pick k w).
Proof. apply t_feature; [apply a_pick|apply follows_blind, e_pick]. Qed.
Lemma t_remove k w j : follows twin eq (f_removeWalker clk1 k w j) (f_removeWalker clk2 k w j).
Proof. unfold f_removeWalker. eapply f_bind; [apply t_clock|]. intros t t' _. apply t_feature; [apply a_vacate|apply e_remove, K]. Qed.

Lemma t_addSite s s' : alike s s' -> follows (rows alike) eq (sc_addSite s) (sc_addSite s').
Proof.
  intros Hs. unfold sc_addSite. pose proof (proj1 (alike_same _ _ Hs)) as Ei. unfold s_getId. rewrite <- Ei.
  apply f_eq; [apply f_lift|intros i]. apply f_self. intros n n' Hn. rewrite (rows_mem _ i _ _ Hn).
  apply f_if; [apply f_throw|]. apply f_modify. intros; apply rows_set; assumption.
Qed.
Lemma t_init_site k r : follows twin eq (init_site clk1 k r) (init_site clk2 k r).
Proof.
  unfold init_site. eapply f_bind; [apply t_clock|]. intros t t' _. apply f_eq; [look|intros h].
  eapply f_bind.
  { apply t_local with (R := fun s s' => noeng s = noeng s') (Q := eq); [|reflexivity].
    apply follows_through. apply blind_bind; [apply blind_modify; reflexivity|]. intros _. apply blind_setRates. }
  intros [u s] [u' s'] [_ Hs]. cbn [snd] in *. eapply f_bind; [apply t_seed|]. intros x y [-> [z ->]].
  assert (E : s_with_rng (eseed z) s = s_with_rng (eseed z) s').
  { destruct s, s'. unfold noeng, s_with_rng in *. cbn in *. injection Hs. intros; subst. reflexivity. }
  eapply f_bind with (Q := fun x y => snd x = snd y).
  { intros g g' Hg. unfold local, s_setRandomSeed, modify. cbn [snd]. split; [exact E|exact Hg]. }
  intros [? s1] [? s2] Es. cbn [snd] in *. subst s2. apply f_eq; [apply t_sites, t_addSite, alike_refl|intros]. look.
Qed.
Lemma t_init_drain k : follows twin eq (init_drain clk1 k) (init_drain clk2 k).
Proof.
  unfold init_drain. eapply f_bind; [apply t_clock|]. intros t t' _.
  eapply f_bind with (Q := fun x y => alike (snd x) (snd y)).
  { intros g g' Hg. unfold local, s_setId, modify. cbn [snd]. split; [|exact Hg]. split; [reflexivity|right; split; reflexivity]. }
  intros [? s1] [? s2] Es. cbn [snd] in *. apply f_eq; [apply t_sites, t_addSite, Es|intros]. look.
Qed.
Lemma t_init rates : follows twin eq (sys_initializeSystem clk1 rates) (sys_initializeSystem clk2 rates).
Proof. unfold sys_initializeSystem. look; first [apply t_init_site|apply t_init_drain]. Qed.
Lemma t_enter l : follows twin eq (sys_initializeWalkers l) (sys_initializeWalkers l).
Proof. unfold sys_initializeWalkers, init_walker. look; first [apply t_occupy0|apply t_dwell|apply t_pick]. Qed.
Lemma t_leave id p : follows twin eq (sys_removeWalker clk1 id p) (sys_removeWalker clk2 id p).
Proof. unfold sys_removeWalker. look. apply t_remove. Qed.
Lemma t_move id p src dst : follows twin eq (hop_move clk1 id p src dst) (hop_move clk2 id p src dst).
Proof. unfold hop_move. look; first [apply t_occupied|apply t_vacate|apply t_occupy|apply t_dwell|apply t_pick]. Qed.
Lemma q_read {A} (f : site -> res A) k s s' : (forall e x, f (s_with_rng e x) = f x) -> rows alike s s' -> ask (read_key k f) s' = ask (read_key k f) s.
Proof.
  intros H Hs. unfold ask, read_key. pose proof (rows_lookup _ k _ _ Hs) as L.
  destruct (ulookup k s) as [x|], (ulookup k s') as [y|]; try contradiction; [|reflexivity].
  destruct L as [E _]. assert (X : f y = f x) by (rewrite <- (H (eseed 0) y), <- (H (eseed 0) x); f_equal; symmetry; exact E).
  rewrite X. destruct (f x); reflexivity.
Qed.
Lemma q_fastest h k s s' : rows alike s s' -> ask (sc_getFastest h k) s' = ask (sc_getFastest h k) s.
Proof. apply q_read. reflexivity. Qed.
Lemma q_rateTo h k n s s' : rows alike s s' -> ask (sc_getRateTo h k n) s' = ask (sc_getRateTo h k n) s.
Proof. apply q_read. reflexivity. Qed.
Lemma q_part k s s' : rows alike s s' -> ask (sc_partOfCluster k) s' = ask (sc_partOfCluster k) s.
Proof. apply q_read. reflexivity. Qed.
Lemma q_id k s s' : rows alike s s' -> ask (sc_getClusterId k) s' = ask (sc_getClusterId k) s.
Proof. apply q_read. reflexivity. Qed.
Lemma q_neigh k s s' : rows alike s s' -> ask (sc_getNeighIds k) s' = ask (sc_getNeighIds k) s.
Proof. apply q_read. reflexivity. Qed.
Lemma q_rates s s' : rows alike s s' -> rates_of s' = rates_of s.
Proof.
  intros H. unfold rates_of. generalize ([] : umap (umap Z)). induction H as [|[a x] [b y] s s' [E1 E2] H IH]; intros acc; [reflexivity|].
  cbn in E1, E2. subst b. cbn [fold_left fst snd]. destruct (alike_same _ _ E2) as (_ & _ & _ & _ & _ & -> & _). apply IH.
Qed.
Lemma q_edges h s s' k : rows alike s s' -> edges_of h s' k = edges_of h s k.
Proof. intros H. unfold edges_of. rewrite (q_rates _ _ H). reflexivity. Qed.
Lemma q_adds h s s' thr v l : rows alike s s' -> forall q, add_edges h s' thr v l q = add_edges h s thr v l q.
Proof.
  intros H. induction l as [|e l IH]; intros q; [reflexivity|]. cbn [add_edges].
  assert (X : add_edge h s' thr v e q = add_edge h s thr v e q).
  { unfold add_edge. rewrite (q_rateTo _ _ _ _ _ H), (q_fastest _ _ _ _ H). reflexivity. }
  rewrite X. destruct (add_edge h s thr v e q); cbn [rbind]; auto.
Qed.
Lemma q_loop nonce h b s s' fuel : rows alike s s' -> forall i q, basin_loop fuel nonce i h b s' q = basin_loop fuel nonce i h b s q.
Proof.
  intros H. induction fuel as [|f IH]; intros i q; cbn [basin_loop]; destruct (q_front q); try reflexivity.
  rewrite (q_edges _ _ _ _ H), (q_adds _ _ _ _ _ _ H). destruct (add_edges _ _ _ _ _ _); cbn [rbind]; try reflexivity.
  destruct (_ <? _); auto.
Qed.
Lemma q_basin fuel nonce h b s s' m m' k : rows alike s s' -> rows like m m' -> find_basin fuel nonce h b s' m' k = find_basin fuel nonce h b s m k.
Proof.
  intros H Hm. unfold find_basin. rewrite (q_fastest _ _ _ _ H), (q_part _ _ _ H), (q_id _ _ _ H), (q_edges _ _ _ _ H).
  destruct (ask (sc_getFastest h k) s) as [fast| |]; cbn [rbind]; try reflexivity.
  destruct (ask (sc_partOfCluster k) s) as [part| |]; cbn [rbind]; try reflexivity.
  assert (X : (if part then cid <-! ask (sc_getClusterId k) s; c <-! ask (cc_getCluster cid) m'; Ok (c_fastestOff h c) else Ok fast) =
              (if part then cid <-! ask (sc_getClusterId k) s; c <-! ask (cc_getCluster cid) m; Ok (c_fastestOff h c) else Ok fast)).
  { destruct part; [|reflexivity]. destruct (ask (sc_getClusterId k) s) as [c| |]; cbn [rbind]; try reflexivity.
    pose proof (rows_lookup _ c _ _ Hm) as L. unfold ask, cc_getCluster, read_key.
    destruct (ulookup c m) as [x|], (ulookup c m') as [y|]; try contradiction; cbn [lift rbind]; [|reflexivity].
    rewrite <- (e_fastest h x), <- (e_fastest h y). unfold like in L. rewrite L. reflexivity. }
  rewrite X. clear X. match goal with |- rbind ?a _ = _ => destruct a as [slow| |] end; cbn [rbind]; try reflexivity.
  rewrite (q_adds _ _ _ _ _ _ H). destruct (add_edges _ _ _ _ _ _); cbn [rbind]; try reflexivity. apply q_loop, H.
Qed.
Lemma q_limit nonce h s s' ids : rows alike s s' -> internal_limit nonce h s' ids = internal_limit nonce h s ids.
Proof. intros H. unfold internal_limit, time_edges. rewrite (q_rates _ _ H). reflexivity. Qed.
Lemma q_exit h s s' all ids : rows alike s s' -> forall acc, exit_sum h s' all ids acc = exit_sum h s all ids acc.
Proof.
  intros H. induction ids as [|k ids IH]; intros acc; [reflexivity|]. cbn [exit_sum]. rewrite (q_neigh _ _ _ H).
  destruct (ask (sc_getNeighIds k) s) as [ns| |]; cbn [rbind]; try reflexivity.
  match goal with |- rbind (?f1 ns acc) _ = rbind (?f2 ns acc) _ => assert (X : forall l a, f1 l a = f2 l a) end.
  { induction l as [|x l IHl]; intros a; [reflexivity|]. cbn. rewrite (q_rateTo _ _ _ _ _ H). destruct (existsb _ _); [apply IHl|].
    destruct (ask (sc_getRateTo h k x) s); cbn [rbind]; auto. }
  rewrite X. match goal with |- rbind ?f1 _ = _ => destruct f1 end; cbn [rbind]; auto.
Qed.
Lemma t_equil ids limit : follows twin eq (equilibrium ids limit) (equilibrium ids limit).
Proof.
  unfold equilibrium. apply f_self. intros g g' (Hd & n & m & -> & Hn & Hm). cbn [g_heap g_sites g_perf g_res g_with_clusters g_with_sites].
  unfold exit_time. rewrite (q_exit _ _ _ _ _ Hn). look.
Qed.
Lemma t_part k : follows twin eq (in_sites (sc_partOfCluster k)) (in_sites (sc_partOfCluster k)).
Proof.
  apply t_sites, rows_read. intros s s' Hs. unfold s_partOfCluster. destruct (alike_same _ _ Hs) as (_ & -> & _). apply f_lift.
Qed.
Lemma t_id k : follows twin eq (in_sites (sc_getClusterId k)) (in_sites (sc_getClusterId k)).
Proof.
  apply t_sites, rows_read. intros s s' Hs. unfold s_getClusterId. destruct (alike_same _ _ Hs) as (_ & -> & _). apply f_lift.
Qed.
Lemma t_label k c : follows twin eq (in_sites (sc_setClusterId k c)) (in_sites (sc_setClusterId k c)).
Proof. apply t_sites, rows_at; [apply f_throw|]. apply a_modify; intros; [reflexivity|split; reflexivity]. Qed.
Lemma t_site k : follows twin alike (in_sites (sc_getSite k)) (in_sites (sc_getSite k)).
Proof. apply t_sites, rows_read. intros s s' Hs. intros n n' Hn. cbn. auto. Qed.
Lemma t_clusters_of ids : forall acc, follows twin eq (clusters_of ids acc) (clusters_of ids acc).
Proof. induction ids as [|k ids IH]; intros acc; cbn [clusters_of]; look; first [apply t_part|apply t_id|apply IH]. Qed.
Lemma t_copy ids : follows twin (Forall2 alike) (copy_sites ids) (copy_sites ids).
Proof.
  induction ids; cbn [copy_sites]; [apply f_ret; constructor|]. eapply f_bind; [apply t_site|]. intros s s' Hs.
  eapply f_bind; [exact IHids|]. intros l l' Hl. apply f_ret. constructor; assumption.
Qed.
Lemma alikes l l' : Forall2 alike l l' -> Forall2 (fun s s' => noeng s = noeng s') l l'.
Proof. induction 1 as [|? ? ? ? [? _]]; constructor; auto. Qed.
Lemma k_follows {A} (m : M cluster A) : (forall e, blind (c_with_rng e) m) -> blind era m -> follows kin eq m m.
Proof. intros B H. apply kin_follows; [exact B|apply follows_blind, H]. Qed.
Lemma t_create fuel ids limit : follows twin eq (create_cluster clk1 fuel ids limit) (create_cluster clk2 fuel ids limit).
Proof.
  unfold create_cluster. eapply f_bind; [apply t_new|]. intros c0 c0' [H0 Hi].
  eapply f_bind; [apply t_copy|]. intros l l' Hl. apply f_eq; [look|intros h].
  eapply f_bind; [apply t_local with (R := kin) (Q := eq); [|exact H0]|].
  { apply f_eq; [unfold c_setMethod; apply k_follows; intros; apply blind_modify; intros; reflexivity|intros _].
    apply f_eq; [unfold c_setTolerance; apply k_follows; intros; (apply blind_bind; [apply blind_assert|intros; apply blind_modify; intros; reflexivity])|intros _].
    apply f_eq; [apply kin_follows; [intros; apply blind_addSites|apply e_addSites; [exact K|apply alikes, Hl]]|intros _].
    apply k_follows; [intros; apply blind_update|apply e_update]. }
  intros x x' [_ Hx]. apply f_eq; [look|intros tres]. destruct tres as [tres|]; [|look].
  assert (Et : c_getTimeConstant (snd x') = c_getTimeConstant (snd x)).
  { destruct Hx as [e Hx]. apply (f_equal c_tau) in Hx. cbn in Hx. unfold c_getTimeConstant. congruence. }
  rewrite Et.
  eapply f_bind; [apply t_local with (R := kin) (Q := eq); [|exact Hx]|].
  { unfold c_setResolution. apply k_follows; intros; (apply blind_bind; [apply blind_assert|intros; apply blind_modify; intros; reflexivity]) || (apply blind_modify; intros; reflexivity). }
  intros y y' [_ [e Hy]]. eapply f_bind; [apply t_seed|]. intros ? ? [-> [z ->]].
  eapply f_bind with (Q := fun x y => like (snd x) (snd y)).
  { intros g g' Hg. unfold local, c_setRandomSeed, modify. cbn [snd]. split; [|exact Hg].
    apply like_iff in Hy. destruct Hy as (m & Ey & Hm). rewrite Ey. apply like_iff. exists m. split; [reflexivity|exact Hm]. }
  intros w w' Hw. apply f_eq.
  { apply t_clusters. unfold cc_addCluster. apply f_self. intros m m' Hm. rewrite (like_id _ _ Hw).
    rewrite (rows_mem _ _ _ _ Hm). apply f_if; [apply f_throw|]. apply f_modify. intros q q' Hq. apply rows_set; assumption. }
  intros _. eapply f_bind; [apply t_new|]. intros _ _ _. rewrite Hi. look. apply t_label.
Qed.
Lemma t_get k : follows (rows like) like (cc_getCluster k) (cc_getCluster k).
Proof. apply rows_read. intros v v' Hv n n' Hn. cbn. auto. Qed.
Lemma t_scan fav sac : forall iso iso' cids, Forall2 alike iso iso' ->
  follows twin (fun x y => Forall2 alike (fst x) (fst y) /\ snd x = snd y) (merge_scan fav sac iso cids) (merge_scan fav sac iso' cids).
Proof.
  induction sac as [|[k c] sac IH]; intros iso iso' cids Hi; cbn [merge_scan]; [apply f_ret; split; [exact Hi|reflexivity]|].
  apply f_if; [apply IH, Hi|]. eapply f_bind with (Q := Forall2 alike).
  { apply f_if; [|apply f_ret, Hi]. eapply f_bind; [apply t_site|]. intros s s' Hs. apply f_ret. apply Forall2_app; [exact Hi|]. constructor; [exact Hs|constructor]. }
  intros i1 i1' H1. eapply f_bind; [apply t_clusters, t_get|]. intros ? ? _. apply f_eq; [look|intros]. apply f_eq; [apply t_label|intros]. apply IH, H1.
Qed.
Lemma t_absorb fuel fav c : follows twin eq (absorb fuel fav c) (absorb fuel fav c).
Proof.
  unfold absorb. eapply f_bind; [apply t_clusters, t_get|]. intros a a' Ha.
  eapply f_bind; [apply t_clusters, t_get|]. intros b b' Hb. apply f_eq; [look|intros h].
  eapply f_bind; [apply t_local with (R := likes); [apply e_migrate, K|split; assumption]|].
  intros p p' [_ [H1 H2]].
  apply f_eq; [apply t_clusters, f_modify; intros; apply rows_replace; assumption|intros].
  apply f_eq; [apply t_clusters, f_modify; intros; apply rows_replace; assumption|intros].
  apply t_clusters. unfold cc_erase. apply f_modify. intros. apply rows_remove; assumption.
Qed.
Lemma t_merge fuel sac fav : follows twin eq (merge_clusters fuel sac fav) (merge_clusters fuel sac fav).
Proof.
  unfold merge_clusters. eapply f_bind; [apply t_scan; constructor|]. intros [iso cids] [iso' cids'] [H1 H2]. cbn [fst snd] in *. subst cids'.
  apply f_eq; [look|intros h].
  apply f_eq; [apply t_clusters, rows_at; [apply f_throw|]; apply e_addSites; [exact K|apply alikes, H1]|intros].
  apply f_eq; [apply t_clusters, rows_at; [apply f_throw|]; apply follows_blind, e_update|intros].
  apply f_mfor. intros. apply t_absorb.
Qed.
Lemma t_grain fuel k : follows twin eq (coarse_grain clk1 fuel k) (coarse_grain clk2 fuel k).
Proof.
  unfold coarse_grain. apply f_eq; [apply t_tick|intros nonce]. apply f_self. intros g g' (Hd & n & m & -> & Hn & Hm).
  cbn [g_heap g_sites g_clusters g_with_clusters g_with_sites]. rewrite (q_basin _ _ _ _ _ _ _ _ _ Hn Hm).
  apply f_eq; [look|intros ids]. cbv zeta. rewrite (q_limit _ _ _ _ _ Hn). apply f_eq; [apply t_equil|intros ok].
  look; first [apply t_clusters_of|apply t_create|apply t_merge].
Qed.
Lemma t_attempt fuel k : follows twin eq (hop_attempt clk1 fuel k) (hop_attempt clk2 fuel k).
Proof. unfold hop_attempt. look. apply t_grain. Qed.
Lemma t_hop fuel id p : follows twin eq (sys_hop clk1 fuel id p) (sys_hop clk2 fuel id p).
Proof. unfold sys_hop. look; [apply t_move|apply t_attempt]. Qed.
Lemma t_visits k : follows twin eq (sys_getVisits k) (sys_getVisits k).
Proof.
  unfold sys_getVisits. eapply f_bind with (Q := fun n n' => umem k n = umem k n').
  { apply f_gets. intros g g' (_ & n & m & -> & Hn & _). apply (rows_mem _ k _ _ Hn). }
  intros n n' ->. apply f_if; [|apply f_throw]. eapply f_bind; [apply t_site|]. intros s s' Hs.
  assert (Ev : s_getVisitFrequency s' = s_getVisitFrequency s) by (unfold s_getVisitFrequency; symmetry; apply (alike_same _ _ Hs)).
  rewrite Ev. apply f_eq; [apply t_part|intros b]. apply f_if; [|look]. apply f_eq; [apply t_id|intros c].
  apply f_eq; [apply t_clusters, rows_at; [apply f_throw|apply follows_blind, e_visits]|intros; look].
Qed.

(** ** Programs *)
Lemma twin_enter g g' ws l : twin g g' -> enter_ok g' ws l = enter_ok g ws l.
Proof.
  intros (_ & n & m & -> & Hn & _). unfold enter_ok, cur_of, sys_getClusterId, in_sites, zoom. cbn [g_walkers g_sites g_with_clusters g_with_sites].
  f_equal. apply forallb_ext'. intros p. unfold sc_getClusterId, read_key.
  match goal with |- context [ulookup ?k n] => pose proof (rows_lookup _ k _ _ Hn) as L; destruct (ulookup k n) as [y|], (ulookup k (g_sites g)) as [x|] end;
    try contradiction; [|reflexivity]. unfold s_getClusterId. destruct (alike_same _ _ L) as (_ & -> & _). reflexivity.
Qed.
Definition both (r r' : option (world * list Z)) : Prop :=
  match r, r' with Some x, Some x' => snd x' = snd x /\ twin (fst x) (fst x') | None, None => True | _, _ => False end.
Lemma after_both {A} (o o' : M world A) g g' ws : follows twin eq o o' -> twin g g' -> both (after (o g) ws) (after (o' g') ws).
Proof. intros H Hg. specialize (H g g' Hg). destruct (o g), (o' g'); try contradiction; cbn; [|exact Logic.I..]. split; [reflexivity|apply H]. Qed.
Lemma twin_refl g : seeded g -> twin g g.
Proof.
  intros Hd. split; [exact Hd|]. exists (g_sites g), (g_clusters g). split; [destruct g; reflexivity|].
  split; apply rows_refl; [apply alike_refl|apply like_refl].
Qed.
Lemma exec1_both a g g' ws : twin g g' -> both (exec1 clk1 a (g, ws)) (exec1 clk2 a (g', ws)).
Proof.
  intros Hg. destruct a; cbn [exec1].
  - apply after_both; [unfold sys_setPerformanceRatio; look|exact Hg].
  - apply after_both; [unfold sys_setTimeResolution; look|exact Hg].
  - apply after_both; [unfold sys_setThreshold; look|exact Hg].
  - apply after_both; [unfold sys_setRandomSeed; look|exact Hg]. apply t_modify; [intros; eexists; reflexivity|reflexivity|split; reflexivity].
  - destruct (rates_ok rates); [|exact Logic.I]. apply after_both; [apply t_init|exact Hg].
  - split; [reflexivity|]. destruct Hg as (Hd & n & m & -> & Hn & Hm). split; [exact Hd|]. exists n, m. auto.
  - rewrite (twin_enter _ _ _ _ Hg). destruct (enter_ok g ws l); [|exact Logic.I]. apply after_both; [apply t_enter|exact Hg].
  - destruct (existsb (Z.eqb p) ws); [|exact Logic.I]. apply after_both; [apply t_hop|exact Hg].
  - destruct (existsb (Z.eqb p) ws); [|exact Logic.I]. apply after_both; [apply t_leave|exact Hg].
  - apply after_both; [apply t_visits|exact Hg].
Qed.
Lemma exec_both l : forall g g' ws, twin g g' -> both (exec clk1 l (g, ws)) (exec clk2 l (g', ws)).
Proof.
  induction l as [|a l IH]; intros g g' ws Hg; cbn [exec]; [split; [reflexivity|exact Hg]|].
  pose proof (exec1_both a g g' ws Hg) as H.
  destruct (exec1 clk1 a (g, ws)) as [[g1 ws1]|], (exec1 clk2 a (g', ws)) as [[g2 ws2]|]; try contradiction; [|exact Logic.I].
  destruct H as [E H]. cbn [fst snd] in E, H. subst ws2. apply IH; exact H.
Qed.
(** before the seed is set there is nothing that reads the clock *)
Definition agree (r r' : option (world * list Z)) : Prop := both r r' \/ r = r'.
Lemma exec_start l : forall g ws, inv g ws -> g_sites g = [] ->
  (forall l1 r l2, l = l1 ++ AInit r :: l2 -> seeded g \/ exists s, In (ASeed s) l1) ->
  agree (exec clk1 l (g, ws)) (exec clk2 l (g, ws)).
Proof.
  induction l as [|a l IH]; intros g ws V E0 Hl; [right; reflexivity|].
  destruct (g_seed g) as [x|] eqn:Ex; [left; apply exec_both, twin_refl; exists x; exact Ex|].
  assert (Na : forall r, a <> AInit r).
  { intros r ->. destruct (Hl [] r l eq_refl) as [[x Hx]|(s & [])]. congruence. }
  cbn [exec]. assert (Ea : exec1 clk1 a (g, ws) = exec1 clk2 a (g, ws)).
  { apply exec1_agree; [exact V|right; exact E0|]. intros r ->. destruct (Na r eq_refl). }
  rewrite Ea. destruct (exec1 clk2 a (g, ws)) as [[g1 ws1]|] eqn:E1; [|right; reflexivity].
  apply IH.
  - eapply (step_inv clk2); [exact V|]. eapply exec1_ok; exact E1.
  - eapply exec1_empty; eauto.
  - intros l1 r l2 E. destruct (Hl (a :: l1) r l2) as [H|(s & [->|Hs])]; [cbn; congruence| | |].
    + left. eapply exec1_seeded; eauto.
    + left. cbn [exec1] in E1. unfold sys_setRandomSeed, bind, gets in E1. destruct (g_feats g); inversion E1; subst. eexists; reflexivity.
    + right. eauto.
Qed.
Lemma rows_per {V} (v : cluster -> V) m m' : (forall c c', like c c' -> v c' = v c) -> rows like m m' -> per_cluster v m' = per_cluster v m.
Proof.
  intros Hv H. unfold per_cluster. generalize (@nil (Z * V)). induction H as [|[a x] [b y] m m' [E1 E2] H IH]; intros acc; [reflexivity|].
  cbn in E1, E2. subst b. cbn [fold_left fst snd]. rewrite (Hv _ _ E2). apply IH.
Qed.
Lemma twin_iff {A} (m m' : M world A) g g' : follows twin eq m m' -> twin g g' -> forall a, (exists x, m g = Ret a x) <-> exists x, m' g' = Ret a x.
Proof.
  intros H Hg a. specialize (H g g' Hg). destruct (m g), (m' g'); try contradiction; try (split; intros (x & E); discriminate).
  destruct H as [<- _]. split; intros (x & E); inversion E; subst; eauto.
Qed.
Lemma twin_answers g g' : twin g g' -> same_answers g g'.
Proof.
  intros Hg. split; [destruct Hg as (_ & n & m & -> & H); reflexivity|].
  assert (P : forall V (v : cluster -> V), (forall c c', like c c' -> v c' = v c) ->
    follows twin eq (in_clusters (gets (per_cluster v))) (in_clusters (gets (per_cluster v)))).
  { intros V v Hv. apply t_clusters, f_gets. intros m m' Hm. symmetry. apply rows_per; assumption. }
  split; [apply twin_iff; [apply P; intros; symmetry; apply like_ids; assumption|exact Hg]|].
  split; [apply twin_iff; [apply P; intros c c' H; apply (f_equal c_getResolution) in H; symmetry; exact H|exact Hg]|].
  split; [apply twin_iff; [apply P; intros c c' H; apply (f_equal c_getTimeIncrement) in H; symmetry; exact H|exact Hg]|].
  split; [intros k; apply twin_iff; [unfold sys_getClusterId; apply t_id|exact Hg]|].
  split; [intros k; apply twin_iff; [apply t_occupied|exact Hg]|].
  intros k; apply twin_iff; [apply t_visits|exact Hg].
Qed.
Lemma same_refl g : same_answers g g.
Proof. unfold same_answers. repeat split; auto. Qed.
Theorem exec_drains walkers h count tick l : NoDup (ukeys walkers) -> 0 <= count -> seeds_first l ->
  match exec clk1 l (world_new walkers h count tick, []), exec clk2 l (world_new walkers h count tick, []) with
  | Some (g, ws), Some (g', ws') => ws' = ws /\ same_answers g g'
  | None, None => True
  | _, _ => False
  end.
Proof.
  intros ND Hc Hs.
  assert (V : inv (world_new walkers h count tick) []).
  { apply (reach_inv clk1). exists [], walkers, h, count, tick. split; [exact ND|]. split; [exact Hc|constructor]. }
  pose proof (exec_start l _ _ V eq_refl (fun l1 r l2 E => or_intror (Hs l1 r l2 E))) as [H|H].
  - destruct (exec clk1 l _) as [[g ws]|], (exec clk2 l _) as [[g' ws']|]; try exact H. destruct H as [H1 H2]. split; [exact H1|apply twin_answers, H2].
  - rewrite H. destruct (exec clk2 l _) as [[g ws]|]; [split; [reflexivity|apply same_refl]|exact Logic.I].
Qed.
End Systems.
