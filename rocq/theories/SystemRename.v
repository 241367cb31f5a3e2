(** * Cluster ids are only names *)
From Coq Require Import ZArith List Bool Lia.
From Verif Require Import Base BaseProofs Num WalkerModel SiteModel SiteProofs ClusterModel ClusterFrame
  ContainerModel BasinModel ClusterCounts SystemModel SystemSpec SystemShape SystemHop SystemCoarse SystemMerge SystemProofs
  SystemFacts SystemRuns QuerySpec SystemQuery NameSpec SeedSpec ShiftSpec.
From Verif Require UnitNum SystemSeed SystemName SystemDrainSeed.
Import ListNotations.
Import SystemSeed SystemName UnitNum SystemDrainSeed.
Open Scope Z_scope.

(** ** Clusters with another id, whose sites have other labels *)
Section Blind.
Context {I : Impl} {N : Num} {G : Rng}.
Hypothesis K : keys_only.
Variables r sh : Z -> Z.
Hypothesis Hr : r unassignedId = unassignedId.

Definition rlab (s : site) : site := s_with_cluster (r (s_cluster s)) s.
Notation ve := (vmap rlab).
Definition cm (c : cluster) : cluster := c_with_id (sh (c_id c)) (c_with_sites (ve (c_sites c)) c).

Lemma m_mem k m : umem k (ve m) = umem k m.
Proof. apply vm_mem. Qed.
Lemma m_keys m : ukeys (ve m) = ukeys m.
Proof. apply vm_keys. Qed.
Lemma m_length m : length (ve m) = length m.
Proof. apply vm_length. Qed.
Lemma m_set k s m : uset (ve m) k (rlab s) = ve (uset m k s).
Proof. apply (vm_set K). Qed.
Lemma m_rates_where h keep m : rates_where h keep (ve m) = rates_where h keep m.
Proof.
  unfold rates_where. generalize ([] : umap (umap num)). induction m as [|e m IH]; intros acc; [reflexivity|].
  cbn [vmap map fold_left fst snd]. apply IH.
Qed.
Lemma where_ext h f g m : (forall k, f k = g k) -> rates_where h f m = rates_where h g m.
Proof.
  intros E. unfold rates_where. generalize ([] : umap (umap num)). induction m as [|e m IH]; intros acc; [reflexivity|].
  cbn [fold_left]. rewrite IH. f_equal. generalize acc. induction (s_neigh (snd e)) as [|x l IHl]; intros a; [reflexivity|].
  cbn [fold_left]. rewrite E. apply IHl.
Qed.
Lemma m_ext h m : ext_rates h (ve m) = ext_rates h m.
Proof. unfold ext_rates. rewrite m_rates_where. apply where_ext. intros k. rewrite m_mem. reflexivity. Qed.
Lemma m_int h m : int_rates h (ve m) = int_rates h m.
Proof. unfold int_rates. rewrite m_rates_where. apply where_ext. intros k. apply m_mem. Qed.
Lemma m_tau m k : tau_of (ve m) k = tau_of m k.
Proof. unfold tau_of. rewrite vm_lookup. destruct (ulookup k m); reflexivity. Qed.
Lemma m_weigh m p : weigh_tau (ve m) p = weigh_tau m p.
Proof. induction p as [|e p IH]; [reflexivity|]. cbn [weigh_tau]. rewrite m_tau, IH. reflexivity. Qed.
Lemma m_sumtaus m p : forall a, sum_taus (ve m) p a = sum_taus m p a.
Proof. induction p as [|e p IH]; intros a; [reflexivity|]. cbn [sum_taus]. rewrite m_tau. destruct (tau_of m (fst e)); cbn [rbind]; auto. Qed.
Lemma m_hopoff m so sr st p : hopoff_raw (ve m) so sr st p = hopoff_raw m so sr st p.
Proof. induction p as [|e p IH]; [reflexivity|]. cbn [hopoff_raw]. rewrite m_tau, IH. reflexivity. Qed.
Lemma m_hopbet m p l : hopbet_raw (ve m) p l = hopbet_raw m p l.
Proof. induction l as [|e l IH]; [reflexivity|]. cbn [hopbet_raw]. rewrite m_tau, IH. reflexivity. Qed.
Lemma m_exit m p : exit_weights (ve m) p = exit_weights m p.
Proof.
  unfold exit_weights.
  assert (X : forall q l acc,
    fold_left (fun acc e => fold_left (fun acc n => a <-! acc; (if umem n (ve q) then Ok a
      else t <-! s_probTo (snd e) n; Ok (match ulookup n a with Some w => uset a n (nadd w (nmul t (uget n0 (fst e) p))) | None => uset a n (nmul t (uget n0 (fst e) p)) end)))
      (s_neighIds (snd e)) acc) (ve l) acc =
    fold_left (fun acc e => fold_left (fun acc n => a <-! acc; (if umem n q then Ok a
      else t <-! s_probTo (snd e) n; Ok (match ulookup n a with Some w => uset a n (nadd w (nmul t (uget n0 (fst e) p))) | None => uset a n (nmul t (uget n0 (fst e) p)) end)))
      (s_neighIds (snd e)) acc) l acc).
  { intros q. induction l as [|e l IH]; intros acc; [reflexivity|]. cbn [vmap map fold_left fst snd].
    change (map (fun e => (fst e, rlab (snd e))) l) with (ve l). rewrite IH. f_equal.
    change (s_neighIds (rlab (snd e))) with (s_neighIds (snd e)).
    revert acc. generalize (s_neighIds (snd e)). intros ns. induction ns as [|n ns IHn]; intros acc; [reflexivity|].
    cbn [fold_left]. rewrite IHn. f_equal. rewrite m_mem. reflexivity. }
  apply (X m m (Ok [])).
Qed.
Lemma m_temp m p k s : it_temp (ve m) p k (rlab s) = it_temp m p k s.
Proof.
  unfold it_temp. change (s_neighIds (rlab s)) with (s_neighIds s). generalize (Ok (uget n0 k p)). generalize (s_neighIds s).
  induction l as [|n l IH]; intros acc; [reflexivity|]. cbn [fold_left]. rewrite IH. f_equal.
  rewrite vm_lookup. destruct acc; cbn [rbind]; try reflexivity. destruct (ulookup n m); reflexivity.
Qed.
Lemma m_temps m p l : it_temps (ve m) p (ve l) = it_temps m p l.
Proof.
  induction l as [|e l IH]; [reflexivity|]. cbn [vmap map it_temps fst snd].
  change (map (fun e => (fst e, rlab (snd e))) l) with (ve l). rewrite m_temp, IH. reflexivity.
Qed.
Lemma m_iterate m p : iterate (ve m) p = iterate m p.
Proof. unfold iterate. rewrite m_temps. reflexivity. Qed.
Lemma m_iterate_n n m : forall p, iterate_n n (ve m) p = iterate_n n m p.
Proof. induction n as [|n IH]; intros p; [reflexivity|]. cbn [iterate_n]. rewrite m_iterate. destruct (iterate m p); cbn [rbind]; auto. Qed.
Lemma m_iterate_tol f tol m : forall e p, iterate_tol f tol e (ve m) p = iterate_tol f tol e m p.
Proof.
  induction f as [|f IH]; intros e p; cbn [iterate_tol]; [reflexivity|]. destruct (nltb tol e); [|reflexivity].
  rewrite m_iterate. destruct (iterate m p); cbn [rbind]; auto.
Qed.
Lemma m_init m p : init_pon (ve m) p = init_pon m p.
Proof.
  unfold init_pon. rewrite m_length. generalize (ndiv n1 (nofZ (Z.of_nat (length m)))). intros x. revert p.
  induction m as [|e m IH]; intros p; [reflexivity|]. cbn [vmap map fold_left fst]. apply IH.
Qed.
Lemma m_solve f me it tol m p : solve_pon f me it tol (ve m) p = solve_pon f me it tol m p.
Proof.
  unfold solve_pon. rewrite m_init, m_length. destruct me; [apply m_iterate_n|apply m_iterate_n|apply m_iterate_tol].
Qed.
Lemma m_fastest h c : c_fastestOff h (cm c) = c_fastestOff h c.
Proof. unfold c_fastestOff. cbn [cm c_sites c_with_sites c_with_id]. rewrite m_ext. reflexivity. Qed.
Lemma m_spread c x0 l : forall sv, spread_visits (cm c) x0 l sv = spread_visits c x0 l sv.
Proof.
  induction l as [|x l IH]; intros sv; [reflexivity|]. cbn [spread_visits].
  cbn [cm c_sites c_idwell c_pon c_tau c_res c_with_sites c_with_id]. rewrite vm_lookup.
  destruct (ulookup (fst x) (c_sites c)) as [s|], (ulookup (fst x) (c_idwell c)); cbn [option_map]; auto.
Qed.
Ltac fields := unfold cm; cbn [c_id c_occ c_visits c_prev c_tau c_rng c_res c_iters c_tol c_method c_inc c_itau c_remaining c_pnbr c_cnbr c_idwell c_svisits c_sumoff c_sumint c_sites c_hopoff c_hopbet c_pon c_pint c_cint c_with_sites c_with_id].
Ltac thin := fields; rewrite ?m_ext, ?m_int, ?m_solve, ?m_exit, ?m_weigh, ?m_sumtaus, ?m_hopoff, ?m_hopbet, ?m_mem, ?m_length; try reflexivity.
Ltac see :=
  repeat match goal with
    | |- blind _ (bind (gets (fun c => c)) _) => apply blind_self; [intros; thin|intros]
    | |- blind _ (bind _ _) => apply blind_bind; [|intros]
    | |- blind _ (ret _) => apply blind_ret
    | |- blind _ (stop _) => apply blind_stop
    | |- blind _ (lift _) => apply blind_lift
    | |- blind _ (cassert _) => apply blind_assert
    | |- blind _ (gets _) => apply blind_gets; intros; thin
    | |- blind _ (modify _) => apply blind_modify; intros; thin
    | |- blind _ (mfor _ _) => apply blind_mfor; intros
    | |- blind _ (if _ then _ else _) => apply blind_if
    | |- blind _ (match ?x with _ => _ end) => destruct x
    end.
Lemma m_occupied k : blind cm (c <- gets (fun c => c) ;; lift (c_isOccupied c k)).
Proof.
  apply blind_self; [|intros; see]. intros c s. unfold c_isOccupied. fields. rewrite vm_lookup. destruct (ulookup k (c_sites c)); reflexivity.
Qed.
Lemma m_occupy k : blind cm (c_occupy k).
Proof.
  intros c. unfold c_occupy, bind, gets, cassert, modify, stop. fields. destruct (umem k (c_svisits c)); [|reflexivity].
  rewrite vm_lookup. destruct (ulookup k (c_sites c)) as [s|]; cbn [option_map]; [|reflexivity].
  cbn [lets]. f_equal. fields. change (s_setToOccupied (rlab s)) with (rlab (s_setToOccupied s)).
  unfold c_with_visits; cbn. rewrite m_set. reflexivity.
Qed.
Lemma m_occupy0 : blind cm c_occupy0.
Proof. unfold c_occupy0. see. Qed.
Lemma m_draw : blind cm c_draw.
Proof. intros c. unfold c_draw. fields. destruct (edraw (c_rng c)). reflexivity. Qed.
Lemma m_dwell w : blind cm (c_getDwellTime w).
Proof. unfold c_getDwellTime. see. apply m_draw. Qed.
Lemma m_pick w : blind cm (c_pick w).
Proof. unfold c_pick, c_pickInternal, c_pickNeighbor, c_hopWithin. see; apply m_draw. Qed.
Lemma m_set_visits v k : blind cm (c_setVisits v k).
Proof. unfold c_setVisits. see. Qed.
Lemma m_visits k : blind cm (c_getVisits k).
Proof.
  unfold c_getVisits. apply blind_self; [|intros; see]. intros c s. rewrite m_spread. reflexivity.
Qed.
Lemma m_visitList l : blind cm (c_visitList l).
Proof. induction l; cbn [c_visitList]; see; [apply m_visits|apply IHl]. Qed.
Lemma m_hopOff h : blind cm (c_calcHopOff h).
Proof.
  unfold c_calcHopOff. apply blind_self; [|intros; see]. intros c s. unfold c_size. fields. rewrite m_ext, m_length, m_sumtaus.
  apply bind_agree. intros ? s1 _. apply bind_agree. intros ? s2 _. rewrite m_hopoff. reflexivity.
Qed.
Lemma m_update fuel h : blind cm (c_update fuel h).
Proof.
  unfold c_update, c_solve, c_calcHopToInternal, c_calcHopToNeighbors, c_calcInternalDwell, c_calcSumOff, c_calcSumInt, c_calcHopBetween, c_calcTau, c_calcITau.
  see; first [apply m_visitList|apply m_hopOff|apply m_set_visits|idtac].
  all: try (unfold c_size; thin).
  unfold c_siteIds. fields. apply m_keys.
Qed.
Lemma m_resolution x : blind cm (c_setResolution x).
Proof. unfold c_setResolution. see. Qed.
Lemma m_seed x : blind cm (c_setRandomSeed x).
Proof. unfold c_setRandomSeed. see. Qed.
Lemma m_vacate t k : blind cm (c_vacate t k).
Proof.
  intros c. unfold c_vacate, c_vacate0, bind, modify. cbn [lets]. f_equal. unfold c_with_occ; fields.
  rewrite <- (m_set k _ (c_sites c)). rewrite vm_lookup. destruct (ulookup k (c_sites c)) as [s|]; [reflexivity|].
  unfold rlab. cbn [option_map s_cluster s_with_occ site_new]. rewrite Hr. reflexivity.
Qed.
Lemma m_remove t w k : blind cm (c_removeWalker t w k).
Proof. apply m_vacate. Qed.
End Blind.

(** ** Clusters with other names *)
Section Moved.
Context {I : Impl} {N : Num} {G : Rng}.
Hypothesis K : keys_only.
Variable nm : Z -> Z.
Hypothesis Hnm : increasing nm.

Notation sh := (relabel nm).
Notation mvs := (rlab sh).
Notation bare := (cm (fun _ => unassignedId) (fun c => c)).
Notation named := (cm (fun _ => unassignedId) sh).
(** nothing looks at the labels of the copies in a cluster *)
Definition lk (c c' : cluster) : Prop := bare c' = named c.
Lemma follows_blind {A} (m : M cluster A) : (forall j, blind (cm (fun _ => unassignedId) j) m) -> follows lk eq m m.
Proof.
  intros H c c' E. pose proof (H sh c) as E1. pose proof (H (fun c => c) c') as E2. unfold lk in E. rewrite <- E, E2 in E1.
  destruct (m c), (m c'); cbn [lets] in E1; try discriminate; injection E1; intros; unfold lk; try split; congruence.
Qed.
Notation plain := (rlab (fun _ => unassignedId)).
Notation pl := (vmap plain).
Lemma lk_bare c c' : lk c c' -> exists l, c' = c_with_id (sh (c_id c)) (c_with_sites l c) /\ pl l = pl (c_sites c).
Proof.
  intros E. exists (c_sites c'). unfold lk, cm in E. split; [|exact (f_equal c_sites E)].
  apply (f_equal (c_with_sites (c_sites c'))) in E. destruct c, c'. cbn in *. injection E. intros. subst. reflexivity.
Qed.
Lemma bare_lk c l : pl l = pl (c_sites c) -> lk c (c_with_id (sh (c_id c)) (c_with_sites l c)).
Proof. intros E. unfold lk, cm. cbn [c_id c_sites c_with_sites c_with_id]. rewrite E. reflexivity. Qed.
Lemma pl_mem k l l' : pl l' = pl l -> umem k l' = umem k l.
Proof. intros E. rewrite <- (vm_mem plain k l'), <- (vm_mem plain k l), E. reflexivity. Qed.
Lemma pl_keys l l' : pl l' = pl l -> ukeys l' = ukeys l.
Proof. intros E. rewrite <- (vm_keys plain l'), <- (vm_keys plain l), E. reflexivity. Qed.
Lemma pl_set k s s' l l' : pl l' = pl l -> plain s' = plain s -> pl (uset l' k s') = pl (uset l k s).
Proof. intros E Es. rewrite <- !(vm_set K). rewrite E, Es. reflexivity. Qed.
Lemma m_addSite s s' : plain s' = plain s -> follows lk (fun _ _ => True) (c_addSite s) (c_addSite s').
Proof.
  intros Es c c' H. destruct (lk_bare _ _ H) as (l & -> & E). unfold c_addSite.
  assert (Ei : s_getId s' = s_getId s).
  { unfold s_getId. assert (X : s_id s' = s_id s) by exact (f_equal s_id Es). rewrite X. reflexivity. }
  rewrite Ei. unfold bind, lift, gets, cassert, modify, ret, stop.
  destruct (s_getId s) as [i|x|x]; [|split; [reflexivity|exact H]|reflexivity].
  cbn [c_sites c_with_sites c_with_id]. rewrite (pl_mem i _ _ E). destruct (umem i (c_sites c)); cbn [negb]; [reflexivity|]. split; [exact Logic.I|].
  match goal with |- lk ?x ?y => change y with (c_with_id (sh (c_id x)) (c_with_sites (c_sites y) x)) end.
  apply bare_lk. cbn [c_sites c_with_sites c_with_id]. apply pl_set; [exact E|exact Es].
Qed.
Lemma m_addSites l l' : map plain l' = map plain l -> follows lk eq (c_addSites l) (c_addSites l').
Proof.
  intros E. unfold c_addSites. apply f_mfor2 with (Q := fun s s' => plain s' = plain s).
  - revert l' E. induction l as [|s l IH]; intros [|s' l'] E; try discriminate; constructor; [exact (f_equal (hd s) E)|apply IH; exact (f_equal (@tl _) E)].
  - intros s s' Es. eapply f_bind; [apply m_addSite, Es|]. intros; apply f_ret; reflexivity.
Qed.
Definition lks (p p' : cluster * cluster) : Prop := lk (fst p) (fst p') /\ lk (snd p) (snd p').
Lemma m_fst {A B} (Q : A -> B -> Prop) m m' : follows lk Q m m' -> follows lks Q (onFst m) (onFst m').
Proof.
  intros H [a b] [a' b'] [Ha Hb]. unfold onFst, zoom. cbn [fst snd] in *. specialize (H a a' Ha).
  destruct (m a), (m' a'); try contradiction; [destruct H; split; [|split]; assumption..|exact H].
Qed.
Lemma m_snd {A B} (Q : A -> B -> Prop) m m' : follows lk Q m m' -> follows lks Q (onSnd m) (onSnd m').
Proof.
  intros H [a b] [a' b'] [Ha Hb]. unfold onSnd, zoom. cbn [fst snd] in *. specialize (H b b' Hb).
  destruct (m b), (m' b'); try contradiction; [destruct H; split; [|split]; assumption..|exact H].
Qed.
Lemma m_take l : forall m,
  fold_left (fun m e => if umem (fst e) m then m else uset m (fst e) (snd e)) (pl l) (pl m) =
  pl (fold_left (fun m e => if umem (fst e) m then m else uset m (fst e) (snd e)) l m).
Proof.
  induction l as [|e l IH]; intros m; [reflexivity|]. cbn [vmap map fold_left fst snd]. rewrite vm_mem.
  change (map (fun e => (fst e, plain (snd e))) l) with (pl l). destruct (umem (fst e) m); [apply IH|]. rewrite (vm_set K). apply IH.
Qed.
Lemma plain_label c s : plain (s_with_cluster c s) = plain s.
Proof. reflexivity. Qed.
Lemma m_migrate fuel h : follows lks eq (c_migrate fuel h) (c_migrate fuel h).
Proof.
  unfold c_migrate.
  eapply f_bind with (Q := fun i j => j = sh i); [apply f_gets; intros p p' [H _]; destruct (lk_bare _ _ H) as (l & -> & _); reflexivity|intros i j ->].
  apply f_eq; [apply m_snd, f_modify|intros _].
  { intros c c' H. destruct (lk_bare _ _ H) as (l & -> & E).
    match goal with |- lk ?x ?y => change y with (c_with_id (sh (c_id x)) (c_with_sites (vmap (s_with_cluster (sh i)) l) x)) end.
    apply bare_lk. cbn [c_sites c_with_sites].
    change (map (fun e => (fst e, s_with_cluster i (snd e))) (c_sites c)) with (vmap (s_with_cluster i) (c_sites c)).
    unfold vmap in *. rewrite !map_map. cbn [fst snd]. exact E. }
  apply f_eq; [apply f_gets; intros p p' [_ H]; destruct (lk_bare _ _ H) as (l & -> & E); unfold c_siteIds; cbn [c_sites c_with_sites c_with_id]; symmetry; apply pl_keys, E|intros ids].
  apply f_eq; [apply m_snd, follows_blind; intros; apply m_visitList; auto|intros vs].
  eapply f_bind with (Q := fun x y => pl y = pl x); [apply f_gets; intros p p' [_ H]; destruct (lk_bare _ _ H) as (l & -> & E); exact E|intros x y Exy].
  apply f_eq; [apply m_fst, f_modify|intros _].
  { intros c c' H. destruct (lk_bare _ _ H) as (l & -> & E).
    match goal with |- lk ?x ?y => change y with (c_with_id (sh (c_id x)) (c_with_sites (c_sites y) x)) end.
    apply bare_lk. cbn [c_sites c_with_sites c_with_id]. rewrite <- !m_take. rewrite E, Exy. reflexivity. }
  apply f_eq; [apply m_snd, follows_blind; intros j; apply blind_modify; intros; reflexivity|intros _].
  apply f_eq; [apply m_fst, follows_blind; intros; apply m_update; auto|intros _].
  apply f_mfor. intros e _. apply m_fst, follows_blind; intros; apply m_set_visits; auto.
Qed.

(** ** Labels and tables of clusters *)
Definition okz (c : Z) : Prop := c = unassignedId \/ 0 <= c.
Lemma un_neg : unassignedId < 0.
Proof. reflexivity. Qed.
Lemma sh_pos c : 0 <= c -> sh c = nm c.
Proof. intros H. unfold relabel. pose proof un_neg. destruct (c =? _) eqn:E; [apply Z.eqb_eq in E; lia|reflexivity]. Qed.
Lemma nm_pos c : 0 <= c -> 0 <= nm c.
Proof.
  intros H. destruct Hnm as [H0 H1]. destruct (Z.eq_dec c 0) as [->|Hc]; [exact H0|]. specialize (H1 0 c ltac:(lia)). lia.
Qed.
Lemma sh_inj a b : okz a -> okz b -> (sh a =? sh b) = (a =? b).
Proof.
  pose proof un_neg as Hu. assert (X : forall c, okz c -> (c = unassignedId /\ sh c = unassignedId) \/ (0 <= c /\ sh c = nm c)).
  { intros c [->|H]; [left; split; reflexivity|right; split; [exact H|apply sh_pos, H]]. }
  intros Ha Hb. apply Bool.eq_iff_eq_true. rewrite !Z.eqb_eq. split; [|intros ->; reflexivity].
  destruct (X a Ha) as [[-> ->]|[Pa ->]], (X b Hb) as [[-> ->]|[Pb ->]]; intros E; [reflexivity| | |].
  - pose proof (nm_pos b Pb) as Q. rewrite <- E in Q. revert Q Hu. generalize unassignedId. intros; lia.
  - pose proof (nm_pos a Pa) as Q. rewrite E in Q. revert Q Hu. generalize unassignedId. intros; lia.
  - destruct Hnm as [_ M]. destruct (Z.lt_trichotomy a b) as [H|[H|H]]; [|exact H|].
    + specialize (M a b (conj Pa H)). lia.
    + specialize (M b a (conj Pb H)). lia.
Qed.
Lemma sh_un c : okz c -> (sh c =? unassignedId) = (c =? unassignedId).
Proof. intros H. apply (sh_inj c unassignedId H). left; reflexivity. Qed.
Lemma ok_pos c : okz c -> (c =? unassignedId) = false -> 0 <= c.
Proof. intros [->|H] E; [rewrite Z.eqb_refl in E; discriminate|exact H]. Qed.
Lemma sh_lt a b : okz a -> okz b -> (a =? unassignedId) = false -> (b =? unassignedId) = false -> (sh a <? sh b) = (a <? b).
Proof.
  intros Ha Hb Ea Eb. pose proof (ok_pos _ Ha Ea) as Pa. pose proof (ok_pos _ Hb Eb) as Pb. rewrite !sh_pos by assumption. apply Bool.eq_iff_eq_true. rewrite !Z.ltb_lt.
  destruct Hnm as [_ M]. split; intros H; [|apply M; lia]. destruct (Z.lt_trichotomy a b) as [H1|[H1|H1]]; [exact H1|subst; lia|]. specialize (M b a (conj Pb H1)). lia.
Qed.
Definition nonneg {V} (m : umap V) : Prop := forall j, In j (ukeys m) -> 0 <= j.
Lemma k_lookup {V} c (m : umap V) : okz c -> nonneg m -> ulookup (sh c) (kmap nm m) = ulookup c m.
Proof.
  intros Hc. induction m as [|[k v] m IH]; intros Hm; [reflexivity|]. cbn [kmap map ulookup fst snd].
  assert (Hk : 0 <= k) by (apply Hm; left; reflexivity). rewrite <- (sh_pos k Hk), sh_inj by (auto; right; exact Hk).
  destruct (c =? k); [reflexivity|]. apply IH. intros j Hj. apply Hm. right; exact Hj.
Qed.
Lemma k_replace {V} c v (m : umap V) : okz c -> nonneg m -> ureplace (sh c) v (kmap nm m) = kmap nm (ureplace c v m).
Proof.
  intros Hc. induction m as [|[k w] m IH]; intros Hm; [reflexivity|]. cbn [kmap map ureplace fst snd].
  assert (Hk : 0 <= k) by (apply Hm; left; reflexivity). rewrite <- (sh_pos k Hk), sh_inj by (auto; right; exact Hk).
  destruct (c =? k); cbn [map fst snd]; rewrite <- (sh_pos k Hk); [reflexivity|]. f_equal. apply IH. intros j Hj. apply Hm. right; exact Hj.
Qed.
Lemma k_remove {V} c (m : umap V) : okz c -> nonneg m -> uremove (sh c) (kmap nm m) = kmap nm (uremove c m).
Proof.
  intros Hc. induction m as [|[k w] m IH]; intros Hm; [reflexivity|]. cbn [kmap map uremove fst snd].
  assert (Hk : 0 <= k) by (apply Hm; left; reflexivity). rewrite <- (sh_pos k Hk), sh_inj by (auto; right; exact Hk).
  destruct (c =? k); [reflexivity|]. cbn [map fst snd]. rewrite <- (sh_pos k Hk). f_equal. apply IH. intros j Hj. apply Hm. right; exact Hj.
Qed.
Lemma k_mem {V} c (m : umap V) : okz c -> nonneg m -> umem (sh c) (kmap nm m) = umem c m.
Proof. intros Hc Hm. unfold umem. rewrite k_lookup; auto. Qed.
Lemma n_replace {V} c v (m : umap V) : nonneg m -> nonneg (ureplace c v m).
Proof. intros H j Hj. apply H. rewrite <- (ureplace_keys c v m). exact Hj. Qed.
Lemma n_remove {V} c (m : umap V) : nonneg m -> nonneg (uremove c m).
Proof.
  intros H j Hj. apply H. clear H. induction m as [|[k w] m IH]; [exact Hj|]. cbn [uremove] in Hj. destruct (c =? k); [right; exact Hj|].
  destruct Hj as [<-|Hj]; [left; reflexivity|right; apply IH, Hj].
Qed.
Hypothesis Kd : names_alike nm.
Lemma n_set {V} c v (m : umap V) : 0 <= c -> nonneg m -> nonneg (uset m c v).
Proof.
  intros Hc Hm. unfold uset. destruct (umem c m); [apply n_replace, Hm|]. intros j Hj. unfold ukeys in Hj. apply in_map_iff in Hj.
  destruct Hj as (e & <- & He). apply (Permutation.Permutation_in _ (hplace_perm _ m c v)) in He. destruct He as [<-|He]; [exact Hc|].
  apply Hm. apply in_map, He.
Qed.
Lemma k_set {V} c v (m : umap V) : 0 <= c -> nonneg m -> uset (kmap nm m) (sh c) v = kmap nm (uset m c v).
Proof.
  intros Hc Hm. unfold uset. rewrite k_mem by (auto; right; exact Hc). destruct (umem c m); [apply k_replace; [right; exact Hc|exact Hm]|].
  rewrite (sh_pos c Hc). apply Kd; assumption.
Qed.
Definition ctab (m m' : umap cluster) : Prop := nonneg m /\ exists m0, rows lk m m0 /\ m' = kmap nm m0.
Lemma rows_nonneg m m0 : rows lk m m0 -> nonneg m -> nonneg m0.
Proof. intros H Hm j Hj. apply Hm. rewrite (rows_keys _ _ _ H). exact Hj. Qed.
Lemma ctab_lookup c m m' : okz c -> ctab m m' -> match ulookup c m, ulookup (sh c) m' with Some x, Some x' => lk x x' | None, None => True | _, _ => False end.
Proof. intros Hc (Hm & m0 & H & ->). rewrite k_lookup by eauto using rows_nonneg. apply rows_lookup, H. Qed.
Lemma ctab_mem c m m' : okz c -> ctab m m' -> umem (sh c) m' = umem c m.
Proof. intros Hc H. unfold umem. pose proof (ctab_lookup c _ _ Hc H) as L. destruct (ulookup c m), (ulookup (sh c) m'); try contradiction; reflexivity. Qed.
Lemma ctab_replace c x x' m m' : okz c -> lk x x' -> ctab m m' -> ctab (ureplace c x m) (ureplace (sh c) x' m').
Proof.
  intros Hc Hx (Hm & m0 & H & ->). split; [apply n_replace, Hm|]. exists (ureplace c x' m0). split; [apply rows_replace; assumption|].
  apply k_replace; eauto using rows_nonneg.
Qed.
Lemma ctab_remove c m m' : okz c -> ctab m m' -> ctab (uremove c m) (uremove (sh c) m').
Proof.
  intros Hc (Hm & m0 & H & ->). split; [apply n_remove, Hm|]. exists (uremove c m0). split; [apply rows_remove, H|].
  apply k_remove; eauto using rows_nonneg.
Qed.
Lemma ctab_set c x x' m m' : 0 <= c -> lk x x' -> ctab m m' -> ctab (uset m c x) (uset m' (sh c) x').
Proof.
  intros Hc Hx (Hm & m0 & H & ->). split; [apply n_set; assumption|]. exists (uset m0 c x'). split; [apply rows_set; assumption|].
  apply k_set; eauto using rows_nonneg.
Qed.
Lemma ctab_at {A B} (Q : A -> B -> Prop) c e e' m m' : okz c -> follows ctab Q e e' -> follows lk Q m m' -> follows ctab Q (at_key c e m) (at_key (sh c) e' m').
Proof.
  intros Hc He H n n' Hn. unfold at_key. pose proof (ctab_lookup c _ _ Hc Hn) as L.
  destruct (ulookup c n) as [x|], (ulookup (sh c) n') as [x'|]; try contradiction; [|apply He, Hn].
  specialize (H x x' L). destruct (m x), (m' x'); try contradiction; [destruct H as [? ?]; (split; [assumption|apply ctab_replace; assumption])..|exact H].
Qed.
Lemma ctab_get c : okz c -> follows ctab lk (cc_getCluster c) (cc_getCluster (sh c)).
Proof.
  intros Hc n n' Hn. unfold cc_getCluster, read_key. pose proof (ctab_lookup c _ _ Hc Hn) as L.
  destruct (ulookup c n) as [x|], (ulookup (sh c) n') as [x'|]; try contradiction; cbn; split; try reflexivity; try exact Hn. exact L.
Qed.
Lemma ctab_per {V} (v : cluster -> V) m m' : (forall c c', lk c c' -> v c' = v c) -> ctab m m' -> per_cluster v m' = kmap nm (per_cluster v m).
Proof.
  intros Hv (Hm & m0 & H & ->). unfold per_cluster. change (@nil (Z * V)) with (kmap nm (@nil (Z * V))) at 1.
  assert (H0 : nonneg (@nil (Z * V))) by (intros j []). revert H0 Hm. generalize (@nil (Z * V)).
  induction H as [|[k x] [k' y] m m0 [E1 E2] H IH]; intros acc Ha Hm; [reflexivity|]. cbn [fst snd] in E1, E2. subst k'. cbn [kmap map fold_left fst snd].
  assert (Hk : 0 <= k) by (apply Hm; left; reflexivity). rewrite (Hv _ _ E2), <- (sh_pos k Hk), k_set by assumption.
  apply IH; [apply n_set; assumption|]. intros j Hj. apply Hm. right; exact Hj.
Qed.

(** ** Systems whose clusters have other ids *)
Context {U : Ugly}.
Variables clk clk' : Z -> Z.
Variable dt : Z.
Hypothesis Hclk : forall t, clk' (t + dt) = clk t.
Hypothesis Hdt : dt = 0 \/ steady.
Definition zmoved (c c' : Z) : Prop := okz c /\ c' = sh c.
Definition smoved (s s' : site) : Prop := okz (s_cluster s) /\ s' = mvs s.
Definition pmoved (p p' : ptr) : Prop := match p with PCluster c => okz c /\ p' = PCluster (sh c) | _ => p' = p end.
Definition mv f n c k t (g : world) : world := g_with_feats f (g_with_sites n (g_with_clusters c (g_with_count k (g_with_tick t g)))).
Definition moved (g g' : world) : Prop := exists f n c,
  g' = mv f n c (nm (g_count g)) (g_tick g + dt) g /\ rows pmoved (g_feats g) f /\ rows smoved (g_sites g) n /\ ctab (g_clusters g) c /\
  0 <= g_count g /\ (forall k, g_count g <= k -> nm (k + 1) = nm k + 1).

Lemma mvs_none s : s_cluster s = unassignedId -> smoved s s.
Proof. intros E. split; [left; exact E|]. destruct s. cbn in E. subst. reflexivity. Qed.
Lemma sm_modify f : (forall x c, f (s_with_cluster c x) = s_with_cluster c (f x)) -> (forall x, s_cluster (f x) = s_cluster x) -> follows smoved eq (modify f) (modify f).
Proof. intros H1 H2. apply f_modify. intros s s' [Ho ->]. split; [rewrite H2; exact Ho|]. unfold mvs. rewrite H1, H2. reflexivity. Qed.
Lemma sm_occupy : follows smoved eq s_occupy s_occupy.
Proof. apply sm_modify; reflexivity. Qed.
Lemma sm_vacate : follows smoved eq s_vacate s_vacate.
Proof. apply sm_modify; reflexivity. Qed.
Lemma sm_occupied : follows smoved eq (gets s_isOccupied) (gets s_isOccupied).
Proof. apply f_gets. intros s s' [_ ->]. reflexivity. Qed.
Lemma sm_dwell : follows smoved eq s_getDwellTime s_getDwellTime.
Proof.
  intros s s' [Ho ->]. unfold s_getDwellTime, s_draw, bind, gets, ret. change (s_rng (mvs s)) with (s_rng s).
  destruct (edraw (s_rng s)) as [u e]. split; [reflexivity|]. split; [exact Ho|reflexivity].
Qed.
Lemma sm_pick : follows smoved eq s_pick s_pick.
Proof.
  intros s s' [Ho ->]. unfold s_pick, s_draw, bind, gets, ret. change (s_rng (mvs s)) with (s_rng s).
  destruct (edraw (s_rng s)) as [u e]. split; [reflexivity|]. split; [exact Ho|reflexivity].
Qed.

Lemma t_clusters {A B} (Q : A -> B -> Prop) m m' : follows ctab Q m m' -> follows moved Q (in_clusters m) (in_clusters m').
Proof.
  intros H g g' (f & n & c & -> & Hf & Hn & Hc & Hk & Ht). unfold in_clusters, zoom. change (g_clusters (mv f n c (nm (g_count g)) (g_tick g + dt) g)) with c. specialize (H _ _ Hc).
  destruct (m (g_clusters g)), (m' c); try contradiction; [destruct H as [? H]; (split; [assumption|]); exists f, n; eexists; (split; [reflexivity|]); split; [exact Hf|split; [exact Hn|split; [exact H|split; [exact Hk|exact Ht]]]]..|exact H].
Qed.
Lemma t_sites {A B} (Q : A -> B -> Prop) m m' : follows (rows smoved) Q m m' -> follows moved Q (in_sites m) (in_sites m').
Proof.
  intros H g g' (f & n & c & -> & Hf & Hn & Hc & Hk & Ht). unfold in_sites, zoom. change (g_sites (mv f n c (nm (g_count g)) (g_tick g + dt) g)) with n. specialize (H _ _ Hn).
  destruct (m (g_sites g)), (m' n); try contradiction; [destruct H as [? H]; (split; [assumption|]); exists f; eexists; exists c; (split; [reflexivity|]); split; [exact Hf|split; [exact H|split; [exact Hc|split; [exact Hk|exact Ht]]]]..|exact H].
Qed.
Lemma t_walker {A} p (m : M _ A) : follows moved eq (in_walker p m) (in_walker p m).
Proof.
  intros g g' (f & n & c & -> & H). unfold in_walker, zoom. change (g_walkers (mv f n c (nm (g_count g)) (g_tick g + dt) g)) with (g_walkers g).
  destruct (at_key p _ m (g_walkers g)); [(split; [reflexivity|exists f, n, c; split; [reflexivity|exact H]])..|reflexivity].
Qed.
Lemma t_local {S A B} (R : S -> S -> Prop) (Q : A -> B -> Prop) m m' s s' : follows R Q m m' -> R s s' ->
  follows moved (fun x y => Q (fst x) (fst y) /\ R (snd x) (snd y)) (local m s) (local m' s').
Proof.
  intros H Hs g g' Hg. unfold local. specialize (H s s' Hs). destruct (m s), (m' s'); try contradiction; [split; [exact H|exact Hg]|split; [apply H|exact Hg]|exact H].
Qed.
Lemma t_modify h : (forall f n c k t g, h (mv f n c k t g) = mv f n c k t (h g)) ->
  (forall g, g_feats (h g) = g_feats g /\ g_sites (h g) = g_sites g /\ g_clusters (h g) = g_clusters g /\ g_count (h g) = g_count g /\ g_tick (h g) = g_tick g) -> follows moved eq (modify h) (modify h).
Proof.
  intros H2 H3. apply f_modify. intros g g' (f & n & c & -> & H). exists f, n, c. rewrite H2. destruct (H3 g) as (-> & -> & -> & -> & ->). split; [reflexivity|exact H].
Qed.
Lemma t_gets {A} (v : world -> A) : (forall f n c k t g, v (mv f n c k t g) = v g) -> follows moved eq (gets v) (gets v).
Proof. intros H. apply f_gets. intros g g' (f & n & c & -> & _). symmetry. apply H. Qed.
Lemma t_feats k p p' : pmoved p p' -> follows moved eq (modify (fun g => g_with_feats (uset (g_feats g) k p) g)) (modify (fun g => g_with_feats (uset (g_feats g) k p') g)).
Proof.
  intros Hp. apply f_modify. intros g g' (f & n & c & -> & Hf & H). eexists; exists n, c. split; [reflexivity|]. split; [|exact H].
  apply rows_set; assumption.
Qed.
Lemma t_allfeats : follows moved (rows pmoved) (gets g_feats) (gets g_feats).
Proof. apply f_gets. intros g g' (f & n & c & -> & Hf & _). exact Hf. Qed.
Ltac look :=
  repeat match goal with
    | |- follows _ _ (bind _ _) _ => apply f_eq; [|intros]
    | |- follows _ _ (ret _) _ => apply f_ret; reflexivity
    | |- follows _ _ (stop _) _ => apply f_stop
    | |- follows _ _ (throw _) _ => apply f_throw
    | |- follows _ _ (lift _) _ => apply f_lift
    | |- follows _ _ (in_walker _ _) _ => apply t_walker
    | |- follows _ eq (gets _) _ => apply t_gets; intros; reflexivity
    | |- follows _ _ (modify _) _ => apply t_modify; [intros; reflexivity|intros; repeat split; reflexivity]
    | |- follows _ _ (mfor _ _) _ => apply f_mfor; intros ? _
    | |- follows _ _ (if _ then _ else _) _ => apply f_if
    | |- follows _ _ (match ?x with _ => _ end) _ => destruct x
    end.
Lemma t_tick : follows moved (fun t t' => t' = t + dt) next_tick next_tick.
Proof.
  intros g g' (f & n & c & -> & H). split; [reflexivity|]. exists f, n, c. split; [|exact H].
  cbn [g_tick g_count mv g_with_tick g_with_feats g_with_sites g_with_clusters g_with_count].
  replace (g_tick g + dt + 1) with (g_tick g + 1 + dt) by lia. reflexivity.
Qed.
Lemma t_clock : follows moved eq (read_clock clk) (read_clock clk').
Proof. unfold read_clock. eapply f_bind; [apply t_tick|]. intros t t' ->. apply f_ret. symmetry. apply Hclk. Qed.
Lemma t_seed : follows moved eq use_seed use_seed.
Proof.
  intros g g' (f & n & c & -> & H). unfold use_seed. change (g_seed (mv f n c (nm (g_count g)) (g_tick g + dt) g)) with (g_seed g).
  destruct (g_seed g); (split; [reflexivity|]); exists f, n, c; (split; [reflexivity|exact H]).
Qed.
Lemma t_new : follows moved (fun c c' => lk c c' /\ 0 <= c_id c) (new_cluster clk) (new_cluster clk').
Proof.
  unfold new_cluster. apply f_eq; [apply t_clock|]. intros t. intros g g' (f & n & c & -> & Hf & Hn & Hc & Hk & Ht). unfold bind, gets, modify, ret.
  split; [split; [|exact Hk]|].
  - unfold lk, cm. cbn [c_id cluster_new mv g_count g_with_feats g_with_sites g_with_clusters g_with_count]. rewrite (sh_pos _ Hk). reflexivity.
  - exists f, n, c. cbn [g_count g_tick g_with_tick g_with_count mv g_with_feats g_with_sites g_with_clusters].
    split; [|split; [exact Hf|split; [exact Hn|split; [exact Hc|split; [cbn; lia|cbn; intros k Hk'; apply Ht; lia]]]]].
    rewrite <- (Ht (g_count g)) by lia. reflexivity.
Qed.
Lemma t_feature {A} k (ms : M _ A) mc : follows smoved eq ms ms -> follows lk eq mc mc -> follows moved eq (on_feature k ms mc) (on_feature k ms mc).
Proof.
  intros Hs H. unfold on_feature. eapply f_bind with (Q := fun o o' => match o, o' with Some p, Some p' => pmoved p p' | None, None => True | _, _ => False end).
  { apply f_gets. intros g g' (f & n & c & -> & Hf & _). apply (rows_lookup _ k _ _ Hf). }
  intros [[|j|c]|] [p'|] Hp; try contradiction; try (cbn in Hp; subst p'); try apply f_stop.
  - apply t_sites, rows_at; [apply f_stop|exact Hs].
  - destruct Hp as [Hc ->]. apply t_clusters, ctab_at; [exact Hc|apply f_stop|exact H].
Qed.
Lemma t_occupied k j : follows moved eq (f_isOccupied k j) (f_isOccupied k j).
Proof. apply t_feature; [apply sm_occupied|apply follows_blind; intros; apply m_occupied; auto]. Qed.
Lemma t_occupy k j : follows moved eq (f_occupy k j) (f_occupy k j).
Proof. apply t_feature; [apply sm_occupy|apply follows_blind; intros; apply m_occupy; auto]. Qed.
Lemma t_occupy0 k : follows moved eq (f_occupy0 k) (f_occupy0 k).
Proof. apply t_feature; [apply sm_occupy|apply follows_blind; intros; apply m_occupy0; auto]. Qed.
Lemma t_vacate k j : follows moved eq (f_vacate clk k j) (f_vacate clk' k j).
Proof. unfold f_vacate. apply f_eq; [apply t_clock|]. intros t. apply t_feature; [apply sm_vacate|apply follows_blind; intros; apply m_vacate; auto]. Qed.
Lemma t_dwell k w : follows moved eq (f_getDwellTime k w) (f_getDwellTime k w).
Proof. apply t_feature; [apply sm_dwell|apply follows_blind; intros; apply m_dwell; auto]. Qed.
Lemma t_pick k w : follows moved eq (f_pick k w) (f_pick k w).
Proof. apply t_feature; [apply sm_pick|apply follows_blind; intros; apply m_pick; auto]. Qed.
Lemma t_remove k w j : follows moved eq (f_removeWalker clk k w j) (f_removeWalker clk' k w j).
Proof. unfold f_removeWalker. apply f_eq; [apply t_clock|]. intros t. apply t_feature; [apply sm_vacate|apply follows_blind; intros; apply m_remove; auto]. Qed.

Lemma t_addSite s : s_cluster s = unassignedId -> follows (rows smoved) eq (sc_addSite s) (sc_addSite s).
Proof.
  intros Hs. unfold sc_addSite. apply f_eq; [apply f_lift|intros i]. apply f_self. intros n n' Hn. rewrite (rows_mem _ i _ _ Hn).
  apply f_if; [apply f_throw|]. apply f_modify. intros; apply rows_set; [exact K|assumption|apply mvs_none, Hs].
Qed.
Lemma local_same {S A} (P : S -> Prop) (m : M S A) s : (forall a s', m s = Ret a s' -> P s') ->
  follows moved (fun x y => y = x /\ P (snd x)) (local m s) (local m s).
Proof.
  intros H g g' Hg. unfold local. destruct (m s) as [a s'|e s'|x] eqn:E; [split; [split; [reflexivity|apply (H _ _ eq_refl)]|exact Hg]|split; [reflexivity|exact Hg]|reflexivity].
Qed.
Lemma rates_label h r s a s' : s_setRates h r s = Ret a s' -> s_cluster s' = s_cluster s.
Proof.
  assert (B : forall c, blind (s_with_cluster c) (s_setRates h r)).
  { intros c. unfold s_setRates, s_calcTau. repeat (apply blind_bind; intros).
    1: apply blind_assert. 1: apply blind_mfor; intros; apply blind_bind; [apply blind_assert|intros; apply blind_modify; reflexivity].
    1: apply blind_modify; reflexivity. intros x. unfold s_calcProb; cbn; destruct (prob_loop _ _ _ _); reflexivity. }
  intros E. pose proof (B (s_cluster s) s) as H. replace (s_with_cluster (s_cluster s) s) with s in H by (destruct s; reflexivity).
  rewrite E in H. cbn [lets] in H. injection H. intros ->. reflexivity.
Qed.
Lemma t_init_site k r : follows moved eq (init_site clk k r) (init_site clk' k r).
Proof.
  unfold init_site. apply f_eq; [apply t_clock|]. intros t. apply f_eq; [look|intros h].
  eapply f_bind; [apply local_same with (P := fun s => s_cluster s = unassignedId)|].
  { intros a s' E. unfold bind, s_setId, modify in E. apply rates_label in E. exact E. }
  intros [u s] y [-> Hs]. cbn [snd] in *. apply f_eq; [apply t_seed|]. intros x.
  eapply f_bind; [apply local_same with (P := fun s => s_cluster s = unassignedId)|].
  { intros a s' E. destruct x; unfold s_setRandomSeed, modify, ret in E; apply (f_equal (fun o => match o with Ret _ z => s_cluster z | _ => 0 end)) in E; cbn in E; congruence. }
  intros [u' s1] y [-> Hs1]. cbn [snd] in *. apply f_eq; [apply t_sites, t_addSite, Hs1|intros]. apply t_feats. reflexivity.
Qed.
Lemma t_init_drain k : follows moved eq (init_drain clk k) (init_drain clk' k).
Proof.
  unfold init_drain. apply f_eq; [apply t_clock|]. intros t.
  eapply f_bind; [apply local_same with (P := fun s => s_cluster s = unassignedId)|].
  { intros a s' E. apply (f_equal (fun o => match o with Ret _ z => s_cluster z | _ => 0 end)) in E. cbn in E. congruence. }
  intros [u s] y [-> Hs]. cbn [snd] in *. apply f_eq; [apply t_sites, t_addSite, Hs|intros]. apply t_feats. reflexivity.
Qed.
Lemma t_init rates : follows moved eq (sys_initializeSystem clk rates) (sys_initializeSystem clk' rates).
Proof. unfold sys_initializeSystem. look; first [apply t_init_site|apply t_init_drain]. Qed.
Lemma t_enter l : follows moved eq (sys_initializeWalkers l) (sys_initializeWalkers l).
Proof.
  unfold sys_initializeWalkers. eapply f_bind; [apply t_allfeats|]. intros f f' Hf. destruct Hf; [look|]. apply f_mfor. intros w _. unfold init_walker.
  apply f_eq; [look|intros k]. eapply f_bind; [apply t_allfeats|]. intros q q' Hq. rewrite (rows_mem _ k _ _ Hq).
  look; first [apply t_occupy0|apply t_dwell|apply t_pick].
Qed.
Lemma t_leave id p : follows moved eq (sys_removeWalker clk id p) (sys_removeWalker clk' id p).
Proof. unfold sys_removeWalker. look. apply t_remove. Qed.
Lemma t_move id p src dst : follows moved eq (hop_move clk id p src dst) (hop_move clk' id p src dst).
Proof. unfold hop_move. look; first [apply t_occupied|apply t_vacate|apply t_occupy|apply t_dwell|apply t_pick]. Qed.
Lemma q_read {A} (f : site -> res A) k s s' : (forall x, okz (s_cluster x) -> f (mvs x) = f x) -> rows smoved s s' -> ask (read_key k f) s' = ask (read_key k f) s.
Proof.
  intros H Hs. unfold ask, read_key. pose proof (rows_lookup _ k _ _ Hs) as L.
  destruct (ulookup k s) as [x|], (ulookup k s') as [y|]; try contradiction; [|reflexivity].
  destruct L as [Ho ->]. rewrite (H x Ho). destruct (f x); reflexivity.
Qed.
Lemma q_fastest h k s s' : rows smoved s s' -> ask (sc_getFastest h k) s' = ask (sc_getFastest h k) s.
Proof. apply q_read. reflexivity. Qed.
Lemma q_rateTo h k n s s' : rows smoved s s' -> ask (sc_getRateTo h k n) s' = ask (sc_getRateTo h k n) s.
Proof. apply q_read. reflexivity. Qed.
Lemma sh_part c : okz c -> (sh c >? -1) = (c >? -1).
Proof.
  intros [->|H]; [reflexivity|]. rewrite (sh_pos _ H). pose proof (nm_pos _ H). apply Bool.eq_iff_eq_true. rewrite !Z.gtb_lt. lia.
Qed.
Lemma q_part k s s' : rows smoved s s' -> ask (sc_partOfCluster k) s' = ask (sc_partOfCluster k) s.
Proof. apply q_read. intros x Hx. f_equal. apply (sh_part _ Hx). Qed.
Lemma q_neigh k s s' : rows smoved s s' -> ask (sc_getNeighIds k) s' = ask (sc_getNeighIds k) s.
Proof. apply q_read. reflexivity. Qed.
Lemma q_rates s s' : rows smoved s s' -> rates_of s' = rates_of s.
Proof.
  intros H. unfold rates_of. generalize ([] : umap (umap Z)). induction H as [|[a x] [b y] s s' [E1 E2] H IH]; intros acc; [reflexivity|].
  cbn in E1, E2. subst b. destruct E2 as [_ ->]. cbn [fold_left fst snd]. apply IH.
Qed.
Lemma q_edges h s s' k : rows smoved s s' -> edges_of h s' k = edges_of h s k.
Proof. intros H. unfold edges_of. rewrite (q_rates _ _ H). reflexivity. Qed.
Lemma q_adds h s s' thr v l : rows smoved s s' -> forall q, add_edges h s' thr v l q = add_edges h s thr v l q.
Proof.
  intros H. induction l as [|e l IH]; intros q; [reflexivity|]. cbn [add_edges].
  assert (X : add_edge h s' thr v e q = add_edge h s thr v e q).
  { unfold add_edge. rewrite (q_rateTo _ _ _ _ _ H), (q_fastest _ _ _ _ H). reflexivity. }
  rewrite X. destruct (add_edge h s thr v e q); cbn [rbind]; auto.
Qed.
Lemma q_loop nonce h b s s' fuel : rows smoved s s' -> forall i q, basin_loop fuel nonce i h b s' q = basin_loop fuel nonce i h b s q.
Proof.
  intros H. induction fuel as [|f IH]; intros i q; cbn [basin_loop]; destruct (q_front q); try reflexivity.
  rewrite (q_edges _ _ _ _ H), (q_adds _ _ _ _ _ _ H). destruct (add_edges _ _ _ _ _ _); cbn [rbind]; try reflexivity.
  destruct (_ <? _); auto.
Qed.
Lemma q_off h k s s' m m' : rows smoved s s' -> ctab m m' ->
  (cid <-! ask (sc_getClusterId k) s'; c <-! ask (cc_getCluster cid) m'; Ok (c_fastestOff h c)) =
  (cid <-! ask (sc_getClusterId k) s; c <-! ask (cc_getCluster cid) m; Ok (c_fastestOff h c)).
Proof.
  intros H Hm. unfold ask, sc_getClusterId, read_key. pose proof (rows_lookup _ k _ _ H) as L.
  destruct (ulookup k s) as [x|], (ulookup k s') as [y|]; try contradiction; [|reflexivity].
  destruct L as [Ho ->]. cbn [lift rbind]. unfold cc_getCluster, read_key. change (s_getClusterId (mvs x)) with (sh (s_cluster x)). pose proof (ctab_lookup _ _ _ Ho Hm) as L.
  unfold s_getClusterId. destruct (ulookup (s_cluster x) m) as [c|], (ulookup (sh (s_cluster x)) m') as [c'|]; try contradiction; cbn [lift rbind]; [|reflexivity].
  rewrite <- (m_fastest (fun _ => unassignedId) (fun c => c) h c'), <- (m_fastest (fun _ => unassignedId) sh h c). unfold lk in L. rewrite L. reflexivity.
Qed.
Lemma q_basin fuel nonce h b s s' m m' k : rows smoved s s' -> ctab m m' -> find_basin fuel nonce h b s' m' k = find_basin fuel nonce h b s m k.
Proof.
  intros H Hm. unfold find_basin. rewrite (q_fastest _ _ _ _ H), (q_part _ _ _ H), (q_edges _ _ _ _ H), (q_off _ _ _ _ _ _ H Hm).
  destruct (ask (sc_getFastest h k) s) as [fast| |]; cbn [rbind]; try reflexivity.
  destruct (ask (sc_partOfCluster k) s) as [part| |]; cbn [rbind]; try reflexivity.
  match goal with |- rbind ?a _ = _ => destruct a as [slow| |] end; cbn [rbind]; try reflexivity.
  rewrite (q_adds _ _ _ _ _ _ H). destruct (add_edges _ _ _ _ _ _); cbn [rbind]; try reflexivity. apply q_loop, H.
Qed.
Lemma q_limit nonce h s s' ids : rows smoved s s' -> internal_limit nonce h s' ids = internal_limit nonce h s ids.
Proof. intros H. unfold internal_limit, time_edges. rewrite (q_rates _ _ H). reflexivity. Qed.
Lemma q_exit h s s' all ids : rows smoved s s' -> forall acc, exit_sum h s' all ids acc = exit_sum h s all ids acc.
Proof.
  intros H. induction ids as [|k ids IH]; intros acc; [reflexivity|]. cbn [exit_sum]. rewrite (q_neigh _ _ _ H).
  destruct (ask (sc_getNeighIds k) s) as [ns| |]; cbn [rbind]; try reflexivity.
  match goal with |- rbind (?f1 ns acc) _ = rbind (?f2 ns acc) _ => assert (X : forall l a, f1 l a = f2 l a) end.
  { induction l as [|x l IHl]; intros a; [reflexivity|]. cbn. rewrite (q_rateTo _ _ _ _ _ H). destruct (existsb _ _); [apply IHl|].
    destruct (ask (sc_getRateTo h k x) s); cbn [rbind]; auto. }
  rewrite X. match goal with |- rbind ?f1 _ = _ => destruct f1 end; cbn [rbind]; auto.
Qed.
Lemma t_equil ids limit : follows moved eq (equilibrium ids limit) (equilibrium ids limit).
Proof.
  unfold equilibrium. apply f_self. intros g g' (f & n & c & -> & Hf & Hn & Hc & Hk & Ht).
  cbn [mv g_heap g_sites g_perf g_res g_with_clusters g_with_sites g_with_feats g_with_count g_with_tick].
  unfold exit_time. rewrite (q_exit _ _ _ _ _ Hn). look.
Qed.
Lemma t_part k : follows moved eq (in_sites (sc_partOfCluster k)) (in_sites (sc_partOfCluster k)).
Proof.
  apply t_sites, rows_read. intros s s' [Ho ->]. assert (E : s_partOfCluster (mvs s) = s_partOfCluster s) by apply (sh_part _ Ho). rewrite E. apply f_lift.
Qed.
Lemma t_id k : follows moved zmoved (in_sites (sc_getClusterId k)) (in_sites (sc_getClusterId k)).
Proof. apply t_sites, rows_read. intros s s' [Ho ->] n n' Hn. cbn. split; [split; [exact Ho|reflexivity]|exact Hn]. Qed.
Lemma t_label k c : okz c -> follows moved eq (in_sites (sc_setClusterId k c)) (in_sites (sc_setClusterId k (sh c))).
Proof.
  intros Hc. apply t_sites, rows_at; [apply f_throw|]. apply f_modify. intros s s' [Ho ->]. split; [exact Hc|reflexivity].
Qed.
Lemma t_site k : follows moved smoved (in_sites (sc_getSite k)) (in_sites (sc_getSite k)).
Proof. apply t_sites, rows_read. intros s s' Hs. intros n n' Hn. cbn. auto. Qed.
Lemma t_clusters_of ids : forall acc acc', rows zmoved acc acc' -> follows moved (rows zmoved) (clusters_of ids acc) (clusters_of ids acc').
Proof.
  induction ids as [|k ids IH]; intros acc acc' Ha; cbn [clusters_of]; [apply f_ret, Ha|].
  apply f_eq; [apply t_part|intros b]. eapply f_bind with (Q := zmoved).
  { apply f_if; [apply t_id|apply f_ret; split; [left; reflexivity|reflexivity]]. }
  intros c c' Hc. apply IH. apply rows_set; assumption.
Qed.
Lemma t_copy ids : follows moved (Forall2 smoved) (copy_sites ids) (copy_sites ids).
Proof.
  induction ids; cbn [copy_sites]; [apply f_ret; constructor|]. eapply f_bind; [apply t_site|]. intros s s' Hs.
  eapply f_bind; [exact IHids|]. intros l l' Hl. apply f_ret. constructor; assumption.
Qed.
Lemma copies l l' : Forall2 smoved l l' -> map plain l' = map plain l.
Proof. induction 1 as [|? ? ? ? [_ ->]]; cbn [map]; [reflexivity|]. f_equal. assumption. Qed.
Lemma create_id fuel h l c a c' :
  (c_setMethod ByTolerance ;; c_setTolerance (nlit 1 1000) ;; c_addSites l ;; c_update fuel h) c = Ret a c' -> c_id c' = c_id c.
Proof.
  destruct a.
  unfold c_setMethod, c_setTolerance, bind at 1 2 3, modify, cassert. intros E.
  destruct (nleb n0 _); [|discriminate]. unfold ret in E. unfold bind in E. destruct (c_addSites l _) as [[] c1|? ?|?] eqn:Ea; try discriminate.
  destruct (addSites_inv _ _ _ Ea) as (m & Ec & _). rewrite (sc_id _ _ (keeps_update _ _ _ _ _ E)), Ec. reflexivity.
Qed.
Lemma lk_id x x' : lk x x' -> c_id x' = sh (c_id x).
Proof. intros H. exact (f_equal c_id H). Qed.
Lemma t_add x x' : lk x x' -> 0 <= c_id x -> follows ctab eq (cc_addCluster x) (cc_addCluster x').
Proof.
  intros Hl Hx. unfold cc_addCluster. rewrite (lk_id _ _ Hl). apply f_self. intros m m' Hm.
  rewrite (ctab_mem _ _ _ (or_intror Hx) Hm). apply f_if; [apply f_throw|]. apply f_modify. intros q q' Hq. apply ctab_set; assumption.
Qed.
Lemma local_lk {A} (m m' : M cluster A) i c c' : follows lk eq m m' -> lk c c' -> (forall a c1, m c = Ret a c1 -> c_id c1 = i) ->
  follows moved (fun x y => lk (snd x) (snd y) /\ c_id (snd x) = i) (local m c) (local m' c').
Proof.
  intros H Hc Hi g g' Hg. unfold local. specialize (H c c' Hc). destruct (m c) as [a c1|e c1|x] eqn:E, (m' c'); try contradiction;
    [split; [split; [apply H|apply (Hi _ _ eq_refl)]|exact Hg]|split; [apply H|exact Hg]|exact H].
Qed.
Lemma t_create fuel ids limit : follows moved eq (create_cluster clk fuel ids limit) (create_cluster clk' fuel ids limit).
Proof.
  unfold create_cluster. eapply f_bind; [apply t_new|]. intros c0 c0' [H0 Hi].
  eapply f_bind; [apply t_copy|]. intros l l' Hl. apply copies in Hl. apply f_eq; [look|intros h].
  eapply f_bind; [apply local_lk with (i := c_id c0); [|exact H0|]|].
  { apply f_eq; [unfold c_setMethod; apply follows_blind; intros ?; apply blind_modify; intros; reflexivity|intros _].
    apply f_eq; [unfold c_setTolerance; apply follows_blind; intros ?; apply blind_bind; [apply blind_assert|intros; apply blind_modify; intros; reflexivity]|intros _].
    apply f_eq; [apply m_addSites, Hl|intros _]. apply follows_blind; intros; apply m_update; auto. }
  { intros a c1 E. apply (create_id _ _ _ _ _ _ E). }
  intros [u x] [u' x'] [Hx Ix]. cbn [snd] in *. apply f_eq; [look|intros tres]. destruct tres as [tres|]; [|look].
  assert (Et : c_getTimeConstant x' = c_getTimeConstant x) by (exact (f_equal c_tau Hx)). rewrite Et.
  eapply f_bind; [apply local_lk with (i := c_id c0); [|exact Hx|]|].
  { apply follows_blind; intros; apply m_resolution; auto. }
  { intros a c1 E. unfold c_setResolution, bind, cassert, modify in E. rewrite <- Ix.
    destruct (nleb _ _); [|discriminate E]. apply (f_equal (fun o => match o with Ret _ z => c_id z | _ => 0 end)) in E. cbn in E. congruence. }
  intros [v y] [v' y'] [Hy Iy]. cbn [snd] in *. apply f_eq; [apply t_seed|]. intros z.
  eapply f_bind; [apply local_lk with (i := c_id c0); [|exact Hy|]|].
  { destruct z; [apply follows_blind; intros; apply m_seed; auto|apply f_ret; reflexivity]. }
  { intros a c1 E. rewrite <- Iy. destruct z; unfold c_setRandomSeed, modify, ret in E; apply (f_equal (fun o => match o with Ret _ z => c_id z | _ => 0 end)) in E; cbn in E; congruence. }
  intros [w q] [w' q'] [Hq Iq]. cbn [snd] in *. apply f_eq; [apply t_clusters, t_add; [exact Hq|rewrite Iq; exact Hi]|intros _].
  eapply f_bind; [apply t_new|]. intros _ _ _. rewrite (lk_id _ _ H0).
  apply f_mfor. intros k _. apply f_eq; [apply t_label; right; exact Hi|intros]. apply t_feats. split; [right; exact Hi|reflexivity].
Qed.
Lemma kshift_keys {V} (m : umap V) : ukeys (kmap nm m) = map nm (ukeys m).
Proof. unfold ukeys, kmap. rewrite !map_map. reflexivity. Qed.
Lemma t_scan fav sac sac' : okz fav -> rows zmoved sac sac' -> forall iso iso' cids, Forall2 smoved iso iso' -> nonneg cids ->
  follows moved (fun x y => Forall2 smoved (fst x) (fst y) /\ nonneg (snd x) /\ snd y = kmap nm (snd x)) (merge_scan fav sac iso cids) (merge_scan (sh fav) sac' iso' (kmap nm cids)).
Proof.
  intros Hv H. induction H as [|[k c] [k' c'] sac sac' [E1 E2] H IH]; intros iso iso' cids Hi Hc; cbn [merge_scan]; [apply f_ret; auto|].
  cbn [fst snd] in E1, E2. subst k'. destruct E2 as [Ho ->]. rewrite (sh_inj _ _ Ho Hv), (sh_un _ Ho).
  apply f_if; [apply IH; assumption|]. eapply f_bind with (Q := Forall2 smoved).
  { apply f_if; [|apply f_ret, Hi]. eapply f_bind; [apply t_site|]. intros s s' Hs. apply f_ret. apply Forall2_app; [exact Hi|]. constructor; [exact Hs|constructor]. }
  intros i1 i1' H1. eapply f_bind; [apply t_clusters, ctab_get, Hv|]. intros ? ? _.
  apply f_eq; [apply t_feats; split; [exact Hv|reflexivity]|intros]. apply f_eq; [apply t_label, Hv|intros].
  destruct (c =? unassignedId) eqn:Eu; [apply IH; assumption|]. pose proof (ok_pos _ Ho Eu) as Hp.
  assert (X : uinsert (kmap nm cids) (sh c) = kmap nm (uinsert cids c)).
  { unfold uinsert. rewrite (k_mem _ _ Ho Hc). destruct (umem c cids); [reflexivity|]. rewrite (sh_pos _ Hp). apply Kd; assumption. }
  rewrite X. apply IH; [exact H1|]. unfold uinsert. destruct (umem c cids); [exact Hc|].
  intros j Hj. unfold ukeys in Hj. apply in_map_iff in Hj. destruct Hj as (e & <- & He).
  apply (Permutation.Permutation_in _ (hplace_perm _ cids c tt)) in He. destruct He as [<-|He]; [exact Hp|apply Hc, in_map, He].
Qed.
Lemma t_absorb fuel fav c : okz fav -> okz c -> follows moved eq (absorb fuel fav c) (absorb fuel (sh fav) (sh c)).
Proof.
  intros Hv Hc. unfold absorb. eapply f_bind; [apply t_clusters, ctab_get, Hv|]. intros a a' Ha.
  eapply f_bind; [apply t_clusters, ctab_get, Hc|]. intros b b' Hb. apply f_eq; [look|intros h].
  eapply f_bind; [apply t_local with (R := lks); [apply m_migrate|split; assumption]|].
  intros p p' [_ [H1 H2]].
  apply f_eq; [apply t_clusters, f_modify; intros; apply ctab_replace; assumption|intros].
  apply f_eq; [apply t_clusters, f_modify; intros; apply ctab_replace; assumption|intros].
  apply t_clusters. unfold cc_erase. apply f_modify. intros. apply ctab_remove; assumption.
Qed.
Lemma t_merge fuel sac sac' fav : okz fav -> rows zmoved sac sac' -> follows moved eq (merge_clusters fuel sac fav) (merge_clusters fuel sac' (sh fav)).
Proof.
  intros Hv Hs. unfold merge_clusters. eapply f_bind.
  { change (@nil (Z * unit)) with (kmap nm (@nil (Z * unit))) at 2. apply t_scan; [exact Hv|exact Hs|constructor|intros j []]. }
  intros [iso cids] [iso' cids'] (H1 & H2 & H3). cbn [fst snd] in *. subst cids'. apply copies in H1.
  apply f_eq; [look|intros h].
  apply f_eq; [apply t_clusters, ctab_at; [exact Hv|apply f_throw|apply m_addSites, H1]|intros].
  apply f_eq; [apply t_clusters, ctab_at; [exact Hv|apply f_throw|apply follows_blind; intros; apply m_update; auto]|intros].
  rewrite kshift_keys. apply f_mfor2 with (Q := fun x y => 0 <= x /\ y = sh x).
  - revert H2. unfold nonneg. generalize (ukeys cids). induction l as [|x l IH]; intros Hl; [constructor|]. constructor.
    + split; [apply Hl; left; reflexivity|]. symmetry. apply sh_pos, Hl. left; reflexivity.
    + apply IH. intros j Hj. apply Hl. right; exact Hj.
  - intros x y [Hx ->]. apply t_absorb; [exact Hv|right; exact Hx].
Qed.
Lemma c_favored sac sac' : rows zmoved sac sac' -> zmoved (favored sac) (favored sac').
Proof.
  unfold favored. assert (X : forall sac sac' c, rows zmoved sac sac' -> okz c ->
    zmoved (fold_left (fun c e => if negb (snd e =? unassignedId) && ((c =? unassignedId) || (snd e <? c)) then snd e else c) sac c)
           (fold_left (fun c e => if negb (snd e =? unassignedId) && ((c =? unassignedId) || (snd e <? c)) then snd e else c) sac' (sh c))).
  { clear sac sac'. intros sac sac' c H. revert c. induction H as [|[k x] [k' x'] sac sac' [E1 [Ho E2]] H IH]; intros c Hc; [split; [exact Hc|reflexivity]|].
    cbn [fst snd] in E1, Ho, E2. subst k' x'. cbn [fold_left snd]. rewrite (sh_un _ Ho), (sh_un _ Hc).
    destruct (x =? unassignedId) eqn:E1; cbn [negb andb]; [apply IH, Hc|].
    destruct (c =? unassignedId) eqn:E2; cbn [orb]; [apply IH, Ho|]. rewrite (sh_lt _ _ Ho Hc E1 E2). destruct (x <? c); apply IH; assumption. }
  intros H. apply (X sac sac' unassignedId H). left; reflexivity.
Qed.
Lemma hplace_mem (s : umap unit) k j : umem j (hplace unit s k tt) = (j =? k) || umem j s.
Proof.
  apply Bool.eq_iff_eq_true. rewrite Bool.orb_true_iff, !umem_In, Z.eqb_eq. unfold ukeys.
  pose proof (Permutation.Permutation_map fst (hplace_perm unit s k tt)) as P. split; intros H.
  - apply (Permutation.Permutation_in _ P) in H. destruct H as [<-|H]; auto.
  - apply (Permutation.Permutation_in _ (Permutation.Permutation_sym P)). destruct H as [->|H]; [left; reflexivity|right; exact H].
Qed.
Lemma c_count sac sac' : rows zmoved sac sac' -> count_clusters sac' = count_clusters sac.
Proof.
  unfold count_clusters.
  assert (X : forall sac sac' (s s' : umap unit), rows zmoved sac sac' -> length s' = length s -> (forall c, okz c -> umem (sh c) s' = umem c s) ->
    length (fold_left (fun s e => uinsert s (snd e)) sac' s') = length (fold_left (fun s e => uinsert s (snd e)) sac s)).
  { clear sac sac'. intros sac sac' s s' H. revert s s'. induction H as [|[k x] [k' x'] sac sac' [E1 [Ho E2]] H IH]; intros s s' Hl Hm; [exact Hl|].
    cbn [fst snd] in E1, Ho, E2. subst k' x'. cbn [fold_left snd]. apply IH.
    - unfold uinsert. rewrite (Hm x Ho). destruct (umem x s); [exact Hl|].
      rewrite (Permutation.Permutation_length (hplace_perm _ s' (sh x) tt)), (Permutation.Permutation_length (hplace_perm _ s x tt)). cbn [length]. congruence.
    - intros c Hc. specialize (Hm c Hc) as Hmc. unfold uinsert. rewrite (Hm x Ho). destruct (umem x s); [exact Hmc|].
      rewrite !hplace_mem. rewrite (sh_inj _ _ Hc Ho), Hmc. reflexivity. }
  intros H. apply (X sac sac' [] [] H); [reflexivity|intros; reflexivity].
Qed.
Lemma res_ext {A B} (r : res A) (f g : A -> res B) : (forall a, f a = g a) -> rbind r f = rbind r g.
Proof. intros E. destruct r; cbn [rbind]; auto. Qed.
Lemma n_basin fuel n h e s m k : find_basin fuel (n + dt) h e s m k = find_basin fuel n h e s m k.
Proof.
  destruct Hdt as [->|(S1 & S2 & S3 & _)]; [rewrite Z.add_0_r; reflexivity|]. unfold find_basin.
  assert (X : forall f i q, basin_loop f (n + dt) i h e s q = basin_loop f n i h e s q).
  { induction f as [|f IH]; intros i q; cbn [basin_loop]; destruct (q_front q); try reflexivity; rewrite ?(S3 (n + dt) n); try reflexivity.
    rewrite (S2 (n + dt) n), (S1 (n + dt) n). destruct (add_edges _ _ _ _ _ _); cbn [rbind]; try reflexivity. rewrite IH. reflexivity. }
  apply res_ext. intros fast. apply res_ext. intros part. apply res_ext. intros slow. rewrite (S1 (n + dt) n). apply res_ext. intros q. apply X.
Qed.
Lemma n_limit n h s ids : internal_limit (n + dt) h s ids = internal_limit n h s ids.
Proof.
  destruct Hdt as [->|(_ & _ & _ & S4)]; [rewrite Z.add_0_r; reflexivity|]. unfold internal_limit. f_equal. unfold pair_times.
  apply flat_map_ext. intros i. apply flat_map_ext. intros j. rewrite (S4 (n + dt) n). reflexivity.
Qed.
Lemma t_grain fuel k : follows moved eq (coarse_grain clk fuel k) (coarse_grain clk' fuel k).
Proof.
  unfold coarse_grain. eapply f_bind; [apply t_tick|]. intros nonce nonce' ->. apply f_self. intros g g' (f & n & c & -> & Hf & Hn & Hc & Hk & Ht).
  cbn [mv g_heap g_sites g_clusters g_with_clusters g_with_sites g_with_feats g_with_count g_with_tick]. rewrite (q_basin _ _ _ _ _ _ _ _ _ Hn Hc), n_basin.
  apply f_eq; [look|intros ids]. cbv zeta. rewrite (q_limit _ _ _ _ _ Hn), n_limit. apply f_eq; [apply t_equil|intros ok].
  apply f_if; [|look]. eapply f_bind; [apply t_clusters_of; constructor|]. intros sac sac' Hs.
  rewrite (c_count _ _ Hs).
  assert (Eh : match sac' with (_, c) :: _ => c =? unassignedId | [] => false end = match sac with (_, c) :: _ => c =? unassignedId | [] => false end).
  { destruct Hs as [|[a x] [b y] sac sac' [_ [Ho E2]] _]; [reflexivity|]. cbn [snd] in E2, Ho. subst y. apply sh_un, Ho. }
  rewrite Eh. destruct (c_favored _ _ Hs) as [Hv ->].
  apply f_if; [apply f_eq; [apply t_create|intros; look]|]. apply f_if; [|look]. apply f_eq; [apply t_merge; assumption|intros; look].
Qed.
Lemma t_attempt fuel k : follows moved eq (hop_attempt clk fuel k) (hop_attempt clk' fuel k).
Proof. unfold hop_attempt. look. apply t_grain. Qed.
Lemma t_hop fuel id p : follows moved eq (sys_hop clk fuel id p) (sys_hop clk' fuel id p).
Proof. unfold sys_hop. look; [apply t_move|apply t_attempt]. Qed.
Lemma t_visits k : follows moved eq (sys_getVisits k) (sys_getVisits k).
Proof.
  unfold sys_getVisits. eapply f_bind with (Q := fun n n' => umem k n = umem k n').
  { apply f_gets. intros g g' (f & n & c & -> & _ & Hn & _). apply (rows_mem _ k _ _ Hn). }
  intros n n' ->. apply f_if; [|apply f_throw]. eapply f_bind; [apply t_site|]. intros s s' [_ ->].
  change (s_getVisitFrequency (mvs s)) with (s_getVisitFrequency s). apply f_eq; [apply t_part|intros b]. apply f_if; [|look].
  eapply f_bind; [apply t_id|intros c c' [Hc ->]].
  apply f_eq; [apply t_clusters, ctab_at; [exact Hc|apply f_throw|apply follows_blind; intros; apply m_visits; auto]|intros; look].
Qed.

(** ** Programs *)
Lemma moved_enter g g' ws l : moved g g' -> enter_ok g' ws l = enter_ok g ws l.
Proof.
  intros (f & n & c & -> & _ & Hn & _). unfold enter_ok, cur_of, sys_getClusterId, in_sites, zoom.
  cbn [mv g_walkers g_sites g_with_clusters g_with_sites g_with_feats g_with_count g_with_tick].
  f_equal. apply forallb_ext'. intros p. unfold sc_getClusterId, read_key.
  match goal with |- context [ulookup ?k n] => pose proof (rows_lookup _ k _ _ Hn) as L; destruct (ulookup k n) as [y|], (ulookup k (g_sites g)) as [x|] end;
    try contradiction; [|reflexivity]. destruct L as [Ho ->]. apply (sh_un _ Ho).
Qed.
Definition both (r r' : option (world * list Z)) : Prop :=
  match r, r' with Some x, Some x' => snd x' = snd x /\ moved (fst x) (fst x') | None, None => True | _, _ => False end.
Lemma after_both {A} (o o' : M world A) g g' ws : follows moved eq o o' -> moved g g' -> both (after (o g) ws) (after (o' g') ws).
Proof. intros H Hg. specialize (H g g' Hg). destruct (o g), (o' g'); try contradiction; cbn; [|exact Logic.I..]. split; [reflexivity|apply H]. Qed.
Lemma exec1_both a g g' ws : moved g g' -> both (exec1 clk a (g, ws)) (exec1 clk' a (g', ws)).
Proof.
  intros Hg. destruct a; cbn [exec1].
  - apply after_both; [unfold sys_setPerformanceRatio; look|exact Hg].
  - apply after_both; [unfold sys_setTimeResolution; look|exact Hg].
  - apply after_both; [unfold sys_setThreshold; look|exact Hg].
  - apply after_both; [|exact Hg]. unfold sys_setRandomSeed. eapply f_bind; [apply t_allfeats|]. intros f f' Hf. destruct Hf; look.
  - destruct (rates_ok rates); [|exact Logic.I]. apply after_both; [apply t_init|exact Hg].
  - split; [reflexivity|]. destruct Hg as (f & n & c & -> & H). exists f, n, c. split; [reflexivity|exact H].
  - rewrite (moved_enter _ _ _ _ Hg). destruct (enter_ok g ws l); [|exact Logic.I]. apply after_both; [apply t_enter|exact Hg].
  - destruct (existsb (Z.eqb p) ws); [|exact Logic.I]. apply after_both; [apply t_hop|exact Hg].
  - destruct (existsb (Z.eqb p) ws); [|exact Logic.I]. apply after_both; [apply t_leave|exact Hg].
  - apply after_both; [apply t_visits|exact Hg].
Qed.
Lemma moved_iff {A} (m m' : M world A) g g' : follows moved eq m m' -> moved g g' -> forall a, (exists x, m g = Ret a x) <-> exists x, m' g' = Ret a x.
Proof.
  intros H Hg a. specialize (H g g' Hg). destruct (m g), (m' g'); try contradiction; try (split; intros (x & E); discriminate).
  destruct H as [<- _]. split; intros (x & E); inversion E; subst; eauto.
Qed.
Lemma moved_table {V} (v : cluster -> V) g g' : (forall c c', lk c c' -> v c' = v c) -> moved g g' ->
  forall m', (exists x, in_clusters (gets (per_cluster v)) g' = Ret m' x) <-> exists m, (exists x, in_clusters (gets (per_cluster v)) g = Ret m x) /\ m' = kmap nm m.
Proof.
  intros Hv (f & n & c & -> & _ & _ & Hc & _) m'. unfold in_clusters, zoom, gets. cbn [mv g_clusters g_with_clusters g_with_sites g_with_feats g_with_count g_with_tick].
  rewrite (ctab_per v _ _ Hv Hc). split.
  - intros (x & E). apply (f_equal (fun o => match o with Ret a _ => a | _ => m' end)) in E. cbn in E. subst. eauto.
  - intros (m & (x & E) & ->). apply (f_equal (fun o => match o with Ret a _ => a | _ => m end)) in E. cbn in E. subst. eauto.
Qed.
Lemma moved_answers g g' : moved g g' -> g_walkers g' = g_walkers g /\ forall P, renamed P nm g g'.
Proof.
  intros Hg. assert (Ew : g_walkers g' = g_walkers g) by (destruct Hg as (f & n & c & -> & H); reflexivity).
  split; [exact Ew|]. intros P. split; [intros p _; rewrite Ew; reflexivity|].
  split; [apply moved_table; [intros c c' H; destruct (lk_bare _ _ H) as (l & -> & E); apply pl_keys, E|exact Hg]|].
  split; [apply moved_table; [intros c c' H; destruct (lk_bare _ _ H) as (l & -> & E); reflexivity|exact Hg]|].
  split; [apply moved_table; [intros c c' H; destruct (lk_bare _ _ H) as (l & -> & E); reflexivity|exact Hg]|].
  split.
  { intros k c'. unfold cluster_of. pose proof (t_id k g g' Hg) as H. unfold sys_getClusterId.
    destruct (in_sites (sc_getClusterId k) g) as [a x|? ?|?], (in_sites (sc_getClusterId k) g') as [a' x'|? ?|?]; try contradiction.
    - destruct H as [[_ ->] _]. split.
      + intros (y & E). apply (f_equal (fun o => match o with Ret z _ => z | _ => c' end)) in E. cbn in E. exists a. split; [eauto|congruence].
      + intros (c & (y & E) & ->). apply (f_equal (fun o => match o with Ret z _ => z | _ => c end)) in E. cbn in E. subst. eauto.
    - split; [intros (y & E); discriminate|intros (c & (y & E) & _); discriminate].
    - split; [intros (y & E); discriminate|intros (c & (y & E) & _); discriminate]. }
  split; [intros k; apply moved_iff; [apply t_occupied|exact Hg]|].
  intros k; apply moved_iff; [apply t_visits|exact Hg].
Qed.
End Moved.

(** ** Runs that start at another id *)
Section Shift.
Context {I : Impl} {N : Num} {G : Rng} {U : Ugly}.
Variables (clk : Z -> Z) (d : Z).
Hypothesis K : keys_only.
Hypothesis Kd : shifts_alike d.
Hypothesis Hd : 0 <= d.
Notation by_d := (fun k => k + d).
Lemma by_d_increasing : increasing by_d.
Proof. split; [lia|intros a b H; lia]. Qed.
Lemma exec_both l : forall g g' ws, moved by_d 0 g g' -> both by_d 0 (exec clk l (g, ws)) (exec clk l (g', ws)).
Proof.
  induction l as [|a l IH]; intros g g' ws Hg; cbn [exec]; [split; [reflexivity|exact Hg]|].
  assert (H : both by_d 0 (exec1 clk a (g, ws)) (exec1 clk a (g', ws))).
  { apply exec1_both; [exact K|apply by_d_increasing|exact Kd|intros t; rewrite Z.add_0_r; reflexivity|left; reflexivity|exact Hg]. }
  destruct (exec1 clk a (g, ws)) as [[g1 ws1]|], (exec1 clk a (g', ws)) as [[g2 ws2]|]; try contradiction; [|exact Logic.I].
  destruct H as [E H]. cbn [fst snd] in E, H. subst ws2. apply IH; exact H.
Qed.
Lemma kshift_inj {V} (m m' : umap V) : kshift d m = kshift d m' -> m = m'.
Proof.
  revert m'. induction m as [|[k v] m IH]; intros [|[k' v'] m'] E; try discriminate; [reflexivity|]. cbn in E. injection E. intros E1 -> E2.
  rewrite (IH m' E1). f_equal. f_equal. lia.
Qed.
Lemma by_d_renumbered g g' : g_walkers g' = g_walkers g -> renamed (fun _ => True) by_d g g' -> renumbered d g g'.
Proof.
  intros H1 (_ & H2 & H3 & H4 & H5 & H6 & H7).
  assert (X : forall V (q : M world (umap V)), (forall m', (exists x, q g' = Ret m' x) <-> exists m, (exists x, q g = Ret m x) /\ m' = kmap by_d m) ->
    forall m, (exists x, q g = Ret m x) <-> exists x, q g' = Ret (kshift d m) x).
  { intros V q H m. change (kshift d m) with (kmap by_d m). rewrite H. split; [intros Hx; exists m; auto|].
    intros (m0 & Hx & E). apply kshift_inj in E. subst. exact Hx. }
  split; [exact H1|]. split; [apply X, H2|]. split; [apply X, H3|]. split; [apply X, H4|]. split; [exact H5|]. split; assumption.
Qed.
Theorem exec_shift walkers h count tick l : 0 <= count ->
  match exec clk l (world_new walkers h count tick, []), exec clk l (world_new walkers h (count + d) tick, []) with
  | Some (g, ws), Some (g', ws') => ws' = ws /\ renumbered d g g'
  | None, None => True
  | _, _ => False
  end.
Proof.
  intros Hc. assert (Hm : moved by_d 0 (world_new walkers h count tick) (world_new walkers h (count + d) tick)).
  { exists [], [], []. split; [unfold mv; cbn [g_tick world_new]; rewrite Z.add_0_r; reflexivity|]. split; [constructor|]. split; [constructor|].
    split; [split; [intros j []|exists []; split; [constructor|reflexivity]]|]. split; [exact Hc|intros; lia]. }
  pose proof (exec_both l _ _ [] Hm) as H.
  destruct (exec clk l _) as [[g ws]|], (exec clk l _) as [[g' ws']|]; try exact H. destruct H as [H1 H2]. split; [exact H1|].
  edestruct moved_answers as [Hw Hr]; [apply by_d_increasing|exact Kd|exact H2|]. apply by_d_renumbered; [exact Hw|apply Hr].
Qed.
End Shift.

(** ** Runs among others *)
Section Among.
Context {I : Impl} {N : Num} {G : Rng} {U : Ugly}.
(** Programs in which other things happen between the calls of a system:
    [n] cluster ids are taken, and the clock has been read up to [t]. *)
Inductive event1 := Call (a : act) | Meanwhile (n : Z) (t : Z).
Definition own_calls (l : list event1) : list act := flat_map (fun e => match e with Call a => [a] | Meanwhile _ _ => [] end) l.
Fixpoint exec_among (clk : Z -> Z) (l : list event1) (gw : world * list Z) : option (world * list Z) :=
  match l with
  | [] => Some gw
  | Call a :: r => match exec1 clk a gw with Some gw' => exec_among clk r gw' | None => None end
  | Meanwhile n t :: r => exec_among clk r (g_with_tick t (g_with_count (g_count (fst gw) + n) (fst gw)), snd gw)
  end.
Definition patient (l : list event1) : Prop := forall n t, In (Meanwhile n t) l -> 0 <= n.
Variables clk1 clk2 : Z -> Z.
Hypothesis K : keys_only.
Hypothesis Kn : forall nm, increasing nm -> names_alike nm.
Hypothesis Hs : forall e e' : eng, dwell_of (fst (edraw e)) n0 = dwell_of (fst (edraw e')) n0.
Hypothesis Hu : steady.

Lemma rows_more {V} (R R' : V -> V -> Prop) (m m' : umap V) : rows R m m' -> (forall k v v', In (k, v) m -> R v v' -> R' v v') -> rows R' m m'.
Proof.
  intros H. induction H as [|[k v] [k' v'] m m' [E1 E2] H IH]; intros X; [constructor|]. constructor.
  - cbn in *. split; [exact E1|]. apply (X k v v'); [left; reflexivity|exact E2].
  - apply IH. intros q w w' Hq. apply (X q). right; exact Hq.
Qed.
(** other clusters are made: later ids get later names *)
Definition later (c n : Z) (nm : Z -> Z) (k : Z) : Z := if k <? c then nm k else nm k + n.
Lemma later_increasing c n nm : 0 <= n -> increasing nm -> increasing (later c n nm).
Proof.
  intros Hn [H0 H1]. split.
  - unfold later. destruct (0 <? c); lia.
  - intros a b H. specialize (H1 a b H). unfold later. destruct (Z.ltb_spec a c), (Z.ltb_spec b c); lia.
Qed.
Lemma later_same c n nm k : 0 <= k < c -> relabel (later c n nm) k = relabel nm k.
Proof. intros H. unfold relabel, later. destruct (Z.ltb_spec k c); [reflexivity|lia]. Qed.
Lemma later_un c n nm : relabel (later c n nm) unassignedId = relabel nm unassignedId.
Proof. reflexivity. Qed.
Lemma moved_meanwhile nm dt g g' n t : shape g -> 0 <= n -> moved nm dt g g' ->
  moved (later (g_count g) n nm) (t - g_tick g) g (g_with_tick t (g_with_count (g_count g' + n) g')).
Proof.
  intros S Hn (f & s & c & -> & Hf & Hsi & Hc & Hk & Ht). set (nm' := later (g_count g) n nm).
  assert (Same : forall x, x = unassignedId \/ 0 <= x < g_count g -> relabel nm' x = relabel nm x).
  { intros x [->|Hx]; [apply later_un|apply later_same, Hx]. }
  assert (Lab : forall k s0, In (k, s0) (g_sites g) -> s_cluster s0 = unassignedId \/ 0 <= s_cluster s0 < g_count g).
  { intros k s0 Hi. apply (h_site _ _ _ S k s0). apply In_ulookup; [apply S|exact Hi]. }
  exists f, s, c. split.
  { unfold mv. cbn [g_count g_with_tick g_with_count g_with_clusters g_with_sites g_with_feats].
    replace (g_tick g + (t - g_tick g)) with t by lia. unfold nm', later. rewrite Z.ltb_irrefl. reflexivity. }
  split.
  { apply (rows_more _ _ _ _ Hf). intros k p p' Hi Hp. destruct p as [|j|x]; try exact Hp. destruct Hp as [Ho ->]. split; [exact Ho|].
    rewrite Same; [reflexivity|]. pose proof (In_ulookup _ _ _ (h_ndf _ _ _ S) Hi) as E. rewrite (h_feat _ _ _ S) in E.
    destruct (ulookup k (g_sites g)) as [s0|] eqn:Es; [|discriminate]. destruct (s_cluster s0 =? unassignedId); inversion E; subst.
    apply (Lab k), ulookup_In, Es. }
  split.
  { apply (rows_more _ _ _ _ Hsi). intros k s0 s1 Hi [Ho ->]. split; [exact Ho|]. unfold rlab. rewrite (Same _ (Lab _ _ Hi)). reflexivity. }
  split.
  { destruct Hc as (Hm & m0 & Hr & ->). split; [exact Hm|]. exists m0.
    assert (Ids : forall k x, In (k, x) (g_clusters g) -> c_id x = k /\ 0 <= k < g_count g).
    { intros k x Hi. destruct (h_cl _ _ _ S k x (In_ulookup _ _ _ (h_ndc _ _ _ S) Hi)) as (E1 & E2 & _). auto. }
    split.
    - apply (rows_more _ _ _ _ Hr). intros k x x' Hi Hx. destruct (Ids _ _ Hi) as [E1 E2]. unfold lk, cm in *. rewrite (Same (c_id x)); [exact Hx|]. right. lia.
    - unfold kmap. apply map_ext_in. intros [k x] Hi. cbn [fst snd]. f_equal.
      assert (Hk' : In k (ukeys (g_clusters g))) by (rewrite (rows_keys _ _ _ Hr); apply (in_map fst _ _ Hi)).
      unfold ukeys in Hk'. apply in_map_iff in Hk'. destruct Hk' as ([k1 y] & <- & Hy). cbn [fst]. destruct (Ids _ _ Hy) as [_ E2].
      unfold nm', later. destruct (Z.ltb_spec k1 (g_count g)); [reflexivity|lia]. }
  split; [exact Hk|]. intros k Hk'. unfold nm', later. destruct (Z.ltb_spec k (g_count g)); [lia|]. destruct (Z.ltb_spec (k + 1) (g_count g)); [lia|].
  rewrite Ht by lia. lia.
Qed.

(** the lone run against a run with the clock of the other *)
Definition beside (g gm : world) : Prop := twin g gm \/ (g = gm /\ g_sites g = []).
Lemma beside_step clk clk' a g gm ws : beside g gm -> inv gm ws -> (forall r, a = AInit r -> seeded g) ->
  match exec1 clk a (g, ws), exec1 clk' a (gm, ws) with
  | Some (g1, ws1), Some (gm1, ws2) => ws2 = ws1 /\ beside g1 gm1 /\ inv gm1 ws1
  | None, None => True
  | _, _ => False
  end.
Proof.
  intros B V Ha.
  assert (X : twin g gm -> match exec1 clk a (g, ws), exec1 clk' a (gm, ws) with
    | Some (g1, ws1), Some (gm1, ws2) => ws2 = ws1 /\ beside g1 gm1 /\ inv gm1 ws1 | None, None => True | _, _ => False end).
  { intros T. pose proof (SystemDrainSeed.exec1_both K clk clk' Hs a g gm ws T) as H. destruct (exec1 clk a (g, ws)) as [[g1 ws1]|] eqn:E1, (exec1 clk' a (gm, ws)) as [[gm1 ws2]|] eqn:E2; try contradiction; [|exact Logic.I].
    destruct H as [E H]. cbn [fst snd] in E, H. subst ws2. split; [reflexivity|]. split; [left; exact H|].
    eapply (step_inv clk'); [exact V|]. eapply exec1_ok; exact E2. }
  destruct B as [T|[<- E0]]; [apply X, T|].
  destruct (g_seed g) as [x|] eqn:Ex; [apply X, twin_refl; exists x; exact Ex|].
  assert (Na : forall r, a <> AInit r) by (intros r ->; destruct (Ha r eq_refl) as [x Hx]; congruence).
  assert (Ea : exec1 clk a (g, ws) = exec1 clk' a (g, ws)).
  { apply exec1_agree; [exact V|right; exact E0|]. intros r ->. destruct (Na r eq_refl). }
  rewrite Ea. destruct (exec1 clk' a (g, ws)) as [[g1 ws1]|] eqn:E1; [|exact Logic.I].
  split; [reflexivity|]. split; [right; split; [reflexivity|eapply exec1_empty; eauto]|]. eapply (step_inv clk'); [exact V|]. eapply exec1_ok; exact E1.
Qed.
Definition joined (g g' : world) (ws : list Z) : Prop :=
  exists gm nm dt, beside g gm /\ inv gm ws /\ increasing nm /\ moved nm dt gm g'.
Lemma exec_joined l : forall g g' ws, joined g g' ws -> patient l ->
  (forall l1 r l2, own_calls l = l1 ++ AInit r :: l2 -> seeded g \/ exists s, In (ASeed s) l1) ->
  match exec clk1 (own_calls l) (g, ws), exec_among clk2 l (g', ws) with
  | Some (g1, ws1), Some (g2, ws2) => ws2 = ws1 /\ joined g1 g2 ws1
  | None, None => True
  | _, _ => False
  end.
Proof.
  induction l as [|[a|n t] l IH]; intros g g' ws J P Sd.
  - cbn. auto.
  - change (own_calls (Call a :: l)) with (a :: own_calls l) in *. cbn [exec exec_among]. destruct J as (gm & nm & dt & B & V & Hi & M).
    set (clkm := fun t => clk2 (t + dt)).
    assert (Ha : forall r, a = AInit r -> seeded g).
    { intros r ->. destruct (Sd [] r (own_calls l) eq_refl) as [H|(s & [])]. exact H. }
    pose proof (beside_step clk1 clkm a g gm ws B V Ha) as H1.
    assert (H2 : both nm dt (exec1 clkm a (gm, ws)) (exec1 clk2 a (g', ws))).
    { apply exec1_both; [exact K|exact Hi|apply Kn, Hi|reflexivity|right; exact Hu|exact M]. }
    destruct (exec1 clk1 a (g, ws)) as [[g1 ws1]|] eqn:E1, (exec1 clkm a (gm, ws)) as [[gm1 wsm]|], (exec1 clk2 a (g', ws)) as [[g2 ws2]|]; try contradiction; [|exact Logic.I].
    destruct H1 as (-> & B1 & V1), H2 as [E2 M2]. cbn [fst snd] in E2, M2. subst ws2. apply IH.
    + exists gm1, nm, dt. auto.
    + intros n t Hn. apply (P n t). right; exact Hn.
    + intros l1 r l2 E. destruct (Sd (a :: l1) r l2) as [H|(s & [->|Hs'])]; [cbn; congruence| | |].
      * left. eapply exec1_seeded; eauto.
      * left. cbn [exec1] in E1. unfold sys_setRandomSeed, bind, gets in E1. destruct (g_feats g); inversion E1; subst. eexists; reflexivity.
      * right. eauto.
  - change (own_calls (Meanwhile n t :: l)) with (own_calls l) in *. cbn [exec_among fst snd]. apply IH; [| |exact Sd].
    + destruct J as (gm & nm & dt & B & V & Hi & M). assert (Hn : 0 <= n) by (apply (P n t); left; reflexivity).
      exists gm, (later (g_count gm) n nm), (t - g_tick gm). split; [exact B|]. split; [exact V|]. split; [apply later_increasing; assumption|].
      eapply moved_meanwhile; [apply V|exact Hn|exact M].
    + intros n' t' Hn. apply (P n' t'). right; exact Hn.
Qed.
Lemma renamed_after nm (g1 g2 g3 : world) : same_answers g1 g2 -> renamed (fun _ => True) nm g2 g3 -> renamed (fun _ => True) nm g1 g3.
Proof.
  intros (A1 & A2 & A3 & A4 & A5 & A6 & A7) (B1 & B2 & B3 & B4 & B5 & B6 & B7).
  split; [intros p Hp; rewrite (B1 p Hp), A1; reflexivity|].
  split; [intros m'; rewrite B2; split; intros (m & H1 & H2); exists m; (split; [apply A2, H1|exact H2])|].
  split; [intros m'; rewrite B3; split; intros (m & H1 & H2); exists m; (split; [apply A3, H1|exact H2])|].
  split; [intros m'; rewrite B4; split; intros (m & H1 & H2); exists m; (split; [apply A4, H1|exact H2])|].
  split; [intros k c'; rewrite B5; split; intros (c & H1 & H2); exists c; (split; [apply A5, H1|exact H2])|].
  split; [intros k b; rewrite A6; apply B6|intros k v; rewrite A7; apply B7].
Qed.
Theorem among walkers h count tick count' tick' l : NoDup (ukeys walkers) -> 0 <= count -> count <= count' -> patient l -> seeds_first (own_calls l) ->
  match exec clk1 (own_calls l) (world_new walkers h count tick, []), exec_among clk2 l (world_new walkers h count' tick', []) with
  | Some (g, ws), Some (g', ws') => ws' = ws /\ exists nm, increasing nm /\ renamed (fun _ => True) nm g g'
  | None, None => True
  | _, _ => False
  end.
Proof.
  intros ND Hc Hc' P Sd. set (g0 := world_new walkers h count tick).
  assert (V : inv g0 []).
  { apply (reach_inv clk1). exists [], walkers, h, count, tick. split; [exact ND|]. split; [exact Hc|constructor]. }
  assert (J : joined g0 (world_new walkers h count' tick') []).
  { exists g0, (fun k => k + (count' - count)), (tick' - tick). split; [right; split; reflexivity|]. split; [exact V|]. split; [split; [lia|intros; lia]|].
    exists [], [], []. split.
    { unfold mv, g0. cbn [g_tick g_count world_new]. replace (count + (count' - count)) with count' by lia. replace (tick + (tick' - tick)) with tick' by lia. reflexivity. }
    split; [constructor|]. split; [constructor|]. split; [split; [intros j []|exists []; split; [constructor|reflexivity]]|]. split; [exact Hc|intros; lia]. }
  pose proof (exec_joined l _ _ [] J P (fun l1 r l2 E => or_intror (Sd l1 r l2 E))) as H.
  destruct (exec clk1 (own_calls l) _) as [[g ws]|], (exec_among clk2 l _) as [[g' ws']|]; try exact H.
  destruct H as [E (gm & nm & dt & B & V' & Hi & M)]. split; [exact E|]. exists nm. split; [exact Hi|].
  apply (renamed_after nm g gm g').
  - destruct B as [T|[-> _]]; [eapply twin_answers; eauto|apply same_refl].
  - eapply moved_answers; [exact Hi|apply Kn, Hi|exact M].
Qed.
End Among.
