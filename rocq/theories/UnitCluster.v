(** * Sites and clusters in another unit of time *)
From Coq Require Import ZArith List Bool Reals Lra Lia.
From Verif Require Import Base BaseProofs Num WalkerModel SiteModel SiteProofs ClusterModel ClusterFrame
  ContainerModel SystemQuery QuerySpec UnitSpec UnitNum.
Import ListNotations.
Open Scope Z_scope.

Notation nm := num.

Lemma fold_ext {A B} (f g : A -> B -> A) l : (forall x y, f x y = g x y) -> forall a, fold_left f l a = fold_left g l a.
Proof. intros E. induction l as [|y l IH]; intros a; [reflexivity|]. cbn [fold_left]. rewrite E. apply IH. Qed.

Section Unit.
Context {I : Impl} {N : Num} {G : @Rng N}.
Hypothesis K : keys_only.
Variable c : lawful N.
Definition rt (x : nm) : nm := new_rate c x.
Definition tm (x : nm) : nm := new_time c x.

(** ** Numbers *)
Lemma r_0 : rt n0 = n0. Proof. apply l_r0. Qed.
Lemma m_0 : tm n0 = n0. Proof. apply l_m0. Qed.
Lemma r_add x y : nadd (rt x) (rt y) = rt (nadd x y). Proof. apply l_radd. Qed.
Lemma m_add x y : nadd (tm x) (tm y) = tm (nadd x y). Proof. apply l_madd. Qed.
Lemma r_sub x y : nsub (rt x) (rt y) = rt (nsub x y). Proof. apply l_rsub. Qed.
Lemma m_sub x y : nsub (tm x) (tm y) = tm (nsub x y). Proof. apply l_msub. Qed.
Lemma r_mul x y : nmul (rt x) y = rt (nmul x y). Proof. apply l_rmul. Qed.
Lemma m_mul x y : nmul (tm x) y = tm (nmul x y). Proof. apply l_mmul. Qed.
Lemma r_mulr x y : nmul x (rt y) = rt (nmul x y). Proof. apply l_rmulr. Qed.
Lemma m_mulr x y : nmul x (tm y) = tm (nmul x y). Proof. apply l_mmulr. Qed.
Lemma rm_mul x y : nmul (rt x) (tm y) = nmul x y. Proof. apply l_rm. Qed.
Lemma r_divb x y : ndiv (rt x) (rt y) = ndiv x y. Proof. apply l_rdivb. Qed.
Lemma m_divb x y : ndiv (tm x) (tm y) = ndiv x y. Proof. apply l_mdivb. Qed.
Lemma r_div x y : ndiv (rt x) y = rt (ndiv x y). Proof. apply l_rdiv. Qed.
Lemma m_div x y : ndiv (tm x) y = tm (ndiv x y). Proof. apply l_mdiv. Qed.
Lemma r_inv x y : ndiv x (rt y) = tm (ndiv x y). Proof. apply l_rinv. Qed.
Lemma m_inv x y : ndiv x (tm y) = rt (ndiv x y). Proof. apply l_minv. Qed.
Lemma r_ltb x y : nltb (rt x) (rt y) = nltb x y. Proof. apply l_rltb. Qed.
Lemma m_ltb x y : nltb (tm x) (tm y) = nltb x y. Proof. apply l_mltb. Qed.
Lemma r_ltb0 x : nltb n0 (rt x) = nltb n0 x. Proof. rewrite <- r_0 at 1. apply r_ltb. Qed.
Lemma m_ltb0 x : nltb n0 (tm x) = nltb n0 x. Proof. rewrite <- m_0 at 1. apply m_ltb. Qed.
Lemma r_leb x y : nleb (rt x) (rt y) = nleb x y. Proof. apply l_rleb. Qed.
Lemma m_leb0 x : nleb (tm x) n0 = nleb x n0. Proof. rewrite <- m_0 at 1. apply l_mleb. Qed.
Lemma r_eqb0 x : neqb (rt x) n0 = neqb x n0. Proof. rewrite <- r_0 at 1. apply l_reqb. Qed.

(** ** Sites *)
Definition su (s : site) : @site N G := s_with_tau (tm (s_tau s)) s.
Lemma su_new t : su (site_new t) = site_new t.
Proof. unfold su, site_new, s_with_tau. cbn [s_tau s_id s_cluster s_occ s_visits s_neigh s_prob s_rng]. rewrite m_0. reflexivity. Qed.

Variables h h' : @heap N.
Hypothesis Hh : forall a, h' a = rt (h a).

Lemma u_sum_rates nb : sum_rates h' nb = rt (sum_rates h nb).
Proof.
  unfold sum_rates. rewrite <- r_0 at 1. generalize (@n0 N). induction nb as [|e nb IH]; intros x; [reflexivity|].
  cbn [fold_left]. rewrite Hh, r_add. apply IH.
Qed.
Lemma u_prob nb sum : forall acc, prob_loop h' (rt sum) nb acc = prob_loop h sum nb acc.
Proof.
  induction nb as [|e nb IH]; intros acc; [reflexivity|]. cbn [prob_loop]. rewrite Hh, r_divb.
  destruct (set_insert _ acc); cbn [rbind]; [apply IH|reflexivity|reflexivity].
Qed.
Definition srel (s s' : site) : Prop := s' = su s.
Lemma u_fastest s : s_getFastestRate h' (su s) = rt (s_getFastestRate h s).
Proof.
  unfold s_getFastestRate. cbn [su s_neigh s_with_tau]. rewrite <- r_0 at 1. generalize (@n0 N).
  induction (s_neigh s) as [|e nb IH]; intros x; [reflexivity|]. cbn [fold_left]. rewrite Hh, r_ltb.
  destruct (nltb x (h (snd e))); apply IH.
Qed.
Lemma u_rateTo s n : s_getRateTo h' (su s) n = match s_getRateTo h s n with Ok x => Ok (rt x) | Err e => Err e | Bad b => Bad b end.
Proof. unfold s_getRateTo. cbn [su s_neigh s_with_tau]. destruct (ulookup n (s_neigh s)); [rewrite Hh|]; reflexivity. Qed.

Lemma u_setRates rates : agree srel eq (s_setRates h rates) (s_setRates h' rates).
Proof.
  unfold s_setRates. apply agree_eq; [apply agree_assert|intros _].
  apply agree_eq; [|intros _].
  { apply agree_mfor_eq. intros e. apply agree_eq; [apply agree_assert|intros _]. apply agree_modify. intros s s' ->. reflexivity. }
  apply agree_eq; [|intros _].
  { apply agree_modify. intros s s' ->. unfold srel, su, s_with_tau. cbn [s_neigh s_tau s_id s_cluster s_occ s_visits s_prob s_rng].
    rewrite u_sum_rates, r_inv. reflexivity. }
  intros s s' a t a' t' -> E E'. unfold s_calcProb in *. cbn [su s_neigh s_with_tau] in E'.
  rewrite u_sum_rates, u_prob in E'. destruct (prob_loop h _ _ _); inversion E; inversion E'; subst.
  split; reflexivity.
Qed.
Lemma u_setId i : agree srel eq (s_setId i) (s_setId i).
Proof. apply agree_modify. intros s s' ->. reflexivity. Qed.
Lemma u_s_seed i : agree srel eq (s_setRandomSeed i) (s_setRandomSeed i).
Proof. apply agree_modify. intros s s' ->. reflexivity. Qed.
Lemma u_s_occupy : agree srel eq s_occupy s_occupy.
Proof. apply agree_modify. intros s s' ->. reflexivity. Qed.
Lemma u_s_vacate : agree srel eq s_vacate s_vacate.
Proof. apply agree_modify. intros s s' ->. reflexivity. Qed.
Lemma u_s_cluster i : agree srel eq (s_setClusterId i) (s_setClusterId i).
Proof. apply agree_modify. intros s s' ->. reflexivity. Qed.
Lemma u_s_draw : agree srel eq s_draw s_draw.
Proof.
  intros s s' a t a' t' -> E E'. unfold s_draw in *. cbn [su s_rng s_with_tau] in E'. destruct (edraw (s_rng s)).
  inversion E; inversion E'; subst. split; reflexivity.
Qed.
Definition timed (x y : nm) : Prop := y = tm x.
Lemma u_dwell_of u t : dwell_of u (tm t) = tm (dwell_of u t).
Proof. unfold dwell_of. apply m_mulr. Qed.
Lemma u_s_dwell : agree srel timed s_getDwellTime s_getDwellTime.
Proof.
  unfold s_getDwellTime. apply agree_eq; [apply u_s_draw|intros u]. eapply agree_bind; [apply agree_gets with (Q := timed); intros s s' ->; reflexivity|].
  intros x y ->. apply agree_ret. apply u_dwell_of.
Qed.
Lemma u_s_pick : agree srel eq s_pick s_pick.
Proof.
  unfold s_pick. apply agree_eq; [apply u_s_draw|intros u]. apply agree_eq; [apply agree_gets; intros s s' ->; reflexivity|intros l].
  apply agree_ret. reflexivity.
Qed.

(** ** Pure parts of a cluster *)
Lemma u_probTo s n : s_probTo (su s) n = s_probTo s n.
Proof. reflexivity. Qed.
Lemma u_rates_where keep sites : rates_where h' keep (vmap su sites) = vmap (vmap rt) (rates_where h keep sites).
Proof.
  unfold rates_where.
  assert (X : forall m : umap (umap nm),
    fold_left (fun (m : umap (umap num)) e => fold_left (fun (m : umap (umap num)) na =>
      if keep (fst na) then uset m (fst e) (uset (uget ([] : umap num) (fst e) m) (fst na) (h' (snd na))) else m) (s_neigh (snd e)) m)
      (vmap su sites) (vmap (vmap rt) m) =
    vmap (vmap rt) (fold_left (fun (m : umap (umap num)) e => fold_left (fun (m : umap (umap num)) na =>
      if keep (fst na) then uset m (fst e) (uset (uget ([] : umap num) (fst e) m) (fst na) (h (snd na))) else m) (s_neigh (snd e)) m)
      sites m)); [|exact (X [])].
  induction sites as [|[k s] sites IH]; intros m; [reflexivity|].
  cbn [vmap map fold_left fst snd]. change (map (fun e => (fst e, su (snd e))) sites) with (vmap su sites).
  change (map (fun e => (fst e, vmap rt (snd e))) m) with (vmap (vmap rt) m).
  refine (eq_trans _ (IH _)). f_equal. cbn [su s_neigh s_with_tau]. clear IH.
  revert m. induction (s_neigh s) as [|[n a] nb IH']; intros m; [reflexivity|]. cbn [fold_left fst snd].
  destruct (keep n); [|apply IH']. rewrite <- IH'. f_equal.
  rewrite <- (vm_set K). f_equal. rewrite Hh, <- (vm_set K). f_equal. apply (vm_get (vmap rt) ([] : umap nm)).
Qed.
Lemma rates_where_ext keep keep' sites : (forall k, keep k = keep' k) -> rates_where h keep sites = rates_where h keep' sites.
Proof.
  intros E. unfold rates_where. apply fold_ext. intros m e. apply fold_ext. intros m' na. rewrite E. reflexivity.
Qed.
Lemma u_ext sites : ext_rates h' (vmap su sites) = vmap (vmap rt) (ext_rates h sites).
Proof.
  unfold ext_rates. rewrite u_rates_where. f_equal. apply rates_where_ext. intros k. rewrite vm_mem. reflexivity.
Qed.
Lemma u_int sites : int_rates h' (vmap su sites) = vmap (vmap rt) (int_rates h sites).
Proof.
  unfold int_rates. rewrite u_rates_where. f_equal. apply rates_where_ext. intros k. rewrite vm_mem. reflexivity.
Qed.
Lemma u_fold_add (l : umap nm) x : fold_left (fun acc e => nadd acc (snd e)) (vmap rt l) (rt x) = rt (fold_left (fun acc e => nadd acc (snd e)) l x).
Proof. revert x. induction l as [|e l IH]; intros x; [reflexivity|]. cbn [vmap map fold_left snd]. rewrite r_add. apply IH. Qed.
Lemma u_sum l : sum_snd (vmap rt l) = rt (sum_snd l).
Proof. unfold sum_snd. rewrite <- r_0 at 1. apply u_fold_add. Qed.
Lemma u_fold_addm (l : umap nm) x : fold_left (fun acc e => nadd acc (snd e)) (vmap tm l) (tm x) = tm (fold_left (fun acc e => nadd acc (snd e)) l x).
Proof. revert x. induction l as [|e l IH]; intros x; [reflexivity|]. cbn [vmap map fold_left snd]. rewrite m_add. apply IH. Qed.
Lemma u_summ l : sum_snd (vmap tm l) = tm (sum_snd l).
Proof. unfold sum_snd. rewrite <- m_0 at 1. apply u_fold_addm. Qed.
Lemma u_sum_first l : sum_first (vmap rt l) = rt (sum_first l).
Proof. destruct l as [|e l]; cbn [vmap map sum_first snd]; [symmetry; apply r_0|]. apply u_fold_add. Qed.

Lemma u_umap_of {V W} (f : V -> W) (l : umap V) : umap_of (vmap f l) = vmap f (umap_of l).
Proof.
  unfold umap_of. change ([] : umap W) with (vmap f ([] : umap V)) at 1. generalize ([] : umap V).
  induction l as [|e l IH]; intros m; [reflexivity|]. cbn [vmap map fold_left fst snd]. rewrite (vm_set K). apply IH.
Qed.

Lemma u_it_temp sites pon k s : it_temp (vmap su sites) pon k (su s) = it_temp sites pon k s.
Proof.
  unfold it_temp. cbn [su s_neighIds s_neigh s_with_tau]. change (s_neighIds (su s)) with (s_neighIds s).
  generalize (Ok (uget (@n0 N) k pon)). induction (s_neighIds s) as [|n l IH]; intros acc; [reflexivity|]. cbn [fold_left].
  rewrite vm_lookup. rewrite IH. f_equal. destruct acc; cbn [rbind]; try reflexivity.
  destruct (ulookup n sites); reflexivity.
Qed.
Lemma u_it_temps sites pon l : it_temps (vmap su sites) pon (vmap su l) = it_temps sites pon l.
Proof.
  induction l as [|[k s] l IH]; [reflexivity|]. cbn [vmap map it_temps fst snd]. rewrite u_it_temp.
  change (map (fun e => (fst e, su (snd e))) l) with (vmap su l). rewrite IH. reflexivity.
Qed.
Lemma u_iterate sites pon : iterate (vmap su sites) pon = iterate sites pon.
Proof. unfold iterate. rewrite u_it_temps. reflexivity. Qed.
Lemma u_iterate_n n sites : forall pon, iterate_n n (vmap su sites) pon = iterate_n n sites pon.
Proof. induction n as [|n IH]; intros pon; [reflexivity|]. cbn [iterate_n]. rewrite u_iterate. destruct (iterate sites pon); cbn [rbind]; [apply IH|reflexivity|reflexivity]. Qed.
(** two runs that both end give the same, whatever their fuel *)
Lemma u_tol tol sites f : forall f' err pon p p', iterate_tol f tol err sites pon = Ok p -> iterate_tol f' tol err (vmap su sites) pon = Ok p' -> p' = p.
Proof.
  induction f as [|f IH]; intros [|f'] err pon p p'; cbn [iterate_tol]; destruct (nltb tol err); try discriminate;
    try (intros E E'; inversion E; inversion E'; congruence).
  rewrite u_iterate. destruct (iterate sites pon); cbn [rbind]; try discriminate. apply IH.
Qed.
Lemma u_init_pon sites pon : init_pon (vmap su sites) pon = init_pon sites pon.
Proof.
  unfold init_pon. rewrite vm_length. generalize (@ndiv N (@n1 N) (@nofZ N (Z.of_nat (length sites)))). intros x. revert pon.
  induction sites as [|e l IH]; intros pon; [reflexivity|]. cbn [vmap map fold_left fst]. apply IH.
Qed.
Lemma u_solve f f' m it tol sites pon p p' : solve_pon f m it tol sites pon = Ok p -> solve_pon f' m it tol (vmap su sites) pon = Ok p' -> p' = p.
Proof.
  unfold solve_pon. rewrite u_init_pon, vm_length, !u_iterate_n. destruct m; try (intros E E'; congruence). apply u_tol.
Qed.
Lemma u_tau_of sites k : tau_of (vmap su sites) k = match tau_of sites k with Ok x => Ok (tm x) | Err e => Err e | Bad b => Bad b end.
Proof. unfold tau_of. rewrite vm_lookup. destruct (ulookup k sites); reflexivity. Qed.
Lemma u_weigh sites pon : weigh_tau (vmap su sites) pon = match weigh_tau sites pon with Ok x => Ok (vmap tm x) | Err e => Err e | Bad b => Bad b end.
Proof.
  induction pon as [|e l IH]; [reflexivity|]. cbn [weigh_tau]. rewrite u_tau_of.
  destruct (tau_of sites (fst e)); cbn [rbind]; try reflexivity. rewrite IH. destruct (weigh_tau sites l); cbn [rbind]; try reflexivity.
  cbn [vmap map fst snd]. rewrite m_mulr. reflexivity.
Qed.
Lemma u_exit_weights sites pon : exit_weights (vmap su sites) pon = exit_weights sites pon.
Proof.
  unfold exit_weights. generalize (Ok ([] : umap nm)).
  assert (X : forall l acc, fold_left (fun acc e => fold_left (fun acc n => m <-! acc; if umem n (vmap su sites) then Ok m
      else p <-! s_probTo (snd e) n; let v := nmul p (uget n0 (fst e) pon) in
      Ok (match ulookup n m with Some w => uset m n (nadd w v) | None => uset m n v end)) (s_neighIds (snd e)) acc) (vmap su l) acc =
    fold_left (fun acc e => fold_left (fun acc n => m <-! acc; if umem n sites then Ok m
      else p <-! s_probTo (snd e) n; let v := nmul p (uget n0 (fst e) pon) in
      Ok (match ulookup n m with Some w => uset m n (nadd w v) | None => uset m n v end)) (s_neighIds (snd e)) acc) l acc).
  { induction l as [|[k s] l IH]; intros acc; [reflexivity|]. cbn [vmap map fold_left fst snd].
    change (map (fun e => (fst e, su (snd e))) l) with (vmap su l). rewrite IH. f_equal.
    change (s_neighIds (su s)) with (s_neighIds s). revert acc. induction (s_neighIds s) as [|n ns IHn]; intros acc; [reflexivity|].
    cbn [fold_left]. rewrite IHn. f_equal. destruct acc; cbn [rbind]; try reflexivity. rewrite vm_mem. reflexivity. }
  intros acc. apply X.
Qed.
Lemma u_sum_taus sites pon : forall acc, sum_taus (vmap su sites) pon (tm acc) = match sum_taus sites pon acc with Ok x => Ok (tm x) | Err e => Err e | Bad b => Bad b end.
Proof.
  induction pon as [|e l IH]; intros acc; [reflexivity|]. cbn [sum_taus]. rewrite u_tau_of.
  destruct (tau_of sites (fst e)); cbn [rbind]; try reflexivity. rewrite m_add. apply IH.
Qed.
Lemma u_uget k (m : umap nm) : uget (@n0 N) k (vmap rt m) = rt (uget (@n0 N) k m).
Proof. rewrite <- r_0 at 1. apply vm_get. Qed.
Lemma u_ugetm k (m : umap nm) : uget (@n0 N) k (vmap tm m) = tm (uget (@n0 N) k m).
Proof. rewrite <- m_0 at 1. apply vm_get. Qed.
Lemma u_hopoff sites so sr st pon : hopoff_raw (vmap su sites) (vmap rt so) (rt sr) (tm st) pon = hopoff_raw sites so sr st pon.
Proof.
  induction pon as [|e l IH]; [reflexivity|]. cbn [hopoff_raw]. rewrite u_tau_of.
  destruct (tau_of sites (fst e)); cbn [rbind]; try reflexivity. rewrite IH. destruct (hopoff_raw sites so sr st l); cbn [rbind]; try reflexivity.
  rewrite u_uget, r_mulr, r_divb, m_mulr, m_divb. reflexivity.
Qed.
Lemma u_hopbet sites pon (l : umap (umap (@num N))) : hopbet_raw (vmap su sites) pon (vmap (vmap rt) l) = hopbet_raw sites pon l.
Proof.
  induction l as [|e l IH]; [reflexivity|]. cbn [vmap map hopbet_raw fst snd]. rewrite u_tau_of.
  destruct (tau_of sites (fst e)); cbn [rbind]; try reflexivity.
  change (map (fun e => (fst e, vmap rt (snd e))) l) with (vmap (vmap rt) l). rewrite IH.
  destruct (hopbet_raw sites pon l); cbn [rbind]; try reflexivity.
  change (map (fun e1 => (fst e1, rt (snd e1))) (snd e)) with (vmap rt (snd e)).
  rewrite u_sum, rm_mul. reflexivity.
Qed.
Lemma u_mean so p : mean_inverse (vmap rt so) p = tm (mean_inverse so p).
Proof.
  unfold mean_inverse. transitivity (fold_left (fun acc e => let r := uget n0 (fst e) (vmap rt so) in
    if nltb n0 r then nadd acc (nmul (ndiv n1 r) (snd e)) else acc) p (tm (@n0 N))); [rewrite m_0; reflexivity|].
  set (x := @n0 N) at 3 7. clearbody x. revert x. induction p as [|e p IH]; intros x; [reflexivity|].
  cbn [fold_left]. rewrite u_uget, r_ltb0. destruct (nltb n0 (uget n0 (fst e) so)); [|apply IH].
  rewrite r_inv, m_mul, m_add. apply IH.
Qed.
Lemma u_sr (l : umap (umap (@num N))) : fold_left (fun acc e => fold_left (fun acc r => nadd acc (snd r)) (snd e) acc) (vmap (vmap rt) l) (@n0 N) =
  rt (fold_left (fun acc e => fold_left (fun acc r => nadd acc (snd r)) (snd e) acc) l (@n0 N)).
Proof.
  rewrite <- r_0 at 1. generalize (@n0 N). induction l as [|e l IH]; intros x; [reflexivity|]. cbn [vmap map fold_left snd].
  change (map (fun e1 => (fst e1, rt (snd e1))) (snd e)) with (vmap rt (snd e)).
  rewrite u_fold_add. apply IH.
Qed.
Lemma u_fastestOff (cl : cluster) sites' : sites' = vmap su (c_sites cl) -> forall cl' : cluster, c_sites cl' = sites' -> c_fastestOff h' cl' = rt (c_fastestOff h cl).
Proof.
  intros -> cl' E. unfold c_fastestOff. rewrite E, u_ext. rewrite <- r_0 at 1. generalize (@n0 N).
  induction (ext_rates h (c_sites cl)) as [|[k r] l IH]; intros x; [reflexivity|]. cbn [vmap map fold_left snd].
  change (map (fun e1 => (fst e1, vmap rt (snd e1))) l) with (vmap (vmap rt) l). rewrite <- IH. f_equal.
  revert x. induction r as [|a r IHr]; intros x; [reflexivity|]. cbn [vmap map fold_left snd]. rewrite r_ltb.
  destruct (nltb x (snd a)); apply IHr.
Qed.
End Unit.
