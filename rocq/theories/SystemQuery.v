(** * Visit queries do not reach anything else *)
From Coq Require Import ZArith List Bool Lia.
From Verif Require Import Base BaseProofs Num WalkerModel SiteModel SiteProofs ClusterModel ClusterFrame
  ContainerModel BasinModel ClusterCounts SystemModel SystemSpec SystemShape SystemProofs SystemRuns QuerySpec.
Import ListNotations.
Open Scope Z_scope.

(** ** Two runs from related states *)
Definition agree {S A B} (R : S -> S -> Prop) (Q : A -> B -> Prop) (m : M S A) (m' : M S B) : Prop :=
  forall s s' a t a' t', R s s' -> m s = Ret a t -> m' s' = Ret a' t' -> Q a a' /\ R t t'.
Section Agree.
Context {S : Type} (R : S -> S -> Prop).
Lemma agree_bind {A A' B B'} (Q : A -> A' -> Prop) (P : B -> B' -> Prop) m m' k k' :
  agree R Q m m' -> (forall a a', Q a a' -> agree R P (k a) (k' a')) -> agree R P (bind m k) (bind m' k').
Proof.
  intros H1 H2 s s' a t a' t' Hs E E'. apply bind_ret_inv in E. apply bind_ret_inv in E'.
  destruct E as (x & u & E1 & E2), E' as (x' & u' & E1' & E2').
  destruct (H1 _ _ _ _ _ _ Hs E1 E1') as [Hq Hu]. eapply H2; eauto.
Qed.
Lemma agree_eq {A B} (P : B -> B -> Prop) (m : M S A) m' k k' :
  agree R eq m m' -> (forall a, agree R P (k a) (k' a)) -> agree R P (bind m k) (bind m' k').
Proof. intros H1 H2. eapply agree_bind; [exact H1|]. intros a a' <-. apply H2. Qed.
Lemma agree_ret {A B} (Q : A -> B -> Prop) a b : Q a b -> agree R Q (ret a) (ret b).
Proof. intros H s s' x t x' t' Hs E E'. inversion E; inversion E'; subst; auto. Qed.
Lemma agree_throw {A B} (Q : A -> B -> Prop) e m : agree R Q (throw e) m.
Proof. intros s s' x t x' t' Hs E E'. discriminate. Qed.
Lemma agree_stop {A B} (Q : A -> B -> Prop) e m : agree R Q (stop e) m.
Proof. intros s s' x t x' t' Hs E E'. discriminate. Qed.
Lemma agree_stop' {A B} (Q : A -> B -> Prop) e m : agree R Q m (stop e).
Proof. intros s s' x t x' t' Hs E E'. discriminate. Qed.
Lemma agree_gets {A B} (Q : A -> B -> Prop) v v' : (forall s s', R s s' -> Q (v s) (v' s')) -> agree R Q (gets v) (gets v').
Proof. intros H s s' x t x' t' Hs E E'. inversion E; inversion E'; subst; auto. Qed.
Lemma agree_modify v v' : (forall s s', R s s' -> R (v s) (v' s')) -> agree R (@eq unit) (modify v) (modify v').
Proof. intros H s s' x t x' t' Hs E E'. inversion E; inversion E'; subst; auto. Qed.
Lemma agree_lift {A} (r : res A) : agree R eq (lift r) (lift r).
Proof. intros s s' x t x' t' Hs E E'. destruct r; inversion E; inversion E'; subst; auto. Qed.
Lemma agree_assert b b' : agree R eq (cassert b) (cassert b').
Proof. intros s s' x t x' t' Hs E E'. destruct b, b'; inversion E; inversion E'; subst; auto. Qed.
Lemma agree_mfor {A B} (Q : A -> B -> Prop) l l' b b' : Forall2 Q l l' ->
  (forall x y, Q x y -> agree R (@eq unit) (b x) (b' y)) -> agree R eq (mfor l b) (mfor l' b').
Proof.
  intros H Hb. induction H; cbn [mfor]; [apply agree_ret; reflexivity|]. apply agree_eq; auto.
Qed.
Lemma agree_mfor_eq {A} (l : list A) b b' : (forall x, agree R (@eq unit) (b x) (b' x)) -> agree R eq (mfor l b) (mfor l b').
Proof. intros H. induction l; cbn [mfor]; [apply agree_ret; reflexivity|]. apply agree_eq; auto. Qed.
Lemma agree_self {A B} (Q : A -> B -> Prop) k k' :
  (forall s s', R s s' -> agree R Q (k s) (k' s')) -> agree R Q (bind (gets (fun c => c)) k) (bind (gets (fun c => c)) k').
Proof. intros H. eapply agree_bind; [apply agree_gets with (Q := R); auto|]. intros; apply H; assumption. Qed.
Lemma agree_if {A B} (Q : A -> B -> Prop) (b : bool) m1 m2 n1 n2 : agree R Q m1 n1 -> agree R Q m2 n2 -> agree R Q (if b then m1 else m2) (if b then n1 else n2).
Proof. destruct b; auto. Qed.
Lemma agree_weak {A B} (P Q : A -> B -> Prop) m m' : (forall a b, P a b -> Q a b) -> agree R P m m' -> agree R Q m m'.
Proof. intros H H1 s s' x t x' t' Hs E E'. destruct (H1 _ _ _ _ _ _ Hs E E'). auto. Qed.
End Agree.

(** ** Clusters that differ in their visit counts *)
Section Clusters.
Context {I : Impl} {N : Num} {G : Rng}.

Definition other (sv : umap num) (pv : Z) (c : cluster) : cluster := c_with_svisits sv (c_with_prev pv c).
Definition alike (c c' : cluster) : Prop := exists sv pv, c' = other sv pv c /\ ukeys sv = ukeys (c_svisits c).

Lemma alike_refl c : alike c c.
Proof. exists (c_svisits c), (c_prev c). split; [destruct c; reflexivity|reflexivity]. Qed.
Lemma alike_trans a b c : alike a b -> alike b c -> alike a c.
Proof. intros (s & p & -> & E) (s' & p' & -> & E'). exists s', p'. split; [reflexivity|]. rewrite E'. exact E. Qed.
Lemma alike_sym a b : alike a b -> alike b a.
Proof. intros (s & p & -> & E). exists (c_svisits a), (c_prev a). split; [destruct a; reflexivity|symmetry; exact E]. Qed.
Lemma alike_make sv pv c : ukeys sv = ukeys (c_svisits c) -> alike c (other sv pv c).
Proof. intros H. exists sv, pv. auto. Qed.

Lemma umem_keys {V W} (m : umap V) (m' : umap W) k : ukeys m = ukeys m' -> umem k m = umem k m'.
Proof.
  revert m'. induction m as [|[j v] m IH]; intros [|[j' v'] m']; cbn; intros E; try discriminate; [reflexivity|].
  inversion E; subst. unfold umem in *. cbn [ulookup]. destruct (k =? j'); [reflexivity|]. apply IH; assumption.
Qed.

Ltac see :=
  repeat match goal with
    | |- agree _ _ (bind (gets (fun c => c)) _) _ => apply agree_self; intros ? ? (? & ? & -> & ?);
         cbn [other c_id c_occ c_visits c_prev c_tau c_rng c_res c_iters c_tol c_method c_inc c_itau c_remaining c_pnbr c_cnbr c_idwell c_svisits c_sumoff c_sumint c_sites c_hopoff c_hopbet c_pon c_pint c_cint c_with_svisits c_with_prev]
    | |- agree _ _ (bind _ _) _ => apply agree_eq; [|intros]
    | |- agree _ _ (ret _) _ => apply agree_ret; reflexivity
    | |- agree _ _ (stop _) _ => apply agree_stop
    | |- agree _ _ (lift _) _ => apply agree_lift
    | |- agree _ _ (cassert _) _ => apply agree_assert
    | |- agree _ eq (gets _) _ => apply agree_gets; intros ? ? (? & ? & -> & ?); reflexivity
    | |- agree _ _ (modify _) _ => apply agree_modify; intros ? ? (? & ? & -> & ?); eexists _, _; split; [reflexivity|assumption]
    | |- agree _ _ (mfor _ _) _ => apply agree_mfor_eq; intros
    | |- agree _ _ (if _ then _ else _) _ => apply agree_if
    | |- agree _ _ (match ?x with _ => _ end) _ => destruct x
    end.

Lemma q_occupied k : agree alike eq (c <- gets (fun c => c) ;; lift (c_isOccupied c k)) (c <- gets (fun c => c) ;; lift (c_isOccupied c k)).
Proof. see. Qed.
Lemma q_occupy k : agree alike eq (c_occupy k) (c_occupy k).
Proof. unfold c_occupy. see. Qed.
Lemma q_occupy0 : agree alike eq c_occupy0 c_occupy0.
Proof. unfold c_occupy0. see. Qed.
Lemma q_vacate t k : agree alike eq (c_vacate t k) (c_vacate t k).
Proof. unfold c_vacate, c_vacate0. see. Qed.
Lemma q_remove t w k : agree alike eq (c_removeWalker t w k) (c_removeWalker t w k).
Proof. apply q_vacate. Qed.
Lemma q_draw : agree alike eq c_draw c_draw.
Proof.
  intros s s' a t a' t' (sv & pv & -> & H) E E'. unfold c_draw in *. cbn [c_rng other c_with_svisits c_with_prev] in E'.
  destruct (edraw (c_rng s)) as [u e]. inversion E; inversion E'; subst. split; [reflexivity|]. exists sv, pv. split; [reflexivity|assumption].
Qed.
Lemma q_dwell w : agree alike eq (c_getDwellTime w) (c_getDwellTime w).
Proof. unfold c_getDwellTime. see; apply q_draw. Qed.
Lemma q_pick w : agree alike eq (c_pick w) (c_pick w).
Proof. unfold c_pick, c_pickInternal, c_pickNeighbor. see; apply q_draw. Qed.
Lemma q_addSites l : agree alike eq (c_addSites l) (c_addSites l).
Proof. unfold c_addSites, c_addSite. see. Qed.
Lemma q_seed x : agree alike eq (c_setRandomSeed x) (c_setRandomSeed x).
Proof. unfold c_setRandomSeed. see. Qed.
Lemma q_resolution x : agree alike eq (c_setResolution x) (c_setResolution x).
Proof. unfold c_setResolution. see. Qed.

Lemma ureplace_keys' {V} k (v : V) m : ukeys (ureplace k v m) = ukeys m.
Proof. induction m as [|[j x] m IH]; [reflexivity|]. cbn [ureplace]. destruct (k =? j); cbn; [reflexivity|]. f_equal. exact IH. Qed.
Lemma uset_same_keys {V} k (v : V) m : umem k m = true -> ukeys (uset m k v) = ukeys m.
Proof. intros E. unfold uset. rewrite E. apply ureplace_keys'. Qed.
Lemma q_set f f' k : agree alike eq (c_setVisits f k) (c_setVisits f' k).
Proof.
  intros s s' a t a' t' (sv & pv & -> & H) E E'. unfold c_setVisits, bind, gets, cassert, modify in E, E'.
  cbn [other c_svisits c_tau c_with_svisits c_with_prev] in E'.
  destruct (umem k (c_svisits s)) eqn:E1; [|discriminate]. destruct (umem k sv) eqn:E2; [|discriminate].
  unfold ret in E, E'. destruct (negb (neqb (c_tau s) unassigned_value)); [|discriminate].
  inversion E; inversion E'; subst. split; [reflexivity|].
  exists (uset sv k (nofZ f')), pv. split; [reflexivity|]. cbn [c_svisits c_with_svisits].
  rewrite !uset_same_keys by assumption. exact H.
Qed.
Lemma spread_keys c d l : forall sv sv', (forall k, In k (ukeys l) -> umem k sv = true) -> spread_visits c d l sv = Ok sv' -> ukeys sv' = ukeys sv.
Proof.
  induction l as [|[k v] l IH]; intros sv sv' H E; cbn [spread_visits fst] in E; [inversion E; reflexivity|].
  destruct (ulookup k (c_sites c)); [|discriminate]. destruct (ulookup k (c_idwell c)); [|discriminate].
  assert (K : umem k sv = true) by (apply H; left; reflexivity).
  apply IH in E; [rewrite E; apply uset_same_keys, K|].
  intros j Hj. rewrite (umem_keys _ sv) by (apply uset_same_keys, K). apply H. right; exact Hj.
Qed.
Lemma visits_alike k c v c' : c_getVisits k c = Ret v c' -> alike c c'.
Proof.
  unfold c_getVisits. intros E. apply bind_ret_inv in E. destruct E as (x & y & E1 & E). inversion E1; subst x y; clear E1.
  apply bind_ret_inv in E. destruct E as (x & y & E1 & E). unfold cassert in E1. destruct (umem k (c_svisits c)); inversion E1; subst; clear E1.
  apply bind_ret_inv in E. destruct E as ([] & z & E1 & E). unfold cassert in E1. destruct (negb _) in E1; inversion E1; subst; clear E1.
  apply bind_ret_inv in E. destruct E as ([] & y & E1 & E).
  assert (Ha : alike z y).
  { destruct (c_visits z =? c_prev z); [inversion E1; subst; apply alike_refl|].
    apply bind_ret_inv in E1. destruct E1 as (sv & y1 & E1 & E2). inversion E2; subst; clear E2.
    destruct (spread_visits z _ _ _) eqn:Es; inversion E1; subst; clear E1.
    apply spread_keys in Es; [|intros j Hj; apply umem_In, Hj].
    exists sv, (c_visits y1). split; [reflexivity|exact Es]. }
  apply bind_ret_inv in E. destruct E as (sv & y1 & E1' & E). inversion E1'; subst. destruct (ntrunc _); inversion E; subst. exact Ha.
Qed.
Lemma q_visits k : agree alike (fun _ _ => True) (c_getVisits k) (c_getVisits k).
Proof.
  intros s s' a t a' t' Hs E E'. split; [exact Logic.I|]. apply visits_alike in E, E'.
  eapply alike_trans; [apply alike_sym; exact E|]. eapply alike_trans; [exact Hs|exact E'].
Qed.
Definition same_keys {V W} (m : umap V) (m' : umap W) : Prop := ukeys m = ukeys m'.
Lemma q_visitList l : agree alike same_keys (c_visitList l) (c_visitList l).
Proof.
  induction l as [|k l IH]; cbn [c_visitList]; [apply agree_ret; reflexivity|].
  eapply agree_bind; [apply q_visits|]. intros v v' _. eapply agree_bind; [apply IH|].
  intros m m' Hm. apply agree_ret. unfold same_keys in *. cbn. f_equal. exact Hm.
Qed.
Hypothesis K : keys_only.
Lemma same_lookup_some {V W} (m : umap V) (m' : umap W) k : ukeys m = ukeys m' ->
  match ulookup k m, ulookup k m' with Some _, Some _ | None, None => True | _, _ => False end.
Proof. intros E. apply (umem_keys _ _ k) in E. unfold umem in E. destruct (ulookup k m), (ulookup k m'); auto; discriminate. Qed.
Lemma vmap_keys {V W} (f : V -> W) m : ukeys (vmap f m) = ukeys m.
Proof. unfold ukeys, vmap. rewrite map_map. reflexivity. Qed.
Lemma hplace_keys {V W} (m : umap V) (m' : umap W) k v v' : ukeys m = ukeys m' -> ukeys (hplace V m k v) = ukeys (hplace W m' k v').
Proof.
  intros E. rewrite <- (vmap_keys (fun _ => tt) (hplace V m k v)), <- (vmap_keys (fun _ => tt) (hplace W m' k v')).
  rewrite <- !K.
  assert (X : vmap (fun _ : V => tt) m = vmap (fun _ : W => tt) m').
  { clear - E. revert m' E. induction m as [|[a x] m IH]; intros [|[b y] m'] E; try discriminate; [reflexivity|].
    cbn in E. inversion E; subst. cbn. f_equal. apply IH. assumption. }
  rewrite X. reflexivity.
Qed.
Lemma uset_keys2 {V W} (m : umap V) (m' : umap W) k v v' : ukeys m = ukeys m' -> ukeys (uset m k v) = ukeys (uset m' k v').
Proof.
  intros E. unfold uset. rewrite (umem_keys _ _ k E). destruct (umem k m'); [rewrite !ureplace_keys'; exact E|].
  apply hplace_keys, E.
Qed.
Lemma q_update fuel h : agree alike eq (c_update fuel h) (c_update fuel h).
Proof.
  unfold c_update.
  eapply agree_bind; [apply agree_gets with (Q := eq); intros ? ? (sv & pv & -> & E); symmetry; exact E|]. intros keys ? <-.
  eapply agree_bind; [apply q_visitList|]. intros saved saved' Hs.
  apply agree_eq; [unfold c_solve, c_calcHopToInternal, c_calcHopToNeighbors, c_calcInternalDwell; see|intros].
  apply agree_eq; [unfold c_calcSumOff; see|intros].
  apply agree_eq; [unfold c_calcSumInt; see|intros].
  apply agree_eq; [unfold c_calcHopOff; see|intros].
  apply agree_eq; [unfold c_calcHopBetween; see|intros].
  apply agree_eq; [unfold c_calcTau; see|intros].
  apply agree_eq; [unfold c_calcITau; see|intros].
  apply agree_eq; [apply agree_modify; intros ? ? (sv & pv & -> & E); exists [], pv; split; reflexivity|intros].
  apply agree_eq; [see|intros].
  apply agree_eq; [|intros; unfold c_calcInternalDwell; see].
  apply agree_mfor_eq. intros k. apply agree_eq.
  - apply agree_modify. intros c ? (sv & pv & -> & E). exists (uset sv k n0), pv. split; [reflexivity|].
    cbn [c_svisits c_with_svisits]. apply uset_keys2, E.
  - intros _. pose proof (same_lookup_some _ _ k Hs) as X. destruct (ulookup k saved), (ulookup k saved'); try destruct X; [apply q_set|see].
Qed.

Definition alike2 (p p' : cluster * cluster) : Prop := alike (fst p) (fst p') /\ alike (snd p) (snd p').
Lemma q_fst {A B} (Q : A -> B -> Prop) m m' : agree alike Q m m' -> agree alike2 Q (onFst m) (onFst m').
Proof.
  intros H [a b] [a' b'] x t x' t' [Ha Hb] E E'. unfold onFst, zoom in *. cbn [fst snd] in *.
  destruct (m a) eqn:E1; inversion E; subst. destruct (m' a') eqn:E2; inversion E'; subst.
  destruct (H _ _ _ _ _ _ Ha E1 E2). split; [assumption|split; assumption].
Qed.
Lemma q_snd {A B} (Q : A -> B -> Prop) m m' : agree alike Q m m' -> agree alike2 Q (onSnd m) (onSnd m').
Proof.
  intros H [a b] [a' b'] x t x' t' [Ha Hb] E E'. unfold onSnd, zoom in *. cbn [fst snd] in *.
  destruct (m b) eqn:E1; inversion E; subst. destruct (m' b') eqn:E2; inversion E'; subst.
  destruct (H _ _ _ _ _ _ Hb E1 E2). split; [assumption|split; assumption].
Qed.
Lemma alike_sites c c' : alike c c' -> c_sites c' = c_sites c.
Proof. intros (? & ? & -> & ?). reflexivity. Qed.
Lemma alike_id c c' : alike c c' -> c_id c' = c_id c.
Proof. intros (? & ? & -> & ?). reflexivity. Qed.
Lemma keys_forall2 {V} (m m' : umap V) : ukeys m = ukeys m' -> Forall2 (fun e e' => fst e = fst e') m m'.
Proof. revert m'. induction m as [|a m IH]; intros [|b m'] E; try discriminate; constructor; inversion E; auto. Qed.
Lemma q_migrate fuel h : agree alike2 eq (c_migrate fuel h) (c_migrate fuel h).
Proof.
  unfold c_migrate.
  apply agree_eq; [apply agree_gets; intros p p' [H _]; symmetry; apply alike_id, H|intros i].
  apply agree_eq; [apply q_snd; see|intros _].
  apply agree_eq; [apply agree_gets; intros p p' [_ H]; unfold c_siteIds; rewrite (alike_sites _ _ H); reflexivity|intros ids].
  eapply agree_bind; [apply q_snd, q_visitList|]. intros vs vs' Hv.
  apply agree_eq; [apply agree_gets; intros p p' [_ H]; symmetry; apply alike_sites, H|intros moved].
  apply agree_eq; [apply q_fst; see|intros _].
  apply agree_eq; [apply q_snd; apply agree_modify; intros ? ? (sv & pv & -> & E); exists [], pv; split; reflexivity|intros _].
  apply agree_eq; [apply q_fst, q_update|intros _].
  eapply agree_mfor; [apply keys_forall2, Hv|]. intros [k v] [k' v'] E. cbn in E. subst k'. apply q_fst, q_set.
Qed.
End Clusters.

(** ** Systems whose clusters differ in their visit counts *)
Section Systems.
Context {I : Impl} {N : Num} {G : Rng} {U : Ugly}.
Hypothesis K : keys_only.

Definition each (m m' : umap cluster) : Prop := Forall2 (fun e e' => fst e = fst e' /\ alike (snd e) (snd e')) m m'.
Definition twin (g g' : world) : Prop := exists m, g' = g_with_clusters m g /\ each (g_clusters g) m.

Lemma each_refl m : each m m.
Proof. induction m as [|e m IH]; constructor; [split; [reflexivity|apply alike_refl]|exact IH]. Qed.
Lemma each_sym m m' : each m m' -> each m' m.
Proof. induction 1 as [|? ? ? ? [? ?]]; constructor; [split; [symmetry; assumption|apply alike_sym; assumption]|assumption]. Qed.
Lemma each_trans a b c : each a b -> each b c -> each a c.
Proof.
  intros H. revert c. induction H as [|x y a b [E1 E2] H IH]; intros c H2; inversion H2; subst; constructor.
  - destruct H3. split; [congruence|eapply alike_trans; eauto].
  - apply IH; assumption.
Qed.
Lemma twin_refl g : twin g g.
Proof. exists (g_clusters g). split; [destruct g; reflexivity|apply each_refl]. Qed.
Lemma twin_sym g g' : twin g g' -> twin g' g.
Proof. intros (m & -> & H). exists (g_clusters g). split; [destruct g; reflexivity|apply each_sym, H]. Qed.
Lemma twin_trans a b c : twin a b -> twin b c -> twin a c.
Proof. intros (m & -> & H) (m' & -> & H'). exists m'. split; [reflexivity|]. eapply each_trans; [exact H|exact H']. Qed.

Lemma each_lookup k m m' : each m m' -> match ulookup k m, ulookup k m' with Some c, Some c' => alike c c' | None, None => True | _, _ => False end.
Proof.
  induction 1 as [|[a x] [b y] m m' [E1 E2] H IH]; [exact Logic.I|]. cbn in E1, E2. subst b. cbn [ulookup].
  destruct (k =? a); assumption.
Qed.
Lemma each_replace k c c' m m' : each m m' -> alike c c' -> each (ureplace k c m) (ureplace k c' m').
Proof.
  intros H Hc. induction H as [|[a x] [b y] m m' [E1 E2] H IH]; [constructor|]. cbn in E1, E2. subst b. cbn [ureplace].
  destruct (k =? a); constructor; auto.
Qed.
Lemma each_remove k m m' : each m m' -> each (uremove k m) (uremove k m').
Proof.
  intros H. induction H as [|[a x] [b y] m m' [E1 E2] H IH]; [constructor|]. cbn in E1, E2. subst b. cbn [uremove].
  destruct (k =? a); [assumption|constructor; auto].
Qed.
Lemma each_keys m m' : each m m' -> ukeys m = ukeys m'.
Proof. induction 1 as [|? ? ? ? [? ?]]; cbn; [reflexivity|]. f_equal; assumption. Qed.
Lemma each_pairs m m' : each m m' -> exists w : umap (cluster * cluster), m = vmap fst w /\ m' = vmap snd w /\ Forall (fun e => alike (fst (snd e)) (snd (snd e))) w.
Proof.
  induction 1 as [|[a x] [b y] m m' [E1 E2] H (w & -> & -> & Hw)]; [exists []; repeat constructor|].
  cbn in E1, E2. subst b. exists ((a, (x, y)) :: w). repeat constructor; assumption.
Qed.
Lemma pairs_each (w : umap (cluster * cluster)) : Forall (fun e => alike (fst (snd e)) (snd (snd e))) w -> each (vmap fst w) (vmap snd w).
Proof. induction 1; constructor; auto. Qed.
Lemma each_set k c c' m m' : each m m' -> alike c c' -> each (uset m k c) (uset m' k c').
Proof.
  intros H Hc. unfold uset. rewrite (umem_keys _ _ k (each_keys _ _ H)). destruct (umem k m'); [apply each_replace; assumption|].
  destruct (each_pairs _ _ H) as (w & -> & -> & Hw). change c with (fst (c, c')) at 1. change c' with (snd (c, c')) at 2.
  rewrite !K. apply pairs_each. rewrite Forall_forall in *. intros e He.
  apply (Permutation.Permutation_in _ (hplace_perm _ w k (c, c'))) in He. destruct He as [<-|He]; [exact Hc|apply Hw, He].
Qed.

Lemma q_clusters {A B} (Q : A -> B -> Prop) m m' : agree each Q m m' -> agree twin Q (in_clusters m) (in_clusters m').
Proof.
  intros H g g' x t x' t' (n & -> & Hn) E E'. unfold in_clusters, zoom in *.
  cbn [g_clusters g_with_clusters] in E'.
  destruct (m (g_clusters g)) eqn:E1; inversion E; subst. destruct (m' n) eqn:E2; inversion E'; subst.
  destruct (H _ _ _ _ _ _ Hn E1 E2) as [Hq He]. split; [exact Hq|]. eexists. split; [reflexivity|exact He].
Qed.
Lemma q_at {A} (Q : A -> A -> Prop) k d m m' : (forall s, match d s with Ret _ _ => False | _ => True end) ->
  agree alike Q m m' -> agree each Q (at_key k d m) (at_key k d m').
Proof.
  intros Hd H n n' x t x' t' Hn E E'. unfold at_key in *. pose proof (each_lookup k _ _ Hn) as L. specialize (Hd n).
  destruct (ulookup k n) as [c|]; [|rewrite E in Hd; destruct Hd].
  destruct (ulookup k n') as [c'|]; [|destruct L].
  destruct (m c) eqn:E1; inversion E; subst. destruct (m' c') eqn:E2; inversion E'; subst.
  destruct (H _ _ _ _ _ _ L E1 E2). split; [assumption|]. apply each_replace; assumption.
Qed.
Lemma q_atT {A} (Q : A -> A -> Prop) k e m m' : agree alike Q m m' -> agree each Q (at_key k (throw e) m) (at_key k (throw e) m').
Proof. apply q_at. intros s. exact Logic.I. Qed.
Lemma q_atH {A} (Q : A -> A -> Prop) k e m m' : agree alike Q m m' -> agree each Q (at_key k (stop e) m) (at_key k (stop e) m').
Proof. apply q_at. intros s. exact Logic.I. Qed.
Lemma q_sites {A} (m : M _ A) : agree twin eq (in_sites m) (in_sites m).
Proof.
  intros g g' x t x' t' (n & -> & Hn) E E'. unfold in_sites, zoom in *. cbn [g_sites g_with_clusters] in E'.
  destruct (m (g_sites g)); inversion E; inversion E'; subst. split; [reflexivity|]. exists n. split; [reflexivity|exact Hn].
Qed.
Lemma q_walker {A} p (m : M _ A) : agree twin eq (in_walker p m) (in_walker p m).
Proof.
  intros g g' x t x' t' (n & -> & Hn) E E'. unfold in_walker, zoom in *. cbn [g_walkers g_with_clusters] in E'.
  destruct (at_key p _ m (g_walkers g)); inversion E; inversion E'; subst. split; [reflexivity|]. exists n. split; [reflexivity|exact Hn].
Qed.
Lemma q_local {S A B} (R : S -> S -> Prop) (Q : A -> B -> Prop) m m' s s' : agree R Q m m' -> R s s' ->
  agree twin (fun x y => Q (fst x) (fst y) /\ R (snd x) (snd y)) (local m s) (local m' s').
Proof.
  intros H Hs g g' x t x' t' Hg E E'. unfold local in *. destruct (m s) eqn:E1; inversion E; subst. destruct (m' s') eqn:E2; inversion E'; subst.
  split; [exact (H _ _ _ _ _ _ Hs E1 E2)|exact Hg].
Qed.
Lemma q_local_eq {S A} (m : M S A) s : agree twin eq (local m s) (local m s).
Proof. intros g g' x t x' t' Hg E E'. unfold local in *. destruct (m s); inversion E; inversion E'; subst. auto. Qed.

Ltac look :=
  repeat match goal with
    | |- agree _ _ (bind _ _) _ => apply agree_eq; [|intros]
    | |- agree _ _ (ret _) _ => apply agree_ret; reflexivity
    | |- agree _ _ (stop _) _ => apply agree_stop
    | |- agree _ _ (throw _) _ => apply agree_throw
    | |- agree _ _ (lift _) _ => apply agree_lift
    | |- agree _ _ (in_sites _) _ => apply q_sites
    | |- agree _ _ (in_walker _ _) _ => apply q_walker
    | |- agree _ _ (local _ _) _ => apply q_local_eq
    | |- agree _ eq (gets _) _ => apply agree_gets; intros ? ? (? & -> & ?); reflexivity
    | |- agree _ _ (modify _) _ => apply agree_modify; intros ? ? (? & -> & ?); eexists; split; [reflexivity|assumption]
    | |- agree _ _ (mfor _ _) _ => apply agree_mfor_eq; intros
    | |- agree _ _ (if _ then _ else _) _ => apply agree_if
    | |- agree _ _ (match ?x with _ => _ end) _ => destruct x
    end.

Variable clk : Z -> Z.
Lemma q_tick : agree twin eq next_tick next_tick.
Proof. intros g g' x t x' t' (n & -> & Hn) E E'. inversion E; inversion E'; subst. split; [reflexivity|]. exists n. split; [reflexivity|exact Hn]. Qed.
Lemma q_clock : agree twin eq (read_clock clk) (read_clock clk).
Proof. unfold read_clock. look. apply q_tick. Qed.
Lemma q_useseed : agree twin eq use_seed use_seed.
Proof.
  intros g g' x t x' t' (n & -> & Hn) E E'. unfold use_seed in *. cbn [g_seed g_with_clusters] in E'.
  destruct (g_seed g); inversion E; inversion E'; subst; (split; [reflexivity|]); exists n; (split; [reflexivity|exact Hn]).
Qed.
Lemma q_new : agree twin eq (new_cluster clk) (new_cluster clk).
Proof. unfold new_cluster. look. apply q_clock. Qed.
Lemma q_feature {A} k (ms : M _ A) mc : agree alike eq mc mc -> agree twin eq (on_feature k ms mc) (on_feature k ms mc).
Proof. intros H. unfold on_feature. look. apply q_clusters, q_atH, H. Qed.

Lemma q_init rates : agree twin eq (sys_initializeSystem clk rates) (sys_initializeSystem clk rates).
Proof. unfold sys_initializeSystem, init_site, init_drain. look; first [apply q_clock|apply q_useseed]. Qed.
Lemma q_enter l : agree twin eq (sys_initializeWalkers l) (sys_initializeWalkers l).
Proof.
  unfold sys_initializeWalkers, init_walker, f_occupy0, f_getDwellTime, f_pick.
  look; apply q_feature; first [apply q_occupy0|apply q_dwell|apply q_pick].
Qed.
Lemma q_leave id p : agree twin eq (sys_removeWalker clk id p) (sys_removeWalker clk id p).
Proof. unfold sys_removeWalker, f_removeWalker. look; [apply q_clock|apply q_feature, q_remove]. Qed.
Lemma q_move id p src dst : agree twin eq (hop_move clk id p src dst) (hop_move clk id p src dst).
Proof.
  unfold hop_move, f_isOccupied, f_vacate, f_occupy, f_getDwellTime, f_pick.
  look; first [apply q_clock|apply q_feature; first [apply q_occupied|apply q_vacate|apply q_occupy|apply q_dwell|apply q_pick]].
Qed.
Lemma q_basin fuel nonce h b s m m' k : each m m' -> find_basin fuel nonce h b s m k = find_basin fuel nonce h b s m' k.
Proof.
  intros H. unfold find_basin. destruct (ask (sc_getFastest h k) s); cbn [rbind]; try reflexivity.
  destruct (ask (sc_partOfCluster k) s) as [[]| |]; cbn [rbind]; try reflexivity.
  destruct (ask (sc_getClusterId k) s) as [c| |]; cbn [rbind]; try reflexivity.
  pose proof (each_lookup c _ _ H) as L. unfold ask, cc_getCluster, read_key.
  destruct (ulookup c m), (ulookup c m'); try destruct L as (sv & pv & -> & L); cbn [lift rbind]; try reflexivity; destruct L.
Qed.
Lemma q_copy ids : agree twin eq (copy_sites ids) (copy_sites ids).
Proof. induction ids; cbn [copy_sites]; look. exact IHids. Qed.
Lemma q_create fuel ids limit : agree twin eq (create_cluster clk fuel ids limit) (create_cluster clk fuel ids limit).
Proof.
  unfold create_cluster. look; first [apply q_new|apply q_copy|apply q_useseed|idtac].
  apply q_clusters. unfold cc_addCluster. apply agree_self. intros m m' Hm. rewrite (umem_keys _ _ _ (each_keys _ _ Hm)).
  apply agree_if; [apply agree_throw|]. apply agree_modify. intros q q' Hq. apply each_set; [exact Hq|apply alike_refl].
Qed.
Lemma q_get k : agree each alike (cc_getCluster k) (cc_getCluster k).
Proof.
  intros m m' x t x' t' Hm E E'. unfold cc_getCluster, read_key in *. pose proof (each_lookup k _ _ Hm) as L.
  destruct (ulookup k m); [|discriminate]. destruct (ulookup k m'); [|discriminate].
  cbn in E, E'. inversion E; inversion E'; subst. split; [exact L|exact Hm].
Qed.
Lemma q_scan fav sac : forall iso cids, agree twin eq (merge_scan fav sac iso cids) (merge_scan fav sac iso cids).
Proof.
  induction sac as [|[k c] sac IH]; intros iso cids; cbn [merge_scan]; [apply agree_ret; reflexivity|].
  apply agree_if; [apply IH|]. apply agree_eq; [look|intros]. eapply agree_bind; [apply q_clusters, q_get|]. intros ? ? _.
  look. apply IH.
Qed.
Lemma q_absorb fuel fav c : agree twin eq (absorb fuel fav c) (absorb fuel fav c).
Proof.
  unfold absorb. eapply agree_bind; [apply q_clusters, q_get|]. intros a a' Ha.
  eapply agree_bind; [apply q_clusters, q_get|]. intros b b' Hb. apply agree_eq; [look|intros h].
  eapply agree_bind; [apply q_local with (R := alike2); [apply q_migrate, K|split; assumption]|].
  intros p p' [_ [H1 H2]].
  apply agree_eq; [apply q_clusters, agree_modify; intros; apply each_replace; assumption|intros].
  apply agree_eq; [apply q_clusters, agree_modify; intros; apply each_replace; assumption|intros].
  apply q_clusters. unfold cc_erase. apply agree_modify. intros. apply each_remove; assumption.
Qed.
Lemma q_merge fuel sac fav : agree twin eq (merge_clusters fuel sac fav) (merge_clusters fuel sac fav).
Proof.
  unfold merge_clusters. look; first [apply q_scan|apply q_absorb|apply q_clusters, q_atT; first [apply q_addSites|apply q_update, K]].
Qed.
Lemma q_equil ids limit : agree twin eq (equilibrium ids limit) (equilibrium ids limit).
Proof. unfold equilibrium. apply agree_self. intros g g' (m & -> & Hm). cbn [g_heap g_sites g_perf g_res g_with_clusters]. look. Qed.
Lemma q_clusters_of ids : forall acc, agree twin eq (clusters_of ids acc) (clusters_of ids acc).
Proof. induction ids as [|k ids IH]; intros acc; cbn [clusters_of]; look. apply IH. Qed.
Lemma q_grain fuel k : agree twin eq (coarse_grain clk fuel k) (coarse_grain clk fuel k).
Proof.
  unfold coarse_grain. apply agree_eq; [apply q_tick|intros nonce]. apply agree_self. intros g g' (m & -> & Hm).
  cbn [g_heap g_sites g_clusters g_with_clusters]. rewrite <- (q_basin _ _ _ _ _ _ _ _ Hm).
  apply agree_eq; [look|intros ids]. apply agree_eq; [apply q_equil|intros ok].
  look; first [apply q_clusters_of|apply q_create|apply q_merge].
Qed.
Lemma q_attempt fuel k : agree twin eq (hop_attempt clk fuel k) (hop_attempt clk fuel k).
Proof. unfold hop_attempt. look. apply q_grain. Qed.
Lemma q_hop fuel id p : agree twin eq (sys_hop clk fuel id p) (sys_hop clk fuel id p).
Proof. unfold sys_hop. look; [apply q_move|apply q_attempt]. Qed.

(** ** Programs *)
Lemma each_update k c c' m : ulookup k m = Some c -> alike c c' -> each m (ureplace k c' m).
Proof.
  intros E H. induction m as [|[a x] m IH]; [discriminate|]. cbn [ulookup ureplace] in *.
  destruct (k =? a); [inversion E; subst; constructor; [split; [reflexivity|exact H]|apply each_refl]|].
  constructor; [split; [reflexivity|apply alike_refl]|apply IH, E].
Qed.
Lemma visits_twin k g v g' : sys_getVisits k g = Ret v g' -> twin g g'.
Proof.
  intros E. apply SystemProofs.getVisits_inv in E. destruct E as (s & _ & [(_ & _ & ->)|(_ & c & c' & v' & El & Ev & _ & ->)]); [apply twin_refl|].
  eexists. split; [reflexivity|]. eapply each_update; [exact El|]. apply (visits_alike _ _ _ _ Ev).
Qed.
Lemma forallb_ext' {A} (f f' : A -> bool) l : (forall x, f x = f' x) -> forallb f l = forallb f' l.
Proof. intros H. induction l; cbn; [reflexivity|]. rewrite H, IHl. reflexivity. Qed.
Lemma twin_enter g g' ws l : twin g g' -> enter_ok g' ws l = enter_ok g ws l.
Proof. intros (m & -> & H). unfold enter_ok, cur_of, sys_getClusterId, in_sites, zoom. cbn [g_walkers g_sites g_with_clusters].
  f_equal. apply forallb_ext'. intros p. destruct (sc_getClusterId _ (g_sites g)); reflexivity.
Qed.
Lemma after_twin (o o' : M world unit) g g' ws r r' : agree twin eq o o' -> twin g g' ->
  after (o g) ws = Some r -> after (o' g') ws = Some r' -> snd r = snd r' /\ twin (fst r) (fst r').
Proof.
  intros H Hg E E'. destruct (o g) as [a t|? ?|?] eqn:E1; inversion E; subst. destruct (o' g') as [a' t'|? ?|?] eqn:E2; inversion E'; subst.
  split; [reflexivity|]. exact (proj2 (H _ _ _ _ _ _ Hg E1 E2)).
Qed.
Lemma exec1_query k g ws r : exec1 clk (AVisits k) (g, ws) = Some r -> twin g (fst r) /\ snd r = ws.
Proof. cbn [exec1]. destruct (sys_getVisits k g) eqn:E; intros E1; inversion E1; subst. split; [eapply visits_twin; exact E|reflexivity]. Qed.
Lemma exec1_twin a g g' ws r r' : is_query a = false -> twin g g' -> exec1 clk a (g, ws) = Some r -> exec1 clk a (g', ws) = Some r' ->
  snd r = snd r' /\ twin (fst r) (fst r').
Proof.
  intros Ha Hg E E'. destruct a; try discriminate; cbn [exec1] in E, E'.
  - revert E E'. apply after_twin; [unfold sys_setPerformanceRatio; look|exact Hg].
  - revert E E'. apply after_twin; [unfold sys_setTimeResolution; look|exact Hg].
  - revert E E'. apply after_twin; [unfold sys_setThreshold; look|exact Hg].
  - revert E E'. apply after_twin; [unfold sys_setRandomSeed; look|exact Hg].
  - destruct (rates_ok rates); [|discriminate]. revert E E'. apply after_twin; [apply q_init|exact Hg].
  - inversion E; inversion E'; subst. split; [reflexivity|]. destruct Hg as (m & -> & Hm). exists m. split; [reflexivity|exact Hm].
  - rewrite (twin_enter _ _ _ _ Hg) in E'. destruct (enter_ok g ws l); [|discriminate].
    revert E E'. apply after_twin; [apply q_enter|exact Hg].
  - destruct (existsb (Z.eqb p) ws); [|discriminate]. revert E E'. apply after_twin; [apply q_hop|exact Hg].
  - destruct (existsb (Z.eqb p) ws); [|discriminate]. revert E E'. apply after_twin; [apply q_leave|exact Hg].
Qed.
Lemma exec_twin l : forall l' g g' ws r r', without_queries l = without_queries l' -> twin g g' ->
  exec clk l (g, ws) = Some r -> exec clk l' (g', ws) = Some r' -> snd r = snd r' /\ twin (fst r) (fst r').
Proof.
  induction l as [|a l IH].
  - induction l' as [|b l' IH']; intros g g' ws r r' Hq Hg E E'.
    + inversion E; inversion E'; subst. split; [reflexivity|exact Hg].
    + cbn in Hq. destruct (is_query b) eqn:Eb; [|discriminate]. destruct b; try discriminate. cbn [exec] in E'.
      destruct (exec1 clk (AVisits k) (g', ws)) as [[g1 ws1]|] eqn:E1; [|discriminate]. apply exec1_query in E1. cbn [fst snd] in E1.
      destruct E1 as [H1 ->]. eapply IH'; [exact Hq| |exact E|exact E']. eapply twin_trans; eauto.
  - intros l' g g' ws r r' Hq Hg E E'. destruct (is_query a) eqn:Ea.
    + destruct a; try discriminate. cbn [exec] in E.
      destruct (exec1 clk (AVisits k) (g, ws)) as [[g1 ws1]|] eqn:E1; [|discriminate]. apply exec1_query in E1. cbn [fst snd] in E1.
      destruct E1 as [H1 ->]. eapply IH; [exact Hq| |exact E|exact E']. eapply twin_trans; [apply twin_sym; exact H1|exact Hg].
    + revert g' Hg Hq E'. induction l' as [|b l' IH']; intros g' Hg Hq E'.
      * cbn in Hq. rewrite Ea in Hq. discriminate.
      * destruct (is_query b) eqn:Eb.
        -- destruct b; try discriminate. cbn [exec] in E'.
           destruct (exec1 clk (AVisits k) (g', ws)) as [[g1 ws1]|] eqn:E1; [|discriminate]. apply exec1_query in E1. cbn [fst snd] in E1.
           destruct E1 as [H1 ->]. apply (IH' g1); [eapply twin_trans; eauto|exact Hq|exact E'].
        -- cbn in Hq. rewrite Ea, Eb in Hq. cbn in Hq. inversion Hq; subst b. cbn [exec] in E, E'.
           destruct (exec1 clk a (g, ws)) as [[g1 ws1]|] eqn:E1; [|discriminate].
           destruct (exec1 clk a (g', ws)) as [[g2 ws2]|] eqn:E2; [|discriminate].
           destruct (exec1_twin _ _ _ _ _ _ Ea Hg E1 E2) as [Hw Ht]. cbn [fst snd] in Hw, Ht. subst ws2.
           eapply IH; eauto.
Qed.
Lemma each_per {V} (f : cluster -> V) m m' : (forall c c', alike c c' -> f c = f c') -> each m m' -> per_cluster f m = per_cluster f m'.
Proof.
  intros Hf H. unfold per_cluster. generalize (@nil (Z * V)). induction H as [|[a x] [b y] m m' [E1 E2] H IH]; intros acc; [reflexivity|].
  cbn in E1, E2. subst b. cbn [fold_left fst snd]. rewrite (Hf _ _ E2). apply IH.
Qed.
Lemma twin_same g g' : twin g g' -> same_but_visits g g'.
Proof.
  intros (m & -> & H). split; [reflexivity|].
  assert (P : forall V (f : cluster -> V), (forall c c', alike c c' -> f c = f c') -> forall v v' x x',
    in_clusters (gets (per_cluster f)) g = Ret v x -> in_clusters (gets (per_cluster f)) (g_with_clusters m g) = Ret v' x' -> v = v').
  { intros V f Hf v v' x x' E E'. inversion E; inversion E'; subst. apply each_per; assumption. }
  split; [apply P; intros ? ? (? & ? & -> & ?); reflexivity|].
  split; [apply P; intros ? ? (? & ? & -> & ?); reflexivity|].
  split; [apply P; intros ? ? (? & ? & -> & ?); reflexivity|].
  split.
  - intros k c. unfold cluster_of, sys_getClusterId, in_sites, zoom. cbn [g_sites g_with_clusters].
    destruct (sc_getClusterId k (g_sites g)); split; intros (y & E); inversion E; subst; eauto.
  - intros k b. unfold taken, f_isOccupied, on_feature, bind, gets. cbn [g_feats g_with_clusters].
    destruct (ulookup k (g_feats g)) as [[|j|c]|]; try (split; intros (y & E); discriminate).
    + unfold in_sites, zoom. cbn [g_sites g_with_clusters]. destruct (at_key _ _ _ (g_sites g)); split; intros (y & E); inversion E; subst; eauto.
    + unfold in_clusters, zoom. cbn [g_clusters g_with_clusters]. unfold at_key. pose proof (each_lookup c _ _ H) as L.
      destruct (ulookup c (g_clusters g)) as [x|], (ulookup c m) as [y|]; try destruct L as (sv & pv & -> & L); try destruct L;
        try (split; intros (z & E); discriminate).
      cbn [c_isOccupied c_sites other c_with_svisits c_with_prev]. unfold c_isOccupied. cbn [c_sites other c_with_svisits c_with_prev].
      destruct (ulookup k (c_sites x)); cbn [lift]; split; intros (z & E); inversion E; subst; eauto.
Qed.
End Systems.

(** ** The same question again *)
Section Again.
Context {I : Impl} {N : Num} {G : Rng} {U : Ugly}.
Lemma c_again j k c u v c1 c2 : c_getVisits j c = Ret u c1 -> c_getVisits k c = Ret v c2 -> exists c3, c_getVisits k c1 = Ret v c3.
Proof.
  intros E1 E2. apply ClusterCounts.getVisits_inv in E1, E2. destruct E1 as (sv & S1 & -> & _ & T & _), E2 as (sv' & S2 & _ & M & _ & R).
  rewrite S1 in S2. inversion S2; subst sv'; clear S2.
  assert (Ks : ukeys sv = ukeys (c_svisits c)).
  { unfold ClusterCounts.settled in S1. destruct (c_visits c =? c_prev c); [inversion S1; reflexivity|].
    apply spread_keys in S1; [exact S1|]. intros i Hi. apply umem_In, Hi. }
  exists (c_with_prev (c_visits c) (c_with_svisits sv c)). unfold c_getVisits, bind, gets, cassert.
  cbn [c_svisits c_tau c_visits c_prev c_with_prev c_with_svisits].
  rewrite (umem_keys _ _ k Ks). replace (umem k (c_svisits c)) with true by (symmetry; apply umem_In; exact M). cbn [ret].
  rewrite T, Z.eqb_refl. cbn [negb ret c_svisits c_with_prev c_with_svisits]. rewrite R. reflexivity.
Qed.
Lemma ureplace_found {V} k j (v c : V) m : ulookup j m = Some c -> ulookup k (ureplace j v m) = if k =? j then Some v else ulookup k m.
Proof.
  induction m as [|[a x] m IH]; cbn [ulookup ureplace]; intros E; [discriminate|].
  destruct (j =? a) eqn:Ej.
  - apply Z.eqb_eq in Ej. subst a. cbn [ulookup]. destruct (k =? j); reflexivity.
  - cbn [ulookup]. rewrite (IH E). destruct (k =? a) eqn:Ek; [|reflexivity].
    apply Z.eqb_eq in Ek. subst a. rewrite Z.eqb_sym, Ej. reflexivity.
Qed.
Lemma visits_make k s cl v' cl' g : ulookup k (g_sites g) = Some s -> 0 <= s_cluster s -> ulookup (s_cluster s) (g_clusters g) = Some cl ->
  c_getVisits k cl = Ret v' cl' -> visits g k (s_visits s + v').
Proof.
  intros Es Hc El Ev. unfold visits. eexists. unfold sys_getVisits, bind, gets. unfold umem. rewrite Es.
  unfold in_sites, zoom, sc_getSite, sc_partOfCluster, sc_getClusterId, read_key. rewrite Es. cbn [lift].
  cbn [g_sites g_with_sites]. rewrite Es. cbn [lift].
  assert (Ep : s_partOfCluster s = true) by (unfold s_partOfCluster; lia). rewrite Ep.
  cbn [g_sites g_with_sites]. rewrite Es. cbn [lift].
  unfold in_clusters, zoom, at_key. cbn [g_clusters g_with_sites]. unfold s_getClusterId. rewrite El, Ev.
  reflexivity.
Qed.
Lemma visits_again j k g u v g1 : sys_getVisits j g = Ret u g1 -> visits g k v -> visits g1 k v.
Proof.
  intros E1 [g2 E2]. pose proof E2 as E0.
  apply SystemProofs.getVisits_inv in E1, E2. destruct E2 as (s & Es & [(Hc & -> & ->)|(Hc & cl & cl' & v' & El & Ev & -> & ->)]).
  - destruct E1 as (s1 & Es1 & [(_ & _ & ->)|(Hc1 & d & d' & u' & El1 & Ev1 & _ & ->)]); [eexists; exact E0|].
    unfold visits. eexists. unfold sys_getVisits, bind, gets. unfold umem. cbn [g_sites g_with_clusters]. rewrite Es.
    unfold in_sites, zoom, sc_getSite, sc_partOfCluster, read_key. cbn [g_sites g_with_clusters]. rewrite Es. cbn [lift g_sites g_with_sites]. rewrite Es. cbn [lift].
    assert (Ep : s_partOfCluster s = false) by (unfold s_partOfCluster; lia). rewrite Ep. reflexivity.
  - destruct E1 as (s1 & Es1 & [(_ & _ & ->)|(Hc1 & d & d' & u' & El1 & Ev1 & _ & ->)]); [eexists; exact E0|].
    destruct (Z.eq_dec (s_cluster s) (s_cluster s1)) as [E|Ne].
    + rewrite <- E in *. rewrite El1 in El. inversion El; subst d. destruct (c_again _ _ _ _ _ _ _ Ev1 Ev) as (c3 & E3).
      eapply visits_make; [exact Es|exact Hc| |exact E3]. cbn [g_clusters g_with_clusters].
      rewrite (ureplace_found _ _ _ _ _ El1), Z.eqb_refl. reflexivity.
    + eapply visits_make; [exact Es|exact Hc| |exact Ev]. cbn [g_clusters g_with_clusters].
      rewrite (ureplace_found _ _ _ _ _ El1). replace (s_cluster s =? s_cluster s1) with false by (symmetry; apply Z.eqb_neq; exact Ne). exact El.
Qed.
End Again.
