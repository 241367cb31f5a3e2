(** * Searching for basins in another unit of time *)
From Coq Require Import ZArith List Bool Reals Lra Lia.
From Verif Require Import Base BaseProofs Num WalkerModel SiteModel SiteProofs ClusterModel ClusterFrame
  ContainerModel BasinModel SystemModel SystemQuery QuerySpec UnitSpec UnitNum UnitCluster UnitUpdate UnitMerge.
Import ListNotations.
Open Scope Z_scope.

Definition rmap {A B} (f : A -> B) (r : res A) : res B := match r with Ok x => Ok (f x) | Err e => Err e | Bad b => Bad b end.

Section Unit.
Context {I : Impl} {N : Num} {G : @Rng N}.
Variables U U' : @Ugly N.
Hypothesis K : keys_only.
Variable c : lawful N.
Hypothesis HU : same_choices c U U'.
Notation rt := (rt c).
Notation tm := (tm c).
Notation su := (su c).
Notation crel := (crel c).
Variables h h' : @heap N.
Hypothesis Hh : forall a, h' a = rt (h a).

Definition ne (e : edge) : edge := (fst e, rt (snd e)).
Definition net (e : edge) : edge := (fst e, tm (snd e)).
Lemma b_rateTo k n m : ask (sc_getRateTo h' k n) (vmap su m) = rmap rt (ask (sc_getRateTo h k n) m).
Proof.
  unfold sc_getRateTo, ask, read_key. rewrite vm_lookup. destruct (ulookup k m) as [s|]; [|reflexivity]. cbn [option_map].
  rewrite (u_rateTo c h h' Hh). destruct (s_getRateTo h s n); reflexivity.
Qed.
Lemma b_fastest k m : ask (sc_getFastest h' k) (vmap su m) = rmap rt (ask (sc_getFastest h k) m).
Proof.
  unfold sc_getFastest, ask, read_key. rewrite vm_lookup. destruct (ulookup k m) as [s|]; [|reflexivity]. cbn [option_map].
  rewrite (u_fastest c h h' Hh). reflexivity.
Qed.
Lemma b_part k m : ask (sc_partOfCluster k) (vmap su m) = ask (sc_partOfCluster k) m.
Proof. unfold sc_partOfCluster, ask, read_key. rewrite vm_lookup. destruct (ulookup k m) as [s|]; reflexivity. Qed.
Lemma b_cluster k m : ask (sc_getClusterId k) (vmap su m) = ask (sc_getClusterId k) m.
Proof. unfold sc_getClusterId, ask, read_key. rewrite vm_lookup. destruct (ulookup k m) as [s|]; reflexivity. Qed.
Lemma b_neigh k m : ask (sc_getNeighIds k) (vmap su m) = ask (sc_getNeighIds k) m.
Proof. unfold sc_getNeighIds, ask, read_key. rewrite vm_lookup. destruct (ulookup k m) as [s|]; reflexivity. Qed.
Lemma b_rates m : rates_of (vmap su m) = rates_of m.
Proof.
  unfold rates_of. generalize ([] : umap (umap Z)). induction m as [|[k s] m IH]; intros acc; [reflexivity|]. cbn [vmap map fold_left fst snd]. apply IH.
Qed.
Lemma b_edges m k : edges_of h' (vmap su m) k = map ne (edges_of h m k).
Proof. unfold edges_of. rewrite b_rates, map_map. apply map_ext. intros [n a]. unfold ne. cbn [fst snd]. rewrite Hh. reflexivity. Qed.

Definition nq (q : search) : search := mkSearch (rt (q_fast q)) (rt (q_slow q)) (rt (q_cur q)) (q_seen q) (map ne (q_front q)).
Lemma b_can q e : can_add (nq q) (ne e) = can_add q e.
Proof.
  unfold can_add. cbn [nq q_seen q_front]. change (e_src (ne e)) with (e_src e). change (e_dst (ne e)) with (e_dst e). do 2 f_equal.
  induction (q_front q) as [|x l IH]; [reflexivity|]. cbn [map existsb]. rewrite IH. reflexivity.
Qed.
Lemma b_enough thr q r : fast_enough thr (nq q) (rt r) = fast_enough thr q r.
Proof.
  unfold fast_enough. cbn [nq q_fast q_slow q_cur]. rewrite (r_divb c), (r_sub c), (r_divb c), (r_mul c), (r_leb c). reflexivity.
Qed.
Lemma b_add m thr v e q : add_edge h' (vmap su m) thr v (ne e) (nq q) = rmap nq (add_edge h m thr v e q).
Proof.
  unfold add_edge. rewrite b_can. destruct (can_add q e); [|reflexivity].
  change (e_src (ne e)) with (e_src e). change (e_dst (ne e)) with (e_dst e). rewrite b_rateTo.
  destruct (ask (sc_getRateTo h v _) m) as [r| |]; cbn [rmap rbind]; try reflexivity.
  rewrite b_fastest. destruct (ask (sc_getFastest h v) m) as [x| |]; cbn [rmap rbind]; try reflexivity.
  cbn [nq q_fast q_slow q_cur q_seen q_front]. rewrite !(r_ltb c).
  replace (if nltb (q_fast q) r then rt r else rt (q_fast q)) with (rt (if nltb (q_fast q) r then r else q_fast q)) by (destruct (nltb _ _); reflexivity).
  replace (if nltb r (q_slow q) then rt r else rt (q_slow q)) with (rt (if nltb r (q_slow q) then r else q_slow q)) by (destruct (nltb _ _); reflexivity).
  change (mkSearch (rt (if nltb (q_fast q) r then r else q_fast q)) (rt (q_slow q)) (rt x) (q_seen q) (map ne (q_front q)))
    with (nq (mkSearch (if nltb (q_fast q) r then r else q_fast q) (q_slow q) x (q_seen q) (q_front q))).
  rewrite b_enough. destruct (fast_enough thr _ r); [|reflexivity]. cbn [rmap]. unfold nq. cbn [q_fast q_slow q_cur q_seen q_front].
  rewrite map_app. reflexivity.
Qed.
Lemma b_adds m thr v l : forall q, add_edges h' (vmap su m) thr v (map ne l) (nq q) = rmap nq (add_edges h m thr v l q).
Proof.
  induction l as [|e l IH]; intros q; [reflexivity|]. cbn [map add_edges]. rewrite b_add.
  destruct (add_edge h m thr v e q); cbn [rmap rbind]; [apply IH|reflexivity|reflexivity].
Qed.
Lemma b_explore q v : explore (nq q) v = nq (explore q v).
Proof.
  unfold explore, nq. cbn [q_fast q_slow q_cur q_seen q_front]. f_equal. induction (q_front q) as [|e l IH]; [reflexivity|].
  cbn [map filter]. change (e_dst (ne e)) with (e_dst e). destruct (negb (e_dst e =? v)); [cbn [map]; f_equal|]; exact IH.
Qed.
Lemma hu_order n i l : @u_order N U' n i (map ne l) = map ne (@u_order N U n i l).
Proof. apply HU. Qed.
Lemma hu_next n i e l : @u_next N U' n i (ne e) (map ne l) = ne (@u_next N U n i e l).
Proof. apply HU. Qed.
Lemma b_loop nonce m b f : forall f' i q r r', basin_loop (U := U) f nonce i h b m q = Ok r -> basin_loop (U := U') f' nonce i h' b (vmap su m) (nq q) = Ok r' -> r' = r.
Proof.
  induction f as [|f IH]; intros [|f'] i q r r' E E'; cbn [basin_loop nq q_front] in E, E'; destruct (q_front q) as [|e l] eqn:Eq; cbn [map] in E'; try discriminate;
    try (cbn [q_seen nq] in E'; pose proof HU as (_ & _ & Hv & _); rewrite Hv in E'; congruence).
  rewrite hu_next in E'. change (e_dst (ne (@u_next N U nonce i e l))) with (e_dst (@u_next N U nonce i e l)) in E'.
  rewrite b_edges, hu_order in E'. 
  assert (Ex : explore (mkSearch (rt (q_fast q)) (rt (q_slow q)) (rt (q_cur q)) (q_seen q) (ne e :: map ne l)) (e_dst (@u_next N U nonce i e l)) = nq (explore q (e_dst (@u_next N U nonce i e l)))).
  { rewrite <- b_explore. unfold nq. rewrite Eq. reflexivity. }
  unfold nq at 1 in E'. rewrite Eq in E'. cbn [map] in E'. rewrite Ex, b_adds in E'.
  destruct (add_edges h m _ _ _ _) as [q'| |]; cbn [rmap rbind] in E, E'; try discriminate.
  cbn [nq q_seen] in E'. destruct (b_max b <? Z.of_nat (length (q_seen q'))); [congruence|]. eapply IH; eauto.
Qed.

Definition eachc (m m' : umap cluster) : Prop := Forall2 (fun e e' => fst e = fst e' /\ crel (snd e) (snd e')) m m'.
Lemma eachc_lookup k m m' : eachc m m' -> match ulookup k m, ulookup k m' with Some d, Some d' => crel d d' | None, None => True | _, _ => False end.
Proof.
  induction 1 as [|[a x] [b y] m m' [E1 E2] H IH]; [exact Logic.I|]. cbn in E1, E2. subst b. cbn [ulookup].
  destruct (k =? a); assumption.
Qed.
Lemma b_find f f' nonce b m cs cs' k r r' : eachc cs cs' -> find_basin (U := U) f nonce h b m cs k = Ok r ->
  find_basin (U := U') f' nonce h' b (vmap su m) cs' k = Ok r' -> r' = r.
Proof.
  intros Hcs. unfold find_basin. rewrite b_fastest, b_part, b_cluster.
  destruct (ask (sc_getFastest h k) m) as [fast| |]; cbn [rmap rbind]; try discriminate.
  destruct (ask (sc_partOfCluster k) m) as [part| |]; cbn [rbind]; try discriminate.
  assert (X : forall slow, (q <-! add_edges h m (b_threshold b) k (@u_order N U nonce 0 (edges_of h m k)) (mkSearch fast slow fast [k] []); basin_loop (U := U) f nonce 1 h b m q) = Ok r ->
    (q <-! add_edges h' (vmap su m) (b_threshold b) k (@u_order N U' nonce 0 (edges_of h' (vmap su m) k)) (mkSearch (rt fast) (rt slow) (rt fast) [k] []); basin_loop (U := U') f' nonce 1 h' b (vmap su m) q) = Ok r' -> r' = r).
  { intros slow. rewrite b_edges, hu_order. change (mkSearch (rt fast) (rt slow) (rt fast) [k] []) with (nq (mkSearch fast slow fast [k] [])).
    rewrite b_adds. destruct (add_edges h m _ _ _ _); cbn [rmap rbind]; try discriminate. apply b_loop. }
  destruct part; [|cbn [rbind]; apply X].
  destruct (ask (sc_getClusterId k) m) as [ci| |]; cbn [rbind]; try discriminate.
  unfold cc_getCluster, ask, read_key. pose proof (eachc_lookup ci _ _ Hcs) as L.
  destruct (ulookup ci cs) as [d|]; [|discriminate]. destruct (ulookup ci cs') as [d'|]; [|destruct L].
  cbn [lift ret rbind]. destruct L as (sv & pv & iw & it & t & i & -> & _).
  rewrite (u_fastestOff K c h h' Hh d _ eq_refl (skew c sv pv iw it t i d) eq_refl). apply X.
Qed.

(** ** Crossing times *)
Lemma b_time_edges m ids : time_edges h' (vmap su m) ids = map net (time_edges h m ids).
Proof.
  unfold time_edges. rewrite b_rates. induction ids as [|k ids IH]; [reflexivity|]. cbn [flat_map]. rewrite map_app, IH, map_map. f_equal.
  apply map_ext. intros [n a]. unfold net. cbn [fst snd]. rewrite Hh, (r_inv c). reflexivity.
Qed.
Lemma b_dmin x y : dmin (option_map tm x) (option_map tm y) = option_map tm (dmin x y).
Proof. destruct x, y; cbn [dmin option_map]; try reflexivity. rewrite (m_ltb c). destruct (nltb _ _); reflexivity. Qed.
Lemma b_dist n nodes es i : forall j, dist n nodes (map net es) i j = option_map tm (dist n nodes es i j).
Proof.
  induction n as [|n IH]; intros j; cbn [dist].
  - destruct (i =? j); cbn [option_map]; [rewrite (m_0 c)|]; reflexivity.
  - rewrite IH. generalize (dist n nodes es i j). 
    assert (X : forall l acc, fold_left (fun acc e => if (e_dst e =? j) && existsb (Z.eqb (e_src e)) nodes then
        match dist n nodes (map net es) i (e_src e) with Some d => dmin acc (Some (nadd d (snd e))) | None => acc end else acc) (map net l) (option_map tm acc) =
      option_map tm (fold_left (fun acc e => if (e_dst e =? j) && existsb (Z.eqb (e_src e)) nodes then
        match dist n nodes es i (e_src e) with Some d => dmin acc (Some (nadd d (snd e))) | None => acc end else acc) l acc)).
    { induction l as [|e l IHl]; intros acc; [reflexivity|]. cbn [map fold_left].
      change (e_src (net e)) with (e_src e). change (e_dst (net e)) with (e_dst e). change (snd (net e)) with (tm (snd e)).
      rewrite <- IHl. f_equal. destruct ((e_dst e =? j) && existsb (Z.eqb (e_src e)) nodes); [|reflexivity].
      rewrite IH. destruct (dist n nodes es i (e_src e)); [|reflexivity]. cbn [option_map]. rewrite (m_add c).
      rewrite <- b_dmin. reflexivity. }
    intros acc. apply X.
Qed.
Lemma fm_map {A B} (t : B -> B) (f g : A -> list B) l : (forall x, f x = map t (g x)) -> flat_map f l = map t (flat_map g l).
Proof. intros E. induction l as [|x l IH]; [reflexivity|]. cbn [flat_map]. rewrite map_app, IH, E. reflexivity. Qed.
Lemma b_pairs nonce nodes es : pair_times (U := U') nonce nodes (map net es) = map tm (pair_times (U := U) nonce nodes es).
Proof.
  unfold pair_times. apply fm_map. intros i. apply fm_map. intros j.
  destruct (i =? j); [reflexivity|]. rewrite b_dist. destruct (dist (length nodes) nodes es i j); [reflexivity|]. cbn [option_map].
  pose proof HU as (_ & _ & _ & Hf). rewrite Hf. destruct (@u_far N U nonce i j); reflexivity.
Qed.
Lemma b_limit nonce m ids : internal_limit (U := U') nonce h' (vmap su m) ids = tm (internal_limit (U := U) nonce h m ids).
Proof.
  unfold internal_limit. rewrite b_time_edges, b_pairs. rewrite <- (m_0 c) at 1. generalize (@n0 N).
  induction (pair_times (U := U) nonce (nodes_of ids) (time_edges h m ids)) as [|t l IH]; intros x; [reflexivity|].
  cbn [map fold_left]. rewrite (m_ltb c). destruct (nltb x t); apply IH.
Qed.
Lemma b_exit m all ids : forall acc, exit_sum h' (vmap su m) all ids (rt acc) = rmap rt (exit_sum h m all ids acc).
Proof.
  induction ids as [|k ids IH]; intros acc; [reflexivity|]. cbn [exit_sum]. rewrite b_neigh.
  destruct (ask (sc_getNeighIds k) m) as [ns| |]; cbn [rbind rmap]; try reflexivity.
  match goal with |- rbind ?x _ = rmap rt (rbind ?y _) => assert (X : x = rmap rt y) end.
  { clear IH. revert acc. induction ns as [|n ns IHn]; intros acc; [reflexivity|]. destruct (existsb (Z.eqb n) all); [apply IHn|].
    rewrite b_rateTo. destruct (ask (sc_getRateTo h k n) m); cbn [rbind rmap]; try reflexivity. rewrite (r_add c). apply IHn. }
  rewrite X. match goal with |- rbind (rmap rt ?y) _ = _ => destruct y end; cbn [rbind rmap]; [apply IH|reflexivity|reflexivity].
Qed.
Lemma b_exit_time m ids : exit_time h' (vmap su m) ids = rmap tm (exit_time h m ids).
Proof.
  unfold exit_time. rewrite <- (r_0 c) at 1. rewrite b_exit. destruct (exit_sum h m ids ids n0); cbn [rbind rmap]; try reflexivity.
  rewrite (r_eqb0 c). destruct (neqb a n0); [rewrite (m_0 c)|rewrite (r_inv c)]; reflexivity.
Qed.
Lemma b_resolution tau limit tres : chosen_resolution (tm tau) (tm limit) (tm tres) = chosen_resolution tau limit tres.
Proof. unfold chosen_resolution. rewrite (m_mulr c), !(m_divb c). reflexivity. Qed.
End Unit.
