(** * An attempt to coarse grain a living system returns *)
From Coq Require Import ZArith List Bool Reals Lra Lia Relations Permutation.
From Verif Require Import Base BaseProofs Num RSum WalkerModel SiteModel SiteSpec SiteProofs ClusterModel ClusterSpec ClusterReal ClusterFrame
  ClusterOps ClusterTables ClusterStay ClusterSome ClusterProofs ClusterLive ContainerModel ContainerSpec BasinModel BasinSpec BasinProofs OrdLaws CrossSpec CrossProofs SystemModel SystemSpec SystemShape SystemHop
  SystemCoarse SystemMerge SystemProofs SystemFacts SystemEffect SystemEquil SystemLive Fuel.
Import ListNotations.
Open Scope R_scope.

Section Grow.
Context {I : Impl} {G : @Rng XR} {U : @Ugly XR}.
Variable clk : Z -> Z.

(** ** The loops over sites *)
Lemma sites_run {A} k (f : @site XR G -> res A) a s (g : @world XR G) : ulookup k (g_sites g) = Some s -> f s = Ok a ->
  in_sites (read_key k f) g = Ret a g.
Proof. intros E F. unfold in_sites, zoom, read_key. rewrite E, F. cbn [lift]. rewrite eta_sites. reflexivity. Qed.
Lemma clusters_run {A} k (f : @cluster XR G -> res A) a c (g : @world XR G) : ulookup k (g_clusters g) = Some c -> f c = Ok a ->
  in_clusters (read_key k f) g = Ret a g.
Proof. intros E F. unfold in_clusters, zoom, read_key. rewrite E, F. cbn [lift]. destruct g; reflexivity. Qed.
Lemma site_run k s (g : @world XR G) : ulookup k (g_sites g) = Some s -> in_sites (sc_getSite k) g = Ret s g.
Proof. intros E. exact (sites_run k (fun s => Ok s) s s g E eq_refl). Qed.
Lemma cluster_run k c (g : @world XR G) : ulookup k (g_clusters g) = Some c -> in_clusters (cc_getCluster k) g = Ret c g.
Proof. intros E. exact (clusters_run k (fun s => Ok s) c c g E eq_refl). Qed.
Lemma copy_run ids (g : @world XR G) : (forall k, In k ids -> exists s, ulookup k (g_sites g) = Some s /\ s_id s = Some k) ->
  exists l, copy_sites ids g = Ret l g /\ map s_id l = map Some ids.
Proof.
  induction ids as [|k ids IH]; intros Hk; cbn [copy_sites]; [exists []; auto|].
  destruct (Hk k (or_introl eq_refl)) as (s & Es & Ei). destruct IH as (l & El & Em); [intros; apply Hk; right; assumption|].
  exists (s :: l). split; [|cbn [map]; congruence]. unfold bind at 1. rewrite (site_run k s g Es). unfold bind. rewrite El. reflexivity.
Qed.
Lemma clusters_of_run ids (g : @world XR G) : (forall k, In k ids -> place g k) -> forall acc, exists sac, clusters_of ids acc g = Ret sac g.
Proof.
  induction ids as [|k ids IH]; intros Hk acc; cbn [clusters_of]; [exists acc; reflexivity|].
  destruct (proj1 (ukeys_In _ _) (Hk k (or_introl eq_refl))) as [s Es].
  unfold bind at 1. unfold sc_partOfCluster. rewrite (sites_run k (fun s => Ok (s_partOfCluster s)) _ s g Es eq_refl). unfold bind at 1.
  destruct (s_partOfCluster s).
  - unfold sc_getClusterId. rewrite (sites_run k (fun s => Ok (s_getClusterId s)) _ s g Es eq_refl). apply IH. intros; apply Hk; right; assumption.
  - unfold ret at 1. apply IH. intros; apply Hk; right; assumption.
Qed.
Lemma label_run cid ids : forall g : @world XR G, (forall k, In k ids -> place g k) ->
  exists g', mfor ids (fun k => in_sites (sc_setClusterId k cid) ;;
                     modify (fun g => g_with_feats (uset (g_feats g) k (PCluster cid)) g)) g = Ret tt g'.
Proof.
  induction ids as [|k ids IH]; intros g Hk; cbn [mfor]; [exists g; reflexivity|].
  destruct (proj1 (ukeys_In _ _) (Hk k (or_introl eq_refl))) as [s Es].
  unfold bind, in_sites, zoom, sc_setClusterId, at_key. rewrite Es. unfold s_setClusterId. rewrite !modify_eq.
  apply IH. intros j Hj. unfold place. cbn [g_sites g_with_sites g_with_feats]. rewrite ureplace_keys. apply Hk. right; assumption.
Qed.
Lemma scan_run fav sac : forall iso cids (g : @world XR G), NoDup (ukeys sac) -> In fav (ukeys (g_clusters g)) ->
  (forall k, In k (ukeys sac) -> exists s, ulookup k (g_sites g) = Some s /\ s_id s = Some k) ->
  exists x g', merge_scan fav sac iso cids g = Ret x g' /\
    map s_id (fst x) = map s_id iso ++ map (fun e => Some (fst e)) (filter (fun e => negb (snd e =? fav)%Z && (snd e =? unassignedId)%Z) sac).
Proof.
  induction sac as [|[k c] sac IH]; intros iso cids g ND Hf Hk; cbn [merge_scan].
  - exists (iso, cids), g. split; [reflexivity|]. cbn [filter map fst]. rewrite app_nil_r. reflexivity.
  - inversion ND as [|? ? Nk ND']; subst. cbn [fst] in Nk.
    destruct (Hk k (or_introl eq_refl)) as (s & Es & Ei). cbn [filter fst snd].
    destruct (Z.eqb_spec c fav) as [->|Ne]; cbn [negb andb].
    + apply IH; [exact ND'|exact Hf|]. intros; apply Hk; right; assumption.
    + set (iso' := if (c =? unassignedId)%Z then iso ++ [s] else iso).
      assert (E1 : (if (c =? unassignedId)%Z then s <- in_sites (sc_getSite k) ;; ret (iso ++ [s]) else ret iso) g = Ret iso' g).
      { subst iso'. destruct (c =? unassignedId)%Z; [|reflexivity]. unfold bind. rewrite (site_run k s g Es). reflexivity. }
      unfold bind at 1. rewrite E1. unfold bind at 1.
      destruct (proj1 (ukeys_In _ _) Hf) as [fc Ef]. rewrite (cluster_run fav fc g Ef).
      unfold bind at 1. rewrite modify_eq. unfold bind at 1. unfold in_sites at 1, zoom, sc_setClusterId, at_key. cbn [g_sites g_with_feats].
      rewrite Es. unfold s_setClusterId. rewrite modify_eq.
      match goal with |- context [merge_scan fav sac iso' ?y ?gg] => destruct (IH iso' y gg) as (x & g' & E2 & E3) end.
      * exact ND'.
      * exact Hf.
      * intros j Hj. cbn [g_sites g_with_sites g_with_feats].
        rewrite (SystemShape.ureplace_lookup_some _ _ _ s) by exact Es. destruct (Z.eqb_spec j k) as [->|].
        -- exists (s_with_cluster fav s). auto.
        -- apply Hk. right. exact Hj.
      * exists x, g'. split; [exact E2|]. rewrite E3. subst iso'. destruct (c =? unassignedId)%Z; [|reflexivity].
        rewrite map_app, <- app_assoc. cbn [map app]. rewrite Ei. reflexivity.
Qed.
Lemma addSites_run l : forall (c : @cluster XR G) ids, map s_id l = map Some ids -> NoDup ids ->
  (forall k, In k ids -> ~ In k (c_siteIds c)) -> exists c', c_addSites l c = Ret tt c'.
Proof.
  induction l as [|s l IH]; intros c ids Em ND Nc; [exists c; reflexivity|].
  destruct ids as [|k ids]; [discriminate|]. cbn [map] in Em. injection Em as Ei Em. inversion ND as [|? ? Nk ND']; subst.
  unfold c_addSites. cbn [mfor]. unfold bind at 1. unfold bind at 1. unfold c_addSite, bind, s_getId, lift, gets, cassert. rewrite Ei.
  assert (Eu : umem k (c_sites c) = false) by (apply umem_false; apply Nc; left; reflexivity).
  rewrite Eu. cbn [negb]. unfold ret. rewrite modify_eq. apply (IH _ ids Em ND').
  intros j Hj. unfold c_siteIds. cbn [c_sites c_with_sites]. rewrite uset_keys_In. intros [->|X]; [exact (Nk Hj)|].
  apply (Nc j); [right; exact Hj | exact X].
Qed.

(** ** Which sets *)
Definition loopless (g : @world XR G) : Prop := forall k s, ulookup k (g_sites g) = Some s -> ~ In k (s_neighIds s).
Lemma loopless_same (g g' : @world XR G) : (forall k, option_map s_neigh (ulookup k (g_sites g')) = option_map s_neigh (ulookup k (g_sites g))) ->
  loopless g -> loopless g'.
Proof.
  intros E Hl k s Es. specialize (E k). rewrite Es in E. destruct (ulookup k (g_sites g)) as [s0|] eqn:E0; [|discriminate].
  injection E as E. unfold s_neighIds. rewrite E. apply (Hl k s0 E0).
Qed.
Lemma balance_tight (g : @world XR G) k B rho T : solid g -> NoDup B -> In k B -> (forall j, In j B -> In j (ukeys (g_sites g))) ->
  (forall j, In j B -> clos_refl_trans Z (hop_in (g_sites g) B) k j) -> g_perf g = Fin rho -> 1 / 2 <= rho -> g_res g = Some (Fin T) ->
  in_balance g (g_tick g) B -> tight (g_heap g) (g_sites g) B.
Proof.
  intros [Hg Mu _ _] ND Hk Kn Re Ep Hr Et Bal.
  destruct (balance_real g _ B rho T Hg ND Kn Ep ltac:(lra) Et Bal) as (L & Cr & L0 & X0 & E1 & _).
  set (X := leaving (g_heap g) (g_sites g) B) in *.
  constructor; [exact ND| |exists L; split; [exact Cr|]|exact X0].
  - apply (joined_from _ _ B k Mu). apply reach_walk; assumption.
  - apply (Rmult_lt_compat_r X) in E1; [|exact X0]. replace (1 / X * X) with 1 in E1 by (field; lra).
    apply Rle_lt_trans with (2 * rho * L * X); [|exact E1]. apply Rmult_le_compat_r; [lra|]. 
    assert (0 <= (2 * rho - 1) * L) by (apply Rmult_le_pos; lra). lra.
Qed.
(** the members gathered so far can be solved *)
Lemma gathered_firm (g : @world XR G) B (c : @cluster XR G) A : solid g -> tight (g_heap g) (g_sites g) B -> members_ok (g_heap g) (c_sites c) ->
  mirror (g_sites g) (c_sites c) -> (forall j, In j (c_siteIds c) -> In j B) ->
  joined (g_heap g) (g_sites g) A -> (forall j, In j A -> In j (c_siteIds c)) -> (exists i j, i <> j /\ In i A /\ In j A) ->
  firm (g_heap g) c.
Proof.
  intros So [_ J _ X] Hm Mi Sub JA SA Tw. pose proof (o_good _ So) as Hg. destruct Tw as (i & j & Ne & Hi & Hj). constructor.
  - exact Hm.
  - apply (mirror_mutual _ _ _ Hg Mi (o_mut _ So)).
  - apply (mirror_link _ _ _ Hg Mi A SA JA). eauto.
  - destruct (existsb (fun j => negb (umem j (c_sites c))) B) eqn:Ex.
    + apply existsb_exists in Ex. destruct Ex as (y & Hy & Ny). apply negb_true_iff, umem_false in Ny.
      apply (part_exit _ _ _ Hg Mi B i y J Sub); [apply SA, Hi|exact Hy|exact Ny].
    + apply (mirror_exit _ _ _ Hg Mi B); [|exact X]. intros y. split; [|apply Sub]. intros Hy.
      destruct (umem y (c_sites c)) eqn:Em; [apply umem_In; exact Em|]. exfalso.
      assert (E : existsb (fun j => negb (umem j (c_sites c))) B = true) by (apply existsb_exists; exists y; rewrite Em; auto). congruence.
  - apply SA in Hi, Hj. unfold c_siteIds in *. destruct (c_sites c) as [|e1 [|e2 l]]; [destruct Hi| |simpl; lia].
    cbn in Hi, Hj. destruct Hi as [<-|[]], Hj as [<-|[]]. congruence.
Qed.

Variables (lo hi : R).
Hypothesis (Hlo : 0 < lo) (Hhi : hi < / dbl_min).

Lemma fits_gain T : fits (most_gain lo hi) T -> 0 <= most_gain lo hi.
Proof. intros [A _]. exact A. Qed.

(** ** Creating *)
Lemma created_ends T g B t l c1 : alive lo hi T g -> fits (most_gain lo hi) T -> tight (g_heap g) (g_sites g) B ->
  (exists i j, i <> j /\ In i B /\ In j B) -> (forall k, In k B -> place g k) -> copy_sites B g = Ret l g ->
  c_addSites l (c_with_tol (nlit 1 1000) (c_with_method ByTolerance (cluster_new (g_count g) t))) = Ret tt c1 ->
  homely (g_heap g) lo hi (place g) c1 /\
  ends (fun f => c_update f (g_heap g)) c1 (fun _ c' => same_core c1 c' /\ lively lo hi (near c') T c' /\ c_prev c' = c_visits c') /\
  c_remaining c1 = [].
Proof.
  intros A HF TB Tw Pl El Ea. pose proof (a_shape _ _ _ _ A) as Sh. pose proof (a_solid _ _ _ _ A) as So.
  destruct (addSites_inv _ _ _ Ea) as (m & Ec & Hm). cbn [c_sites c_with_tol c_with_method cluster_new c_id] in Hm.
  specialize (Hm (NoDup_nil _)). destruct Hm as (NDm & Hin & Hout & _). destruct (copy_inv _ _ _ _ El) as (_ & L1 & L2).
  set (cid := g_count g) in *.
  assert (M1 : forall k x, ulookup k m = Some x -> In k B /\ exists s, ulookup k (g_sites g) = Some s /\ x = s_with_cluster cid s).
  { intros k x Ex. destruct (Hout k x Ex) as [Hx|(s & Hs & Ei & ->)]; [discriminate|].
    destruct (L2 s Hs) as (k' & Hk' & Es). destruct (h_site _ _ _ Sh k' s Es) as [Ei' _].
    assert (k' = k) by congruence. subst k'. split; [exact Hk'|]. exists s. auto. }
  assert (M2 : forall k, In k B -> In k (ukeys m)).
  { intros k Hk. destruct (L1 k Hk) as (s & Es & Hs). destruct (Hin s Hs) as (k' & Ei & Ek).
    destruct (h_site _ _ _ Sh k s Es) as [Ei' _]. assert (k' = k) by congruence. subst k'. eapply ulookup_In_key; exact Ek. }
  assert (Es : c_sites c1 = m) by (rewrite Ec; reflexivity).
  assert (Hk : forall k x, In (k, x) m -> exists s, ulookup k (g_sites g) = Some s /\ alike s x).
  { intros k x Hx. destruct (M1 k x (In_ulookup _ _ _ NDm Hx)) as (_ & s & E & ->). exists s. split; [exact E|]. unfold alike; auto. }
  assert (Ho : homely (g_heap g) lo hi (place g) c1).
  { constructor; rewrite Es.
    - split; [exact NDm|]. intros k x Hx. destruct (Hk k x Hx) as (s & E & L). eapply alike_ok; [exact L|]. apply (a_site _ _ _ _ A k s E).
    - intros k x Hx. destruct (Hk k x Hx) as (s & E & L). destruct (a_site _ _ _ _ A k s E) as (_ & P & N).
      split; [eapply alike_paced; eauto|]. split; [eapply ulookup_In_key; exact E|]. rewrite (alike_ids _ _ L). exact N. }
  assert (Mi : mirror (g_sites g) (c_sites c1)).
  { rewrite Es. split; [exact NDm|]. intros k x Ex. destruct (M1 k x Ex) as (_ & s & E & ->). exists s. auto. }
  split; [exact Ho|]. split; [|rewrite Ec; reflexivity].
  apply (ends_weaken _ _ (fun _ c' => same_core c1 c' /\ lively lo hi (near c1) T c' /\ c_prev c' = c_visits c')); [intros u c' (Sc & Lv & Pv); split; [exact Sc|split; [|exact Pv]]; apply (lively_more lo hi (near c1)); [apply near_sites, (sc_sites _ _ Sc)|exact Lv]|].
  apply (update_live (g_heap g) lo hi (near c1) Hlo Hhi T c1 HF).
  - rewrite Ec. constructor; cbn [c_pon c_idwell c_with_sites c_with_tol c_with_method cluster_new]; first [constructor | intros ? [] | idtac].
  - apply (gathered_firm g B c1 B So TB (hm_mem _ _ _ _ _ Ho) Mi); [|apply TB| |exact Tw].
    + intros j. unfold c_siteIds. rewrite Es. intros Hj. apply ukeys_In in Hj. destruct Hj as [x Ex]. apply (M1 j x Ex).
    + intros j. unfold c_siteIds. rewrite Es. apply M2.
  - apply (near_home _ _ _ _ _ Ho).
  - rewrite Ec. constructor; cbn [c_svisits c_prev c_visits c_with_sites c_with_tol c_with_method cluster_new]; [constructor|lia|discriminate|left; reflexivity|left; reflexivity].
  - rewrite Ec. reflexivity.
  - rewrite Ec. left; reflexivity.
  - rewrite Ec. left; reflexivity.
  - rewrite Ec. exists 20. split; [reflexivity|lra].
  - rewrite Ec. split; [reflexivity|]. exists (1 / 1000). split; [|lra]. cbn [c_tol c_with_sites c_with_tol]. cbn [nlit XR]. reflexivity.
  - rewrite Ec. constructor.
Qed.
Lemma chosen_finite t L tr : 0 < t -> 0 <= L -> 0 < tr -> exists r, @chosen_resolution XR (Fin t) (Fin L) (Fin tr) = Fin r /\ 2 <= r.
Proof.
  intros Ht HL Htr. unfold chosen_resolution. cbv zeta. rewrite (xdiv_Fin t tr) by lra.
  change (@nmul XR (nofZ 2) (Fin L)) with (Fin (2 * L) : @num XR). change (@nofZ XR 2) with (Fin 2 : @num XR).
  match goal with |- exists r, (if nltb ?c _ then _ else _) = _ /\ _ => assert (X : exists y, c = Fin y) end.
  { destruct (Req_EM_T L 0) as [->|Nz].
    - assert (E : @ndiv XR (Fin t) (Fin (2 * 0)) = PInf).
      { cbn [ndiv XR xdiv]. rewrite Rmult_0_r. unfold Reqb. destruct (Req_EM_T 0 0); [|lra]. destruct (Req_EM_T t 0); [lra|].
        assert (E : Rltb 0 t = true) by (apply Rltb_true; exact Ht). rewrite E. reflexivity. }
      rewrite E. eexists. reflexivity.
    - rewrite xdiv_Fin by lra. destruct (nltb _ _); eexists; reflexivity. }
  destruct X as [c X]. rewrite X. change (@nltb XR (Fin c) (Fin 2)) with (Rltb c 2). destruct (Rltb c 2) eqn:E.
  - exists 2. split; [reflexivity|lra].
  - apply Rltb_false in E. exists c. split; [reflexivity|lra].
Qed.
Lemma rested_none (c : @cluster XR G) : c_remaining c = [] -> rested c.
Proof. intros E. unfold rested. rewrite E. intros; discriminate. Qed.

Lemma create_ends T g k B L tr : alive lo hi T g -> rests g -> fits (most_gain lo hi) T -> tight (g_heap g) (g_sites g) B ->
  (exists i j, i <> j /\ In i B /\ In j B) -> In k B -> (forall j, In j B -> clos_refl_trans Z (hop_in (g_sites g) B) k j) ->
  (forall k, In k B -> exists s, ulookup k (g_sites g) = Some s /\ s_cluster s = unassignedId) ->
  0 <= L -> g_res g = Some (Fin tr) -> 0 < tr ->
  ends (fun f => create_cluster clk f B (Fin L : @num XR)) g (fun _ g' => alive lo hi T g' /\ rests g' /\ made g g' k B (g_count g) /\ grain g g').
Proof.
  intros A Rs HF TB Tw Hk Re Un HL Er Htr. pose proof (a_shape _ _ _ _ A) as Sh. pose proof (a_solid _ _ _ _ A) as So.
  assert (Pl : forall j, In j B -> place g j) by (intros j Hj; destruct (Un j Hj) as (s & Es & _); eapply ulookup_In_key; exact Es).
  (* forward *)
  assert (Run : exists f g', create_cluster clk f B (Fin L : @num XR) g = Ret tt g').
  { set (c0 := @cluster_new XR G (g_count g) (clk (g_tick g))).
    set (g1 := g_with_count (g_count g + 1) (g_with_tick (g_tick g + 1) g)).
    destruct (copy_run B g) as (l & El & Em).
    { intros j Hj. destruct (Un j Hj) as (s & Es & _). exists s. split; [exact Es|]. apply (h_site _ _ _ Sh j s Es). }
    destruct (copy_run B g1) as (l' & El' & _).
    { intros j Hj. destruct (Un j Hj) as (s & Es & _). exists s. split; [exact Es|]. apply (h_site _ _ _ Sh j s Es). }
    assert (l' = l).
    { assert (X : forall ids l l', copy_sites ids g = Ret l g -> copy_sites ids g1 = Ret l' g1 -> l' = l).
      { clear. induction ids as [|k ids IH]; intros l l' E E'; cbn [copy_sites] in *; [inversion E; inversion E'; congruence|].
        apply bind_ret_inv in E, E'. destruct E as (s & g2 & E1 & E), E' as (s' & g2' & E1' & E'). apply sites_read in E1, E1'.
        destruct E1 as (-> & x & Es & Ex), E1' as (-> & x' & Es' & Ex').
        apply bind_ret_inv in E, E'. destruct E as (l1 & g2 & E2 & E), E' as (l1' & g2' & E2' & E').
        inversion E; subst. inversion E'; subst. pose proof (IH _ _ E2 E2'). change (g_sites g1) with (g_sites g) in Es'. congruence. }
      apply (X B l l' El El'). }
    subst l'.
    destruct (addSites_run l (c_with_tol (nlit 1 1000) (c_with_method ByTolerance c0)) B Em (t_nd _ _ _ TB)) as (c1 & Ea); [intros j _ []|].
    destruct (created_ends T g B _ l c1 A HF TB Tw Pl El Ea) as (Ho & (f & [] & c2 & Eu & Sc & Lv & Pv) & _).
    destruct (lv_tau _ _ _ _ _ Lv) as (t & Et & Ht). pose proof dbl_min_pos as Hd.
    destruct (chosen_finite t L tr ltac:(lra) HL Htr) as (r & Ech & Hr).
    destruct (resolution_live lo hi (near c2) T c2 r Lv Hr Pv) as (c3 & E3 & _).
    exists f. unfold create_cluster. unfold bind at 1. unfold new_cluster at 1, read_clock, next_tick, bind, gets, ret at 1. rewrite modify_eq. unfold ret at 1.
    change (g_count (g_with_tick (g_tick g + 1) g)) with (g_count g). fold c0 g1. rewrite El'.
    unfold local at 1. unfold c_setMethod, c_setTolerance, bind, cassert. rewrite modify_eq.
    assert (E0 : @nleb XR n0 (nlit 1 1000) = true).
    { change (@nlit XR 1 1000) with (Fin (1 / 1000)). change (Rltb 0 (1 / 1000) || Reqb 0 (1 / 1000) = true).
      assert (E0 : Rltb 0 (1 / 1000) = true) by (apply Rltb_true; lra). rewrite E0. reflexivity. }
    rewrite E0. unfold ret at 1. rewrite modify_eq. rewrite Ea. change (g_heap g1) with (g_heap g). rewrite Eu.
    change (g_res g1) with (g_res g). rewrite Er. cbn [snd]. unfold c_getTimeConstant. rewrite Et, Ech. unfold local at 1. rewrite E3. cbn [snd].
    set (ou := use_seed g1).
    assert (Hou : exists sd g2, ou = Ret sd g2 /\ g_sites g2 = g_sites g /\ g_clusters g2 = g_clusters g).
    { subst ou. unfold use_seed. destruct (g_seed g1); eexists _, _; (split; [reflexivity|]); auto. }
    destruct Hou as (sd & g2 & -> & Eg2 & Ec2).
    set (ol := local (match sd with Some x => c_setRandomSeed x | None => ret tt end) c3 g2).
    assert (Hol : exists c4, ol = Ret (tt, c4) g2 /\ c_id c4 = c_id c3).
    { subst ol. unfold local. destruct sd; eexists; (split; [reflexivity|reflexivity]). }
    destruct Hol as (c4 & -> & Ei4). cbn [snd].
    assert (Ei3 : c_id c4 = g_count g).
    { rewrite Ei4. unfold c_setResolution, bind, cassert in E3. destruct (nleb _ _); [|discriminate]. unfold ret in E3. rewrite modify_eq in E3.
      injection E3 as <-. cbn [c_id c_with_inc c_with_res]. rewrite (sc_id _ _ Sc). destruct (addSites_inv _ _ _ Ea) as (m & -> & _). reflexivity. }
    unfold in_clusters at 1, zoom, cc_addCluster, bind, gets. rewrite Ec2, Ei3.
    assert (Eu2 : umem (g_count g) (g_clusters g) = false).
    { apply umem_false. intros X. apply ukeys_In in X. destruct X as [y Ey]. destruct (h_cl _ _ _ Sh _ _ Ey) as (_ & Z0 & _). lia. }
    rewrite Eu2, modify_eq. unfold new_cluster at 1, read_clock, next_tick, bind, gets, ret. rewrite modify_eq.
    apply label_run. intros j Hj. unfold place. cbn [g_sites g_with_count g_with_tick g_with_clusters]. rewrite Eg2. apply Pl, Hj. }
  destruct Run as (f & g' & Run). exists f, tt, g'. split; [exact Run|].
  destruct (create_shape clk _ _ _ _ _ Sh Un Run) as [Sh' Gr]. pose proof (create_made clk f k B _ g g' Sh (t_nd _ _ _ TB) Hk Re Un Run) as Md.
  pose proof (create_inv clk _ _ _ _ _ Run) as (t & l & tres & c1 & c2 & e & g1 & El & Er' & Ea & Eu & X). cbv zeta in X.
  set (cl := c_with_rng e _) in X. destruct X as (Hle & Em & Ec1 & En1 & Es1 & Ef1 & Ew1 & Eh1 & Ep1 & Er1 & Ei1 & Et1 & Etm1 & Lb).
  assert (Eh : g_heap g' = g_heap g) by (rewrite (b_heap _ _ _ _ Lb); exact Eh1).
  destruct (solid_made _ _ _ _ _ Sh So Md Eh (h_nds _ _ _ Sh') TB) as (So' & Hc).
  assert (Ek : ukeys (g_sites g') = ukeys (g_sites g)) by (rewrite (b_keys _ _ _ _ Lb), Es1; reflexivity).
  assert (Pk : forall j, place g j -> place g' j) by (intros j; unfold place; rewrite Ek; auto).
  destruct (created_ends T g B t l c1 A HF TB Tw Pl El Ea) as (Ho & (f' & [] & c2' & Eu' & Sc & Lv & Pv) & Rm).
  destruct (lasting_same _ _ _ _ _ _ _ _ (update_lasting (g_heap g)) Eu' Eu) as [_ ->]. clear Eu' f'.
  destruct (lv_tau _ _ _ _ _ Lv) as (t2 & Et2 & Ht2). pose proof dbl_min_pos as Hd.
  assert (tres = (Fin tr : @num XR)) by congruence. subst tres.
  destruct (chosen_finite t2 L tr ltac:(lra) HL Htr) as (r & Ech & Hr).
  destruct (resolution_live lo hi (near c2) T c2 r Lv Hr Pv) as (c3 & E3 & L3 & P3 & S3 & R3 & _).
  assert (E3' : c3 = c_with_inc (ndiv (c_tau c2) (Fin r)) (c_with_res (Fin r) c2)).
  { unfold c_setResolution, bind, cassert in E3. destruct (nleb _ _) in E3; [|discriminate]. unfold ret in E3. injection E3 as <-. reflexivity. }
  assert (Ecl : cl = c_with_rng e c3) by (subst cl; rewrite Et2, Ech, <- Et2, <- E3'; reflexivity).
  assert (Lc : forall c, ulookup c (g_clusters g') = if (c =? g_count g)%Z then Some cl else ulookup c (g_clusters g)).
  { intros c. rewrite (b_clusters _ _ _ _ Lb), Ec1. apply uset_lookup. apply (h_ndc _ _ _ Sh). }
  assert (Scl : c_sites cl = c_sites c1) by (rewrite Ecl; cbn [c_sites c_with_rng]; rewrite S3; apply (sc_sites _ _ Sc)).
  split; [|split; [|split; [exact Md | exact Gr]]].
  - constructor; [exact Sh'|exact So'| |].
    + intros j s Es. rewrite (d_label _ _ _ _ _ Md) in Es. rewrite Eh.
      assert (X : exists s0, ulookup j (g_sites g) = Some s0 /\ alike s0 s).
      { destruct (existsb _ _); [|exists s; split; [exact Es|apply alike_refl]].
        destruct (ulookup j (g_sites g)) as [s0|]; [|discriminate]. injection Es as <-. exists s0. split; [reflexivity|]. unfold alike; auto. }
      destruct X as (s0 & E0 & Al). destruct (a_site _ _ _ _ A j s0 E0) as (P1 & P2 & P3').
      split; [eapply alike_ok; eauto|]. split; [eapply alike_paced; eauto|]. rewrite (alike_ids _ _ Al). auto.
    + intros c y. rewrite Lc, Eh. destruct (c =? g_count g)%Z.
      * intros Ey. injection Ey as <-. split.
        -- apply (homely_more lo hi _ (place g)); [exact Pk|]. destruct Ho as [H1 H2]. constructor; rewrite Scl; assumption.
        -- apply (lively_more lo hi (near c2)); [apply near_sites; rewrite Ecl; exact S3|]. rewrite Ecl. destruct L3. constructor; try assumption.
           ++ apply (tidy_core c3); auto.
           ++ destruct lv_ready as [D1 D2 D3 D4 D5]. constructor; assumption.
      * intros Ey. destruct (a_cl _ _ _ _ A c y Ey) as (P1 & P2). split; [eapply homely_more; eauto | exact P2].
  - intros c y. rewrite Lc. destruct (c =? g_count g)%Z; [|apply Rs]. intros Ey. injection Ey as <-. apply rested_none. rewrite Ecl.
    cbn [c_remaining c_with_rng]. rewrite R3, (sc_remaining _ _ Sc). exact Rm.
Qed.

(** ** Merging *)
Lemma holds_some (g : @world XR G) c j : holds g c j -> exists a, ulookup c (g_clusters g) = Some a.
Proof. intros (m & a & E & _). eauto. Qed.
Lemma count_more (sac : umap Z) : sac <> [] -> count_clusters sac <> 1%nat -> forall x, exists e, In e sac /\ snd e <> x.
Proof.
  intros Ne Cn x. destruct (forallb (fun e => snd e =? x)%Z sac) eqn:Ef.
  - exfalso. apply Cn. unfold count_clusters. rewrite forallb_forall in Ef. destruct sac as [|[k0 c0] l]; [congruence|]. set (sac := (k0, c0) :: l) in *.
    destruct (count_keys clk sac [] (NoDup_nil _)) as [NDr Hr']. cbv zeta in *.
    set (r := fold_left (fun (s : umap unit) (e : Z * Z) => uinsert s (snd e)) sac []) in *.
    assert (Ak : forall c, In c (ukeys r) -> c = x).
    { intros c X. apply Hr' in X. destruct X as [[]|X]. apply in_map_iff in X. destruct X as (e & <- & He). apply Z.eqb_eq, Ef, He. }
    assert (Sk : In c0 (ukeys r)) by (apply Hr'; right; left; reflexivity).
    destruct r as [|[a0 ?] [|[b0 ?] ?]]; [destruct Sk|reflexivity|]. exfalso. cbn [ukeys map fst] in NDr, Ak.
    inversion NDr as [|? ? X _]; subst. apply X. left. rewrite (Ak a0), (Ak b0); cbn [In]; auto.
  - clear - Ef. induction sac as [|[j c] l IH]; [discriminate|]. cbn [forallb snd] in Ef. destruct (Z.eqb_spec c x) as [->|Nc].
    + destruct (IH Ef) as (e & He & X). exists e. split; [right; exact He|exact X].
    + exists (j, c). split; [left; reflexivity|exact Nc].
Qed.
Lemma take_in_from moved k (x : @site XR G) : forall sites, NoDup (ukeys sites) -> ulookup k (take_in moved sites) = Some x ->
  ulookup k sites = Some x \/ In (k, x) moved.
Proof.
  unfold take_in. induction moved as [|e l IH]; intros sites ND E; cbn [fold_left] in E; [left; exact E|].
  destruct (umem (fst e) sites) eqn:Em; [destruct (IH _ ND E) as [X|X]; [left; exact X|right; right; exact X]|].
  destruct (IH _ (uset_NoDup _ _ _ ND) E) as [X|X]; [|right; right; exact X]. rewrite uset_lookup in X by exact ND.
  destruct (Z.eqb_spec k (fst e)) as [->|]; [right; left; injection X as <-; destruct e; reflexivity | left; exact X].
Qed.

Section Gather.
Variables (T : Z) (g : @world XR G) (B : list Z) (fav : Z) (a : @cluster XR G).
Hypothesis (A : alive lo hi T g) (HF : fits (most_gain lo hi) T) (TB : tight (g_heap g) (g_sites g) B).
Hypothesis (Ea : ulookup fav (g_clusters g) = Some a).
Let h := g_heap g.
Let K := place g.

Record part (c : @cluster XR G) : Prop := {
  p_id : c_id c = fav; p_home : homely h lo hi K c; p_mir : mirror (g_sites g) (c_sites c);
  p_sub : forall j, In j (c_siteIds c) -> In j B; p_sup : forall j, In j (c_siteIds a) -> In j (c_siteIds c);
  p_rem : c_remaining c = c_remaining a }.
Lemma part_firm c : part c -> firm h c.
Proof.
  intros [_ Ho Mi Sub Sup _]. pose proof (a_shape _ _ _ _ A) as Sh. pose proof (a_solid _ _ _ _ A) as So.
  destruct (h_cl _ _ _ Sh fav a Ea) as (_ & _ & _ & i & j & Ne & Hi & Hj).
  destruct (o_set _ So fav i (proj2 (cluster_keys g fav a i Ea) Hi)) as (S & HS & [_ J _ _]).
  assert (HK : forall x, In x S <-> In x (ukeys (c_sites a))) by (intros x; rewrite HS; apply cluster_keys, Ea).
  apply (gathered_firm g B c S So TB (hm_mem _ _ _ _ _ Ho) Mi Sub J); [intros x Hx; apply Sup, HK, Hx|].
  exists i, j. rewrite !HK. auto.
Qed.
Lemma part_core c c' : part c -> same_core c c' -> part c'.
Proof.
  intros [P1 [P2 P2'] P3 P4 P5 P6] Sc. pose proof (sc_sites _ _ Sc) as Es.
  constructor; unfold c_siteIds in *; rewrite ?Es; auto.
  - rewrite (sc_id _ _ Sc). exact P1.
  - constructor; rewrite Es; assumption.
  - rewrite (sc_remaining _ _ Sc). exact P6.
Qed.
(** from another cluster inside [B] *)
Lemma part_take c x b : part c -> ulookup x (g_clusters g) = Some b -> (forall j, In j (c_siteIds b) -> In j B) ->
  part (c_with_sites (take_in (ClusterLive.relabelled (c_id c) (c_sites b)) (c_sites c)) c).
Proof.
  intros [P1 P2 P3 P4 P5 P6] Eb Sb. pose proof (a_shape _ _ _ _ A) as Sh.
  destruct (a_cl _ _ _ _ A x b Eb) as (Hb & _). pose proof (cluster_mirror g x b Sh Eb) as Mb.
  pose proof (relabelled_alikes (c_id c) (c_sites b)) as [Rk Rl].
  assert (Hb' : homely h lo hi K (c_with_sites (ClusterLive.relabelled (c_id c) (c_sites b)) b))
    by (apply (alikes_homely h lo hi K b); [apply relabelled_alikes|exact Hb]).
  destruct P2 as [[N1 O1] I1]. destruct Hb' as [[N2 O2] I2]. cbn [c_sites c_with_sites] in *.
  set (mv := ClusterLive.relabelled (c_id c) (c_sites b)) in *.
  pose proof (take_in_NoDup mv (c_sites c) N1) as ND.
  assert (Fr : forall k s, In (k, s) (take_in mv (c_sites c)) -> In (k, s) (c_sites c) \/ In (k, s) mv).
  { intros k s Hin. apply In_ulookup in Hin; [|exact ND]. destruct (take_in_from _ _ _ _ N1 Hin) as [X|X]; [left; apply ulookup_In; exact X | right; exact X]. }
  constructor; unfold c_siteIds; cbn [c_id c_sites c_with_sites c_remaining]; auto.
  - constructor; cbn [c_sites c_with_sites]; [split; [exact ND|]|]; intros k s Hin; destruct (Fr k s Hin) as [X|X]; first [apply (O1 k s X) | apply (I1 k s X) | apply (O2 k s X) | apply (I2 k s X)].
  - split; [exact ND|]. intros k s Es. destruct (take_in_from _ _ _ _ N1 Es) as [X|X]; [apply (proj2 P3 k s X)|].
    subst mv. unfold ClusterLive.relabelled in X. apply in_map_iff in X. destruct X as ([k' s'] & X & Hin). cbn [fst snd] in X. injection X as <- <-.
    apply In_ulookup in Hin; [|apply Mb]. apply (proj2 Mb k' s' Hin).
  - intros j Hj. rewrite (take_in_keys K) in Hj. destruct Hj as [Hj|Hj]; [|apply P4; exact Hj]. rewrite Rk in Hj. apply Sb, Hj.
  - intros j Hj. rewrite (take_in_keys K). right. apply P5, Hj.
Qed.

Lemma part_near c : part c -> forall sites i (m : @site XR G) k (ms : umap site), mirror sites ms -> sites = g_sites g -> ulookup i ms = Some m -> In i (c_siteIds c) ->
  k = i \/ In k (s_neighIds m) -> near c k.
Proof.
  intros P sites i m k ms [_ Mi] -> Em Hi Hk. apply ukeys_In in Hi. destruct Hi as [x Ex]. exists i, x. split; [apply ulookup_In, Ex|].
  destruct (Mi i m Em) as (s & Es & E1). destruct (proj2 (p_mir _ P) i x Ex) as (s' & Es' & E2). assert (s' = s) by congruence. subst s'.
  unfold s_neighIds in *. destruct Hk as [Hk|Hk]; [left; exact Hk|right]. congruence.
Qed.
(** the clusters still to be absorbed are untouched *)
Record gathering (todo : list Z) (gx : @world XR G) : Prop := {
  w_heap : g_heap gx = h; w_nd : NoDup (ukeys (g_clusters gx));
  w_todo : forall c, In c todo -> c <> fav /\ exists b, ulookup c (g_clusters gx) = Some b /\ forall j, In j (c_siteIds b) -> In j B;
  w_rest : forall c y, c <> fav -> ulookup c (g_clusters gx) = Some y -> ulookup c (g_clusters g) = Some y;
  w_fav : exists a', ulookup fav (g_clusters gx) = Some a' /\ part a' /\ lively lo hi (near a') T a' /\ c_prev a' = c_visits a' }.
Lemma absorb_ends c todo gx : ~ In c todo -> gathering (c :: todo) gx -> ends (fun f => absorb f fav c) gx (fun _ g' => gathering todo g').
Proof.
  intros Nc [W1 W2 W3 W4 (a' & Wa & Pa & La & Va)]. destruct (W3 c (or_introl eq_refl)) as (Nf & b & Wb & Sb).
  pose proof (W4 c b Nf Wb) as Eb. destruct (a_cl _ _ _ _ A c b Eb) as (_ & Lb).
  pose proof (part_take a' c b Pa Eb Sb) as Pa1.
  set (a1 := c_with_sites _ a') in Pa1.
  assert (Na : forall k, near a' k -> near a1 k).
  { intros k (i & m & Hi & Hk). apply (part_near a1 Pa1 (g_sites g) i m k _ (p_mir _ Pa) eq_refl); [apply (In_ulookup _ _ _ (proj1 (p_mir _ Pa)) Hi)| |exact Hk].
    unfold c_siteIds, a1. cbn [c_sites c_with_sites]. rewrite (take_in_keys K). right. apply (in_map fst _ (i, m)), Hi. }
  pose proof (cluster_mirror g c b (a_shape _ _ _ _ A) Eb) as Mb.
  assert (Nb : forall k, near b k -> near a1 k).
  { intros k (i & m & Hi & Hk). apply (part_near a1 Pa1 (g_sites g) i m k _ Mb eq_refl); [apply (In_ulookup _ _ _ (proj1 Mb) Hi)| |exact Hk].
    unfold c_siteIds, a1. cbn [c_sites c_with_sites]. rewrite (take_in_keys K). left. rewrite (proj1 (relabelled_alikes _ _)). apply (in_map fst _ (i, m)), Hi. }
  destruct (migrate_live h lo hi (near a1) Hlo Hhi T a' b HF (lively_more lo hi _ _ T a' Na La) Va (lively_more lo hi _ _ T b Nb Lb) (part_firm _ Pa1)
    (proj1 (near_home _ _ _ _ _ (p_home _ Pa1)))) as (f & [] & p & Em & Lp & Vp & Sp).
  set (g' := g_with_clusters (uremove c (ureplace c (snd p) (ureplace fav (fst p) (g_clusters gx)))) gx).
  exists f, tt, g'.
  assert (Run : absorb f fav c gx = Ret tt g').
  { unfold absorb. unfold bind at 1. rewrite (cluster_run fav a' gx Wa). unfold bind at 1. rewrite (cluster_run c b gx Wb).
    unfold bind at 1, gets at 1. unfold bind at 1, local at 1. rewrite W1, Em. cbn [fst snd].
    unfold bind at 1, in_clusters at 1, zoom. rewrite modify_eq. unfold bind at 1, in_clusters at 1, zoom. rewrite modify_eq.
    unfold in_clusters, zoom, cc_erase. rewrite modify_eq. reflexivity. }
  split; [exact Run|]. apply absorb_inv in Run; [|auto|exact W2].
  destruct Run as (a2 & b2 & p2 & Ea2 & Eb2 & Em2 & m & -> & NDm & Lm). assert (a2 = a') by congruence. assert (b2 = b) by congruence. subst a2 b2.
  assert (p2 = p) by (rewrite W1 in Em2; congruence). subst p2.
  constructor; cbn [g_heap g_clusters g_with_clusters]; auto.
  - intros x Hx. destruct (W3 x (or_intror Hx)) as (Nx & y & Ey & Sy). split; [exact Nx|]. exists y. split; [|exact Sy]. rewrite Lm.
    destruct (Z.eqb_spec x c) as [->|]; [contradiction|]. destruct (Z.eqb_spec x fav); [contradiction|exact Ey].
  - intros x y Nx Ey. rewrite Lm in Ey. destruct (x =? c)%Z; [discriminate|]. destruct (Z.eqb_spec x fav); [contradiction|]. apply (W4 x y Nx Ey).
  - exists (fst p). rewrite Lm, Z.eqb_refl. destruct (Z.eqb_spec fav c); [congruence|]. split; [reflexivity|]. split.
    + apply (part_core _ _ Pa1 Sp).
    + split; [|exact Vp]. apply (lively_more lo hi (near a1)); [apply near_sites, (sc_sites _ _ Sp)|exact Lp].
Qed.
Lemma absorbs_ends todo : NoDup todo -> forall gx, gathering todo gx -> ends (fun f => mfor todo (absorb f fav)) gx (fun _ g' => gathering [] g').
Proof.
  induction todo as [|c todo IH]; intros ND gx W; cbn [mfor].
  - apply (ends_const (ret tt) gx tt gx); [reflexivity|exact W].
  - inversion ND; subst. apply (ends_bind (fun f => absorb f fav c) (fun f _ => mfor todo (absorb f fav))).
    + apply absorb_lasting.
    + intros _. apply (lasting_mfor (fun f => absorb f fav)). intros x. apply absorb_lasting.
    + eapply ends_weaken; [|apply (absorb_ends c todo gx); assumption]. intros u g' W'. apply IH; assumption.
Qed.
End Gather.

Lemma alive_made T g g' k B c : alive lo hi T g -> shape g' -> made g g' k B c -> grain g g' -> tight (g_heap g) (g_sites g) B ->
  (forall x y, ulookup x (g_clusters g') = Some y -> homely (g_heap g) lo hi (place g) y /\ lively lo hi (near y) T y) -> alive lo hi T g'.
Proof.
  intros A Sh' Md Gr TB Hc. pose proof (r_heap _ _ Gr) as Eh.
  assert (Pk : forall j, place g j -> place g' j) by (intros j; unfold place; rewrite (r_keys _ _ Gr); auto).
  destruct (solid_made _ _ _ _ _ (a_shape _ _ _ _ A) (a_solid _ _ _ _ A) Md Eh (h_nds _ _ _ Sh') TB) as (So' & _).
  constructor; [exact Sh'|exact So'| |].
  - intros j s Es. rewrite (d_label _ _ _ _ _ Md) in Es. rewrite Eh.
    assert (X : exists s0, ulookup j (g_sites g) = Some s0 /\ alike s0 s).
    { destruct (existsb _ _); [|exists s; split; [exact Es|apply alike_refl]].
      destruct (ulookup j (g_sites g)) as [s0|]; [|discriminate]. injection Es as <-. exists s0. split; [reflexivity|]. unfold alike; auto. }
    destruct X as (s0 & E0 & Al). destruct (a_site _ _ _ _ A j s0 E0) as (P1 & P2 & P3').
    split; [eapply alike_ok; eauto|]. split; [eapply alike_paced; eauto|]. rewrite (alike_ids _ _ Al). auto.
  - intros x y Ey. rewrite Eh. destruct (Hc x y Ey) as (P1 & P2). split; [eapply homely_more; eauto | exact P2].
Qed.

Lemma merge_ends T g k B sac : alive lo hi T g -> rests g -> fits (most_gain lo hi) T -> tight (g_heap g) (g_sites g) B ->
  In k B -> (forall j, In j B -> clos_refl_trans Z (hop_in (g_sites g) B) k j) -> NoDup (ukeys sac) ->
  (forall j, In j B -> exists s, ulookup j (g_sites g) = Some s /\ ulookup j sac = Some (s_cluster s)) ->
  (forall j, ~ In j B -> ulookup j sac = None) -> count_clusters sac <> 1%nat ->
  ends (fun f => merge_clusters f sac (favored sac)) g
    (fun _ g' => alive lo hi T g' /\ rests g' /\ made g g' k B (favored sac) /\ grain g g').
Proof.
  intros A Rs HF TB Hk Re NDs A1 A2 Cn. pose proof (a_shape _ _ _ _ A) as Sh. pose proof (a_solid _ _ _ _ A) as So.
  set (fav := favored sac) in *.
  assert (Hsac : forall j c, ulookup j sac = Some c -> In j B /\ exists s, ulookup j (g_sites g) = Some s /\ c = s_cluster s).
  { intros j c Ej. destruct (in_dec Z.eq_dec j B) as [Hj|Hj]; [|rewrite (A2 j Hj) in Ej; discriminate].
    split; [exact Hj|]. destruct (A1 j Hj) as (s & Es & E2). exists s. split; [exact Es|congruence]. }
  assert (Nn : sac <> []) by (intros X; destruct (A1 k Hk) as (s & _ & E); rewrite X in E; discriminate).
  pose proof (count_more sac Nn Cn) as More.
  assert (Hfav : In fav (map snd sac) /\ fav <> unassignedId).
  { destruct (favored_smallest sac) as [[_ X]|(X & Y & _)]; [|auto]. exfalso. destruct (More unassignedId) as (e & He & Ne).
    apply Ne, X. apply in_map, He. }
  destruct Hfav as [Hf Fu]. apply in_map_iff in Hf. destruct Hf as ([jf cf] & X & Hjf). cbn [snd] in X. subst cf.
  apply (In_ulookup _ _ _ NDs) in Hjf. destruct (Hsac jf fav Hjf) as (HjB & sf & Esf & Ef).
  assert (Lab : forall j s, ulookup j (g_sites g) = Some s -> s_cluster s <> unassignedId -> holds g (s_cluster s) j) by apply (o_label _ So).
  assert (Nf : s_cluster sf <> unassignedId) by (rewrite <- Ef; exact Fu).
  pose proof (Lab jf sf Esf Nf) as Hhf. rewrite <- Ef in Hhf.
  (* a cluster with a site in the basin is inside it *)
  assert (Sub : forall x j, (exists i, In i B /\ holds g x i) -> holds g x j -> In j B).
  { intros x j Tx Hj. destruct (o_set _ So x j Hj) as (S & HS & TS). destruct TS as [_ JA (L & CA & EA) _]. pose proof TB as [_ JB (M & CB & EB) _].
    pose proof (o_good _ So) as Hg.
    destruct (laminar _ _ Hg S B L M JA JB CA CB (crossing_nonneg _ _ Hg _ _ CA) (crossing_nonneg _ _ Hg _ _ CB) EA EB) as [X|[X|X]].
    - exfalso. destruct Tx as (i & Hi & Hx). apply (X i); [apply HS, Hx|exact Hi].
    - apply X, HS, Hj.
    - exfalso. destruct (More x) as ([i y] & Hi & Ny). cbn [snd] in Ny. apply (In_ulookup _ _ _ NDs) in Hi. destruct (Hsac i y Hi) as (HiB & s & Es & ->).
      pose proof (proj1 (HS i) (X i HiB)) as [m Hm]. destruct (h_mem _ _ _ Sh _ _ _ Hm) as (s' & Es' & Nu & _). assert (s' = s) by congruence. subst s'.
      destruct (Lab i s Es Nu) as (m' & Hm'). apply Ny, (h_disj _ _ _ Sh _ _ _ _ _ Hm' Hm). }
  destruct (holds_some g fav jf Hhf) as [a Ea].
  (* the scan *)
  destruct (scan_run fav sac [] [] g NDs) as ([iso cids] & g1 & Esc & Eiso).
  { eapply ulookup_In_key; exact Ea. }
  { intros j Hj. apply ukeys_In in Hj. destruct Hj as [c Ec]. destruct (Hsac j c Ec) as (_ & s & Es & _). exists s. split; [exact Es|apply (h_site _ _ _ Sh j s Es)]. }
  destruct (scan_inv clk fav sac Fu [] [] g (iso, cids) g1 NDs (NoDup_nil _) Esc) as (R & I1 & C1 & NDc). cbn [fst snd map app ukeys] in *.
  (* the isolated sites *)
  set (un := filter (fun e => negb (snd e =? fav)%Z && (snd e =? unassignedId)%Z) sac) in *.
  rewrite <- (map_map fst Some) in Eiso.
  assert (Hun : forall j, In j (map fst un) -> exists s, ulookup j (g_sites g) = Some s /\ s_cluster s = unassignedId).
  { intros j Hj. apply in_map_iff in Hj. destruct Hj as ([j' c] & <- & Hj). subst un. apply filter_In in Hj. destruct Hj as [Hj Hc]. cbn [fst snd] in *.
    apply andb_true_iff in Hc. destruct Hc as [_ Hc]. apply Z.eqb_eq in Hc. subst c. apply (In_ulookup _ _ _ NDs) in Hj.
    destruct (Hsac _ _ Hj) as (_ & s & Es & E). exists s. split; [exact Es | symmetry; exact E]. }
  destruct (h_cl _ _ _ Sh fav a Ea) as (Ia & Ra & NDa & _).
  destruct (addSites_run iso a (map fst un) Eiso) as (a1 & Ea1).
  { subst un. clear - NDs. clearbody fav. induction sac as [|e l IH]; cbn [filter]; [constructor|]. cbn [ukeys map] in NDs. inversion NDs; subst.
    destruct (_ && _); [|apply IH; assumption]. cbn [map]. constructor; [|apply IH; assumption].
    intros X. apply H1. apply in_map_iff in X. destruct X as (y & Ey & Hy). apply filter_In in Hy. apply in_map_iff. exists y. tauto. }
  { intros j Hj Hm. destruct (Hun j Hj) as (s & Es & Eu). apply ukeys_In in Hm. destruct Hm as [x Ex].
    destruct (h_mem _ _ _ Sh fav j x (ex_intro _ a (conj Ea Ex))) as (s' & Es' & Nu & _). congruence. }
  destruct (addSites_inv _ _ _ Ea1) as (m & Em & Hm). specialize (Hm NDa). destruct Hm as (NDm & Hin & Hout & Hold).
  destruct (a_cl _ _ _ _ A fav a Ea) as (Hoa & Lva). pose proof (cluster_mirror g fav a Sh Ea) as Mia.
  assert (From : forall j x, ulookup j m = Some x -> ulookup j (c_sites a) = Some x \/
                   exists s, ulookup j (g_sites g) = Some s /\ In j B /\ alike s x).
  { intros j x Ex. destruct (Hout j x Ex) as [X|(s & Hs & Ei & ->)]; [left; exact X|right]. apply I1 in Hs. destruct Hs as [[]|(j' & Hj' & Es)].
    destruct (h_site _ _ _ Sh j' s Es) as [Ei' _]. assert (j' = j) by congruence. subst j'. exists s. split; [exact Es|].
    apply (In_ulookup _ _ _ NDs) in Hj'. split; [apply (Hsac j _ Hj')|]. unfold alike; auto. }
  assert (Subs : forall x cl, ulookup x (g_clusters g) = Some cl -> (exists i, In i B /\ holds g x i) -> forall j, In j (c_siteIds cl) -> In j B).
  { intros x cl Ex Tx j Hj. apply (Sub x j Tx). apply (cluster_keys g x cl j Ex), Hj. }
  assert (P1 : part g B fav a a1).
  { rewrite Em. constructor; unfold c_siteIds; cbn [c_id c_sites c_with_sites c_remaining]; auto.
    - constructor; cbn [c_sites c_with_sites].
      + split; [exact NDm|]. intros j x Hx. apply (In_ulookup _ _ _ NDm) in Hx. destruct (From j x Hx) as [X|(s & Es & _ & Al)].
        * apply (proj2 (hm_mem _ _ _ _ _ Hoa) j x). apply ulookup_In, X.
        * eapply alike_ok; [exact Al|]. apply (a_site _ _ _ _ A j s Es).
      + intros j x Hx. apply (In_ulookup _ _ _ NDm) in Hx. destruct (From j x Hx) as [X|(s & Es & _ & Al)].
        * apply (hm_in _ _ _ _ _ Hoa j x). apply ulookup_In, X.
        * destruct (a_site _ _ _ _ A j s Es) as (_ & Y1 & Y2). split; [eapply alike_paced; eauto|]. split; [eapply ulookup_In_key; exact Es|].
          rewrite (alike_ids _ _ Al). exact Y2.
    - split; [exact NDm|]. intros j x Ex. destruct (From j x Ex) as [X|(s & Es & _ & Al)]; [apply (proj2 Mia j x X)|]. exists s. split; [exact Es|]. apply Al.
    - intros j Hj. apply ukeys_In in Hj. destruct Hj as [x Ex]. destruct (From j x Ex) as [X|(s & Es & Y & _)]; [|exact Y].
      apply (Subs fav a Ea); [exists jf; auto|]. eapply ulookup_In_key; exact X.
    - intros j Hj. apply ukeys_In in Hj. destruct Hj as [x Ex]. apply Hold in Ex. eapply ulookup_In_key; exact Ex. }
  destruct Lva as [L1 L2 L3 L4 L5 L6 L7 L8 L9 L10 L11].
  assert (Up : ends (fun f => c_update f (g_heap g)) a1 (fun _ c' => same_core a1 c' /\ lively lo hi (near c') T c' /\ c_prev c' = c_visits c')).
  { pose proof (part_firm T g B fav a A TB Ea a1 P1) as Fi. pose proof (proj1 (near_home _ _ _ _ _ (p_home _ _ _ _ _ P1))) as Ho.
    assert (Na : forall k, near a k -> near a1 k).
    { intros k' (i & x & Hi & Hk'). exists i, x. split; [|exact Hk']. apply (In_ulookup _ _ _ NDa) in Hi. apply ulookup_In. rewrite Em. cbn [c_sites c_with_sites]. apply Hold, Hi. }
    apply (ends_weaken _ _ (fun _ c' => same_core a1 c' /\ lively lo hi (near a1) T c' /\ c_prev c' = c_visits c')); [intros u c' (Sc & Lv & Pv); split; [exact Sc|split; [|exact Pv]]; apply (lively_more lo hi (near a1)); [apply near_sites, (sc_sites _ _ Sc)|exact Lv]|].
    apply (covers_more _ _ _ Na) in L2, L3.
    rewrite Em in *.
    apply (update_live (g_heap g) lo hi (near (c_with_sites m a)) Hlo Hhi T _ HF); cbn [c_svisits c_prev c_visits c_cint c_cnbr c_res c_method c_tol c_remaining c_with_sites]; auto.
    - apply (tidy_core a); auto. intros j Hj. apply ukeys_In in Hj. destruct Hj as [x Ex]. apply Hold in Ex. eapply ulookup_In_key; exact Ex.
    - destruct L9 as [D1 D2 D3 D4 D5]. constructor; try assumption. destruct D4 as [E|D4]; [left; exact E|right]. intros j Hj. destruct (D4 j Hj) as (x & Hx & Hb).
      exists x. split; [|exact Hb]. destruct Hx as (s & d & p & ts & t0 & r1 & E1 & Hx). exists s, d, p, ts, t0, r1. cbn [c_sites c_with_sites]. split; [apply Hold, E1|exact Hx].
    - intros X. exfalso. assert (Y : In jf (ukeys (c_svisits a))) by (apply L8; apply (cluster_keys g fav a jf Ea), Hhf). rewrite X in Y. exact Y. }
  destruct Up as (f0 & [] & a2 & Eu & Sc & Lv2 & Pv2).
  pose proof (part_core _ _ _ _ _ _ P1 Sc) as P2.
  set (m3 := ureplace fav a2 (ureplace fav a1 (g_clusters g1))).
  set (g3 := g_with_clusters m3 g1).
  assert (Ea' : ulookup fav (g_clusters g1) = Some a) by (rewrite (b_clusters _ _ _ _ R); exact Ea).
  assert (L3' : forall x, ulookup x m3 = if (x =? fav)%Z then Some a2 else ulookup x (g_clusters g)).
  { intros x. subst m3. rewrite (SystemShape.ureplace_lookup_some _ _ _ a1), (SystemShape.ureplace_lookup_some _ _ _ a), (b_clusters _ _ _ _ R).
    - destruct (x =? fav)%Z; reflexivity.
    - exact Ea'.
    - rewrite (SystemShape.ureplace_lookup_some _ _ _ a), Z.eqb_refl by exact Ea'. reflexivity. }
  assert (W : gathering T g B fav a (ukeys cids) g3).
  { constructor; cbn [g_heap g_clusters g_with_clusters g3].
    - apply (b_heap _ _ _ _ R).
    - subst m3. rewrite !ureplace_keys, (b_clusters _ _ _ _ R). apply Sh.
    - intros c Hc. apply C1 in Hc. destruct Hc as [[]|((j & Hj) & Nc & Nu)]. split; [exact Nc|].
      apply (In_ulookup _ _ _ NDs) in Hj. destruct (Hsac j c Hj) as (HjB' & s & Es & ->). pose proof (Lab j s Es Nu) as Hh.
      destruct (holds_some g _ j Hh) as [b Eb]. exists b. rewrite L3'. apply Z.eqb_neq in Nc. rewrite Nc. split; [exact Eb|].
      apply (Subs _ b Eb). exists j; auto.
    - intros c y Nc Ey. rewrite L3' in Ey. apply Z.eqb_neq in Nc. rewrite Nc in Ey. exact Ey.
    - exists a2. rewrite L3', Z.eqb_refl. auto. }
  destruct (absorbs_ends T g B fav a A HF TB Ea (ukeys cids) NDc g3 W) as (f1 & [] & g' & Eabs & W').
  pose proof (lasting_ret _ f0 (max f0 f1) _ _ _ (update_lasting (g_heap g)) (Nat.le_max_l _ _) Eu) as Eu'.
  assert (La : lasting (fun f => mfor (ukeys cids) (@absorb I XR G f fav))) by (apply (lasting_mfor (fun f => absorb f fav)); intros x; apply absorb_lasting).
  pose proof (lasting_ret _ f1 (max f0 f1) _ _ _ La (Nat.le_max_r _ _) Eabs) as Eabs'. cbn beta in Eu', Eabs'.
  set (f := max f0 f1) in *.
  assert (Run : merge_clusters f sac fav g = Ret tt g').
  { unfold merge_clusters. unfold bind at 1. rewrite Esc. cbn [fst snd]. unfold bind at 1, gets at 1. rewrite (b_heap _ _ _ _ R).
    unfold bind at 1, in_clusters at 1, zoom, at_key. rewrite Ea', Ea1. cbn [g_clusters g_with_clusters].
    unfold bind at 1, in_clusters at 1, zoom, at_key. cbn [g_clusters g_with_clusters].
    rewrite (SystemShape.ureplace_lookup_some _ _ _ a), Z.eqb_refl by exact Ea'. rewrite Eu'. fold m3. exact Eabs'. }
  exists f, tt, g'. split; [exact Run|].
  assert (Sm : forall j c, ulookup j sac = Some c -> c <> unassignedId -> (fav <= c)%Z) by (intros j c Ej Nc; apply (favored_le _ _ _ Ej Nc)).
  destruct (merge_shape clk f sac fav g g' Sh NDs (fun j c Ej => proj2 (Hsac j c Ej)) Sm Run) as [Sh' Gr].
  pose proof (merge_made clk f k B sac g g' Sh (t_nd _ _ _ TB) Hk Re NDs A1 A2 Cn Run) as Md.
  destruct W' as [_ _ _ W4 (a' & Wa & Pa & Lva' & _)].
  assert (Cl : forall x y, ulookup x (g_clusters g') = Some y -> (homely (g_heap g) lo hi (place g) y /\ lively lo hi (near y) T y) /\ rested y).
  { intros x y Ey. destruct (Z.eq_dec x fav) as [->|Nx].
    - assert (y = a') by congruence. subst y. split; [split; [apply (p_home _ _ _ _ _ Pa)|exact Lva']|].
      unfold rested. rewrite (p_rem _ _ _ _ _ Pa). apply (Rs fav a Ea).
    - pose proof (W4 x y Nx Ey) as Ey'. split; [apply (a_cl _ _ _ _ A x y Ey')|apply (Rs x y Ey')]. }
  split; [|split; [|split; [exact Md | exact Gr]]].
  - apply (alive_made T g g' k B fav A Sh' Md Gr TB). intros x y Ey. apply (Cl x y Ey).
  - intros x y Ey. apply (Cl x y Ey).
Qed.

(** ** The attempt *)
(** what an attempt keeps *)
Record calmly (g g' : @world XR G) : Prop := {
  y_walkers : g_walkers g' = g_walkers g; y_keys : ukeys (g_sites g') = ukeys (g_sites g); y_heap : g_heap g' = g_heap g;
  y_perf : g_perf g' = g_perf g; y_res : g_res g' = g_res g; y_thr : g_thr g' = g_thr g; y_thrmin : g_thrmin g' = g_thrmin g;
  y_neigh : forall k, option_map s_neigh (ulookup k (g_sites g')) = option_map s_neigh (ulookup k (g_sites g));
  y_holds : forall c i j, holds g c i -> holds g c j -> exists c', holds g' c' i /\ holds g' c' j }.
Lemma grain_calmly (g g' : @world XR G) n k B c : grain (g_with_tick n g) g' -> made (g_with_tick n g) g' k B c -> calmly g g'.
Proof.
  intros [] Md. constructor; auto.
  - intros j. rewrite (d_label _ _ _ _ _ Md). change (g_sites (g_with_tick n g)) with (g_sites g).
    destruct (existsb _ _); [|reflexivity]. destruct (ulookup j (g_sites g)); reflexivity.
  - intros x i j [m Hm] [m' Hm']. destruct (r_together x) as [c' X]. exists c'.
    destruct (X i m Hm) as [y Hy]. destruct (X j m' Hm') as [y' Hy']. split; [exists y; exact Hy|exists y'; exact Hy'].
Qed.
Lemma coarse_ends T g k rho tr : alive lo hi T g -> rests g -> fits (most_gain lo hi) T -> loopless g -> place g k ->
  g_perf g = Fin rho -> 1 / 2 <= rho -> g_res g = Some (Fin tr) -> 0 < tr ->
  ends (fun f => coarse_grain clk f k) g (fun _ g' => alive lo hi T g' /\ rests g' /\ calmly g g').
Proof.
  intros A Rs HF Ll Pk Ep Hr Er Htr. pose proof (a_shape _ _ _ _ A) as Sh. pose proof (a_solid _ _ _ _ A) as So. pose proof (o_good _ So) as Hg.
  set (g0 := g_with_tick (g_tick g + 1) g).
  assert (A0 : alive lo hi T g0) by (apply alive_tick; [exact clk | exact A]).
  assert (Rs0 : rests g0) by exact Rs.
  destruct (proj1 (ukeys_In _ _) Pk) as [s Es].
  destruct (search_any (g_heap g) (g_sites g) k (h_nds _ _ _ Sh) (g_clusters g) s explorer_new (g_tick g) (ulookup_In _ _ _ Es)) as (n & L & HL & Fb).
  { intros P. destruct (h_site _ _ _ Sh k s Es) as [_ [X|_]]; [exfalso; rewrite X in P; unfold unassignedId, INT_MIN in P; lia|].
    destruct (Z.eq_dec (s_cluster s) unassignedId) as [X|X]; [rewrite X in P; unfold unassignedId, INT_MIN in P; lia|].
    apply (holds_some g _ k), (o_label _ So k s Es X). }
  assert (Kn : forall j, In j L -> place g j).
  { destruct HL as [->|(_ & _ & _ & Hre)]; [intros j []|]. intros j Hj. specialize (Hre j Hj). apply clos_rt_rtn1 in Hre.
    destruct Hre as [|y z (_ & _ & s' & Hs' & Hn) _]; [exact Pk|].
    apply (In_ulookup _ _ _ (h_nds _ _ _ Sh)) in Hs'. apply (a_site _ _ _ _ A y s' Hs'), Hn. }
  set (limit := internal_limit (g_tick g) (g_heap g) (g_sites g) L).
  assert (Eq : exists b, equilibrium L limit g0 = Ret b g0).
  { unfold equilibrium, bind, gets. cbn [g_heap g_sites g_perf g_res g_with_tick g0]. rewrite (exit_time_ok _ _ Hg L Kn). cbn [lift]. unfold ret.
    rewrite Er. destruct (nltb _ _); eexists; reflexivity. }
  destruct Eq as [b Eq].
  assert (Cf : forall f, (n <= f)%nat -> coarse_grain clk f k g =
     (ok <- equilibrium L limit ;;
      if ok : bool then
        sac <- clusters_of L [] ;;
        let n := count_clusters sac in
        if Nat.eqb n 1 && match sac with (_, c) :: _ => (c =? unassignedId)%Z | [] => false end then
          create_cluster clk f L limit ;; ret true
        else if negb (Nat.eqb n 1) then merge_clusters f sac (favored sac) ;; ret true
        else ret false
      else ret false) g0).
  { intros f Hf. unfold coarse_grain. unfold bind at 1, next_tick. unfold bind at 1, gets at 1.
    fold g0. change (g_heap g0) with (g_heap g). change (g_sites g0) with (g_sites g). change (g_clusters g0) with (g_clusters g).
    unfold bind at 1. rewrite (Fb f Hf). cbn [lift]. reflexivity. }
  assert (Cg : calmly g g0) by (constructor; try reflexivity; intros x i j Hi Hj; exists x; auto).
  destruct b.
  2:{ exists n, false, g0. split; [|auto]. rewrite (Cf n (le_n _)). unfold bind. rewrite Eq. reflexivity. }
  (* the condition holds *)
  destruct (balance_inv _ _ _ Eq) as (tc & t & F1 & F2 & F3 & F4).
  assert (Bal : in_balance g (g_tick g) L) by (exists tc, t; auto).
  assert (NDL : NoDup L) by (destruct HL as [->|(X & _)]; [constructor|exact X]).
  destruct (balance_real g _ L rho tr Hg NDL Kn Ep ltac:(lra) Er Bal) as (M & Cr & M0 & X0 & _).
  destruct HL as [->|(_ & HkL & _ & Hre)]; [exfalso; unfold leaving in X0; cbn [Rsum] in X0; lra|].
  pose proof (balance_tight g k L rho tr So NDL HkL Kn Hre Ep Hr Er Bal) as TB.
  destruct (limit_crossing _ _ Hg (g_tick g) L NDL) as (L0 & L00 & _ & _ & Lj). specialize (Lj (t_joined _ _ _ TB)). fold limit in Lj.
  destruct (clusters_of_run L g0 Kn []) as (sac & Esac).
  destruct (clusters_of_inv L [] g0 sac g0 (a_shape _ _ _ _ A0) (NoDup_nil _) Esac) as (_ & NDs & A1 & A2). cbn [ulookup] in A2.
  change (g_sites g0) with (g_sites g) in A1.
  assert (Cf' : forall f, (n <= f)%nat -> coarse_grain clk f k g =
     (if Nat.eqb (count_clusters sac) 1 && match sac with (_, c) :: _ => (c =? unassignedId)%Z | [] => false end then
          create_cluster clk f L limit ;; ret true
        else if negb (Nat.eqb (count_clusters sac) 1) then merge_clusters f sac (favored sac) ;; ret true
        else ret false) g0).
  { intros f Hf. rewrite (Cf f Hf). unfold bind at 1. rewrite Eq. unfold bind at 1. rewrite Esac. reflexivity. }
  destruct (Nat.eqb_spec (count_clusters sac) 1) as [Ec|Nc]; cbn [negb andb] in Cf'.
  - destruct sac as [|[k0 c0] l] eqn:El; [exists n, false, g0; split; [apply (Cf' n (le_n _))|auto]|]. rewrite <- El in *.
    destruct (Z.eqb_spec c0 unassignedId) as [->|Nu]; [|exists n, false, g0; split; [apply (Cf' n (le_n _))|auto]].
    assert (Un : forall j, In j L -> exists s, ulookup j (g_sites g) = Some s /\ s_cluster s = unassignedId).
    { intros j Hj. destruct (A1 j Hj) as (s' & Es' & E'). exists s'. split; [exact Es'|].
      apply (count_one clk sac k0 unassignedId Ec) with (k' := j); [rewrite El; left; reflexivity|apply ulookup_In, E']. }
    assert (Tw : exists i j, i <> j /\ In i L /\ In j L).
    { destruct L as [|x [|y l']]; [destruct HkL| |].
      - exfalso. destruct HkL as [->|[]]. destruct (Un k (or_introl eq_refl)) as (s' & Es' & Eu). assert (s' = s) by congruence. subst s'.
        destruct (fastest_site (g_heap g) (g_sites g) Hg k s (ulookup_In _ _ _ Es)) as (f & _ & Htop & _).
        destruct (search_ok (g_heap g) (g_sites g) (g_clusters g) k f (g_tick g) 5 Hg (h_ndc _ _ _ Sh)) as (n' & L' & Bs & Fb').
        { exists s. split; [apply ulookup_In, Es|]. rewrite Eu. exact Htop. }
        specialize (Fb' (max n n') (95 / 100) (Nat.le_max_r _ _) ltac:(lra)). specialize (Fb (max n n') (Nat.le_max_l _ _)).
        change explorer_new with (mkExplorer (Fin (95 / 100) : @num XR) 5) in Fb. rewrite Fb in Fb'. injection Fb' as <-.
        destruct Bs as [[X _]|(_ & _ & _ & _ & Cl)]; [discriminate|].
        unfold leaving in X0. cbn [Rsum] in X0. unfold rates_out in X0. rewrite Es in X0. rewrite Rplus_0_r in X0. destruct (Rsum_some _ _ X0) as ([j a] & Ha & Pj). cbn [fst snd] in Pj.
        assert (Rb : exists r, rate_between (g_heap g) (g_sites g) k j r).
        { destruct (proj2 (proj2 Hg k s (ulookup_In _ _ _ Es)) j a Ha) as (r & E & _). exists r, s, a. split; [apply ulookup_In, Es|auto]. }
        destruct Rb as [r Rb].
        destruct Htop as [[_ No]|((j' & Rj) & _)]; [apply (No r); exists j; exact Rb|].
        assert (Nj : ~ In j' [k]).
        { intros [<-|[]]. destruct Rj as (s' & a' & Hs' & Ha' & _). apply (In_ulookup _ _ _ (h_nds _ _ _ Sh)) in Hs'. apply (Ll k s' Hs'). apply (in_map fst) in Ha'. exact Ha'. }
        pose proof (Cl k j' f (or_introl eq_refl) Rj Nj) as Lt. destruct Rj as (s' & a' & Hs' & Ha' & Ef).
        destruct (proj2 (proj2 Hg k s' Hs') j' a' Ha') as (r' & Er' & Pr'). assert (r' = f) by congruence. subst r'. lra.
      - exists x, y. inversion NDL as [|? ? Nx _]; subst. split; [intros ->; apply Nx; left; reflexivity|]. split; [left; reflexivity|right; left; reflexivity]. }
    destruct (create_ends T g0 k L L0 tr A0 Rs0 HF TB Tw HkL Hre Un L00 Er Htr) as (f & [] & g' & Run & A' & Rs' & Md & Gr).
    exists (max n f), true, g'. split.
    + rewrite (Cf' _ (Nat.le_max_l _ _)). unfold bind. rewrite Lj.
      rewrite (lasting_ret _ f (max n f) _ _ _ (create_lasting clk L (Fin L0 : @num XR)) (Nat.le_max_r _ _) Run). reflexivity.
    + split; [exact A'|]. split; [exact Rs'|]. eapply grain_calmly; eassumption.
  - destruct (merge_ends T g0 k L sac A0 Rs0 HF TB HkL Hre NDs A1 A2 Nc) as (f & [] & g' & Run & A' & Rs' & Md & Gr).
    exists (max n f), true, g'. split.
    + rewrite (Cf' _ (Nat.le_max_l _ _)). unfold bind.
      rewrite (lasting_ret _ f (max n f) _ _ _ (merge_lasting sac (favored sac)) (Nat.le_max_r _ _) Run). reflexivity.
    + split; [exact A'|]. split; [exact Rs'|]. eapply grain_calmly; eassumption.
Qed.
End Grow.
