(** * Several systems in one program *)
From Coq Require Import ZArith List Bool Reals Lia.
From Verif Require Import Base BaseProofs Num WalkerModel SiteModel SiteSpec ClusterModel ContainerModel BasinModel BasinSpec
  SystemModel SystemSpec SystemShape SystemHop SystemProofs SystemFacts SystemControl SystemInit SystemEffect SystemDrain SystemRuns ReportSpec ManySpec.
Import ListNotations.
Open Scope Z_scope.

Section Many.
Context {I : Impl} {N : Num} {G : Rng} {U : Ugly}.
Variable clk : Z -> Z.

(** ** What a call may change outside its system *)
Lemma step_shared g ws c g' ws' : inv g ws -> library_call c = true -> step clk g ws c g' ws' ->
  g_heap g' = g_heap g /\ g_count g <= g_count g' /\ NoDup (ukeys (g_walkers g')) /\
  (forall p, ~ In p ws -> ~ In p ws' -> ulookup p (g_walkers g') = ulookup p (g_walkers g)) /\
  (forall p, In p ws' -> In p ws \/ exists l, c = KEnter l /\ In p (map snd l)).
Proof.
  intros V Hl S. split.
  { destruct (step_settings clk _ _ _ _ _ V S) as ([X|X] & _); [rewrite X in Hl; discriminate Hl|exact X]. }
  split; [apply (y_count _ _ (step_carried clk _ _ _ _ _ V S))|]. split; [apply (v_ndw _ _ (step_inv clk _ _ _ _ _ V S))|].
  destruct S as [r g' E|t g' E|t g' E|s g' E|rates g' ND NDr E|h|m Hm L|n t Hn|l g' H1 H2 H3 H4 H5 E|fuel id q g' Hq E|id q g' Hq E|k v g' E];
    try discriminate Hl; clear Hl.
  - inversion E; subst. auto.
  - unfold sys_setTimeResolution in E. destruct (nleb t n0); [discriminate|]. inversion E; subst. auto.
  - inversion E; subst. auto.
  - unfold sys_setRandomSeed in E. apply bind_ret_inv in E. destruct E as (f & g1 & E1 & E). inversion E1; subst f g1; clear E1.
    destruct (g_feats g); [|discriminate]. inversion E; subst. auto.
  - destruct (init_all clk _ _ _ _ V ND E) as (Zs & _). split; [destruct Zs; intros; congruence|auto].
  - unfold sys_initializeWalkers in E. apply bind_ret_inv in E. destruct E as (f & g1 & E1 & E). inversion E1; subst f g1; clear E1.
    destruct (g_feats g) as [|f0 f1]; [discriminate|]. destruct (enter_list clk l g g' ws V H1 H2 H3 H4 H5 E) as [A B].
    split; [|intros p Hp; apply in_app_iff in Hp; destruct Hp; [right; eauto|auto]].
    intros p _ Np. apply A. intros X. apply Np, in_app_iff. auto.
  - split; [|auto]. intros p Np _. apply (hop_others clk _ _ _ _ _ _ V Hq E). intros ->. contradiction.
  - destruct (leave_step clk _ _ _ _ _ V Hq E) as (_ & C). split; [|intros p Hp; left; apply in_remove in Hp; tauto].
    intros p _ _. rewrite (k_walkers _ _ (m_kept _ _ C)); reflexivity.
  - split; [|auto]. intros p _ _. apply getVisits_inv in E. destruct E as (s & Es & [(_ & _ & ->)|(_ & cl & cl' & v' & Ec & E & _ & ->)]); reflexivity.
Qed.

(** ** Views *)
Lemma view_self p i g ws : view (mkProgram (g_walkers g) (g_heap g) (g_count g) (g_tick g) (at_name (p_systems p) i g) (at_name (p_inside p) i ws)) i = g.
Proof. unfold view, at_name. cbn. rewrite Z.eqb_refl. destruct g; reflexivity. Qed.
Lemma view_other p i j g ws : j <> i -> g_heap g = p_heap p ->
  view (mkProgram (g_walkers g) (g_heap g) (g_count g) (g_tick g) (at_name (p_systems p) i g) (at_name (p_inside p) i ws)) j =
  g_with_walkers (g_walkers g) (g_with_tick (g_tick g) (g_with_count (g_count g) (view p j))).
Proof. intros Hj Eh. unfold view, at_name. cbn. apply Z.eqb_neq in Hj. rewrite Hj, Eh. destruct (p_systems p j); reflexivity. Qed.
Lemma name_self {V} (f : Z -> V) i v : at_name f i v i = v.
Proof. unfold at_name. rewrite Z.eqb_refl. reflexivity. Qed.
Lemma name_other {V} (f : Z -> V) i v j : j <> i -> at_name f i v j = f j.
Proof. intros Hj. unfold at_name. apply Z.eqb_neq in Hj. rewrite Hj. reflexivity. Qed.

Definition separate (p : program) : Prop := forall i j q, In q (p_inside p i) -> In q (p_inside p j) -> i = j.
Lemma reach_next tr g ws c g' ws' : reach_by clk tr g ws -> step clk g ws c g' ws' -> reach_by clk (tr ++ [c]) g' ws'.
Proof.
  intros (m & h & count & tick & ND & Hc & S) St. exists m, h, count, tick. split; [exact ND|]. split; [exact Hc|]. eapply sts_step; eauto.
Qed.
Lemma reach_by_inv tr g ws : reach_by clk tr g ws -> inv g ws.
Proof. intros R. apply (reach_inv clk). exists tr. exact R. Qed.

(** ** Every system is in a state it could reach alone *)
Lemma alone es p : happened clk es p ->
  separate p /\ forall i, reach_by clk (flat_map (seen_by i) es) (view p i) (p_inside p i).
Proof.
  intros (m & h & count & tick & ND & Hc & Go). induction Go as [|es p e p' Hd [Sp IH] Hs].
  - split; [intros i j q []|]. intros i. exists m, h, count, tick. split; [exact ND|]. split; [exact Hc|]. apply sts_refl.
  - assert (Tail : forall i, flat_map (seen_by i) (es ++ [e]) = flat_map (seen_by i) es ++ seen_by i e)
      by (intros i; rewrite flat_map_app; cbn [flat_map]; rewrite app_nil_r; reflexivity).
    destruct Hs as [i c g ws Hl St Hw|h'|m' NDm L|n t Hn].
    + pose proof (reach_by_inv _ _ _ (IH i)) as V. destruct (step_shared _ _ _ _ _ V Hl St) as (Eh & Hc' & NDw & Lw & _).
      split.
      * intros j j' q. destruct (Z.eq_dec j i) as [->|Nj], (Z.eq_dec j' i) as [->|Nj']; cbn [p_inside];
          rewrite ?name_self, ?name_other by assumption; intros H1 H2; auto.
        -- destruct (Hw q j' H1 Nj' H2).
        -- destruct (Hw q j H2 Nj H1).
        -- apply (Sp j j' q H1 H2).
      * intros j. rewrite Tail. cbn [seen_by]. destruct (Z.eqb_spec i j) as [<-|Nj].
        -- rewrite view_self. cbn [p_inside]. rewrite name_self. eapply reach_next; [apply IH|exact St].
        -- rewrite view_other by (auto; congruence). cbn [p_inside]. rewrite name_other by congruence.
           change [KElsewhere; KWalkers] with ([KElsewhere] ++ [KWalkers] : list call). rewrite app_assoc.
           eapply reach_next; [eapply reach_next; [apply IH|apply st_elsewhere; exact Hc']|].
           apply st_walkers; [exact NDw|]. intros q Hq. cbn. apply Lw.
           ++ intros X. apply Nj. apply (Sp i j q X Hq).
           ++ intros X. apply (Hw q j X); [congruence|exact Hq].
    + split; [exact Sp|]. intros i. rewrite Tail. cbn [seen_by]. eapply reach_next; [apply IH|].
      replace (view (mkProgram (p_walkers p) h' (p_count p) (p_tick p) (p_systems p) (p_inside p)) i) with (g_with_heap h' (view p i)) by (unfold view; cbn; destruct (p_systems p i); reflexivity). apply st_rates.
    + split; [exact Sp|]. intros i. rewrite Tail. cbn [seen_by]. eapply reach_next; [apply IH|].
      replace (view (mkProgram m' (p_heap p) (p_count p) (p_tick p) (p_systems p) (p_inside p)) i) with (g_with_walkers m' (view p i)) by (unfold view; cbn; destruct (p_systems p i); reflexivity). apply st_walkers; [exact NDm|]. intros q Hq. apply (L q i Hq).
    + split; [exact Sp|]. intros i. rewrite Tail. cbn [seen_by]. eapply reach_next; [apply IH|].
      replace (view (mkProgram (p_walkers p) (p_heap p) n t (p_systems p) (p_inside p)) i) with (g_with_tick t (g_with_count n (view p i))) by (unfold view; cbn; destruct (p_systems p i); reflexivity). apply st_elsewhere. exact Hn.
Qed.
Theorem as_if_alone es p : happened clk es p -> forall i, reach_by clk (flat_map (seen_by i) es) (view p i) (p_inside p i).
Proof. intros Hd. apply (alone _ _ Hd). Qed.

(** ** Queries look at the system only *)
Definition alike (g g' : world) : Prop := g_sites g = g_sites g' /\ g_clusters g = g_clusters g' /\ g_feats g = g_feats g'.
Definition own {A} (m : M world A) : Prop := forall g g', alike g g' ->
  match m g, m g' with
  | Ret a h, Ret a' h' => a = a' /\ alike h h'
  | Thr _ _, Thr _ _ => True
  | Halt _, Halt _ => True
  | _, _ => False
  end.
Lemma own_bind {A B} (m : M world A) (f : A -> M world B) : own m -> (forall a, own (f a)) -> own (bind m f).
Proof.
  intros Hm Hf g g' L. unfold bind. specialize (Hm g g' L). destruct (m g) as [a h|e h|x], (m g') as [a' h'|e' h'|x']; try contradiction; auto.
  destruct Hm as [<- L']. apply (Hf a h h' L').
Qed.
Lemma own_ret {A} (a : A) : own (ret a).
Proof. intros g g' L. cbn. auto. Qed.
Lemma own_throw {A} e : own (throw e : M world A).
Proof. intros g g' L. exact Logic.I. Qed.
Lemma own_stop {A} h : own (stop h : M world A).
Proof. intros g g' L. exact Logic.I. Qed.
Lemma own_sites {A} (m : M (umap site) A) : own (in_sites m).
Proof.
  intros g g' (E1 & E2 & E3). unfold in_sites, zoom. rewrite <- E1. destruct (m (g_sites g)); auto. split; [reflexivity|]. repeat split; assumption.
Qed.
Lemma own_clusters {A} (m : M (umap cluster) A) : own (in_clusters m).
Proof.
  intros g g' (E1 & E2 & E3). unfold in_clusters, zoom. rewrite <- E2. destruct (m (g_clusters g)); auto. split; [reflexivity|]. repeat split; assumption.
Qed.
Lemma own_gets {A} (f : world -> A) : (forall g g', alike g g' -> f g = f g') -> own (gets f).
Proof. intros Hf g g' L. cbn. auto. Qed.
Lemma own_answer {A} (m : M world A) g g' a : own m -> alike g g' -> ((exists h, m g = Ret a h) <-> exists h, m g' = Ret a h).
Proof.
  intros Hm L. specialize (Hm g g' L). destruct (m g) as [x h|e h|x], (m g') as [x' h'|e' h'|x']; try contradiction;
    try (split; intros (? & E); discriminate). destruct Hm as [<- _]. split; intros (? & E); inversion E; subst; eauto.
Qed.
Lemma own_getVisits k : own (sys_getVisits k).
Proof.
  unfold sys_getVisits. apply own_bind; [apply own_gets; intros g g' (E & _); exact E|]. intros m. destruct (umem k m); [|apply own_throw].
  apply own_bind; [apply own_sites|]. intros s. apply own_bind; [apply own_sites|]. intros []; [|apply own_ret].
  apply own_bind; [apply own_sites|]. intros c. apply own_bind; [apply own_clusters|]. intros v. apply own_ret.
Qed.
Lemma own_isOccupied k j : own (f_isOccupied k j).
Proof.
  intros g g' L. pose proof L as (E1 & E2 & E3). unfold f_isOccupied, on_feature. apply own_bind; [|intros o|exact L].
  { apply own_gets. intros x y (_ & _ & E). rewrite E. reflexivity. }
  destruct o as [[|s|x]|]; try apply own_sites; try apply own_clusters; try apply own_throw; try apply own_stop; try apply own_ret.
Qed.

(** ** Calls of one system leave the others as they are *)
Theorem untouched es p i c p' : happened clk es p -> happens clk p (On i c) p' ->
  forall j, j <> i ->
    p_inside p' j = p_inside p j /\
    (forall q, In q (p_inside p j) -> ulookup q (p_walkers p') = ulookup q (p_walkers p)) /\
    (forall k x, cluster_of (view p' j) k x <-> cluster_of (view p j) k x) /\
    (forall x k, listed (view p' j) x k <-> listed (view p j) x k) /\
    (forall k v, visits (view p' j) k v <-> visits (view p j) k v) /\
    (forall k b, taken (view p' j) k b <-> taken (view p j) k b) /\
    (forall x t, increment (view p' j) x t <-> increment (view p j) x t) /\
    (forall x t, cluster_resolution (view p' j) x t <-> cluster_resolution (view p j) x t).
Proof.
  intros Hd Hs j Nj. destruct (alone _ _ Hd) as [Sp Al]. inversion Hs as [i0 c0 g ws Hl St Hw| | |]; subst.
  destruct (step_shared _ _ _ _ _ (reach_by_inv _ _ _ (Al i)) Hl St) as (Eh & Hc & NDw & Lw & _).
  cbn [p_inside p_walkers]. rewrite name_other by exact Nj. rewrite (view_other p i j g ws Nj Eh). set (v := view p j).
  set (w := g_with_walkers (g_walkers g) (g_with_tick (g_tick g) (g_with_count (g_count g) v))).
  assert (L : alike w v) by (repeat split).
  split; [reflexivity|]. split.
  { intros q Hq. apply Lw; [intros X; apply Nj, (Sp j i q Hq X)|intros X; apply (Hw q j X Nj Hq)]. }
  split; [intros k x; apply (own_answer (sys_getClusterId k)); [apply own_sites|exact L]|].
  split; [intros x k|].
  { unfold listed. pose proof (own_clusters cc_getSiteIds w v L) as X. unfold sys_getClusters.
    destruct (in_clusters cc_getSiteIds w), (in_clusters cc_getSiteIds v); try contradiction; try tauto. destruct X as [<- _]. tauto. }
  split; [intros k x; apply (own_answer (sys_getVisits k)); [apply own_getVisits|exact L]|].
  split; [intros k b; apply (own_answer (f_isOccupied k k)); [apply own_isOccupied|exact L]|].
  split; intros x t; unfold increment, cluster_resolution.
  - split; intros (m & h & E & El); exists m.
    + destruct (proj1 (own_answer sys_getIncrements w v m (own_clusters _) L) (ex_intro _ h E)) as (h' & E'). eauto.
    + destruct (proj2 (own_answer sys_getIncrements w v m (own_clusters _) L) (ex_intro _ h E)) as (h' & E'). eauto.
  - split; intros (m & h & E & El); exists m.
    + destruct (proj1 (own_answer sys_getResolutions w v m (own_clusters _) L) (ex_intro _ h E)) as (h' & E'). eauto.
    + destruct (proj2 (own_answer sys_getResolutions w v m (own_clusters _) L) (ex_intro _ h E)) as (h' & E'). eauto.
Qed.

(** ** Running concrete programs *)
Definition put (p : program) (i : Z) (gw : world * list Z) : program :=
  mkProgram (g_walkers (fst gw)) (g_heap (fst gw)) (g_count (fst gw)) (g_tick (fst gw)) (at_name (p_systems p) i (fst gw)) (at_name (p_inside p) i (snd gw)).
Definition mexec1 (names : list Z) (ia : Z * act) (p : program) : option program :=
  let '(i, a) := ia in
  if library_call (call_of a) && existsb (Z.eqb i) names then
    match exec1 clk a (view p i, p_inside p i) with
    | Some gw => if forallb (fun j => (j =? i) || forallb (fun q => negb (existsb (Z.eqb q) (p_inside p j))) (snd gw)) names then Some (put p i gw) else None
    | None => None
    end
  else None.
Fixpoint mexec (names : list Z) (l : list (Z * act)) (p : program) : option program :=
  match l with [] => Some p | x :: r => match mexec1 names x p with Some p' => mexec names r p' | None => None end end.
Definition named (names : list Z) (p : program) : Prop := forall j, ~ In j names -> p_inside p j = [].
Definition event_of (ia : Z * act) : event := On (fst ia) (call_of (snd ia)).
Lemma mexec1_ok names ia p p' : named names p -> mexec1 names ia p = Some p' -> happens clk p (event_of ia) p' /\ named names p'.
Proof.
  destruct ia as [i a]. unfold mexec1, event_of. cbn [fst snd]. intros Nm E. destruct (library_call (call_of a)) eqn:El; [|discriminate].
  destruct (existsb (Z.eqb i) names) eqn:Ei; [|discriminate]. cbn [andb] in E. apply in_ok in Ei.
  destruct (exec1 clk a (view p i, p_inside p i)) as [[g ws]|] eqn:Ex; [|discriminate]. cbn [snd] in E.
  match type of E with (if ?b then _ else _) = _ => destruct b eqn:Ef end; [|discriminate]. inversion E; subst p'; clear E. rewrite forallb_forall in Ef. split.
  - apply ev_call; [exact El|apply exec1_ok, Ex|]. intros q j Hq Nj Hj. destruct (in_dec Z.eq_dec j names) as [Hn|Hn]; [|rewrite (Nm j Hn) in Hj; destruct Hj].
    specialize (Ef j Hn). apply Z.eqb_neq in Nj. rewrite Nj in Ef. cbn [orb] in Ef. rewrite forallb_forall in Ef. specialize (Ef q Hq).
    apply negb_true_iff in Ef. assert (X : existsb (Z.eqb q) (p_inside p j) = true) by (apply existsb_exists; exists q; split; [exact Hj|apply Z.eqb_refl]). congruence.
  - intros j Hj. unfold put. cbn [p_inside snd]. rewrite name_other; [apply Nm, Hj|]. intros ->. contradiction.
Qed.
Lemma goes_front p e p1 es p2 : happens clk p e p1 -> goes clk p1 es p2 -> goes clk p (e :: es) p2.
Proof.
  intros H1 H2. induction H2; [apply (go_step clk p [] p e _ (go_refl clk p) H1)|]. rewrite app_comm_cons. eapply go_step; eauto.
Qed.
Lemma mexec_goes names l : forall p p', named names p -> mexec names l p = Some p' -> goes clk p (map event_of l) p'.
Proof.
  induction l as [|x l IH]; intros p p' Nm E; cbn [mexec map] in *; [inversion E; subst; apply go_refl|].
  destruct (mexec1 names x p) as [p1|] eqn:E1; [|discriminate]. apply mexec1_ok in E1; [|exact Nm]. destruct E1 as [H1 Nm1].
  eapply goes_front; [exact H1|]. apply IH; [exact Nm1|exact E].
Qed.
Definition mruns (names : list Z) (l : list (Z * act)) (p : program) : bool := match mexec names l p with Some _ => true | None => false end.
Definition mfinal (names : list Z) (l : list (Z * act)) (p : program) : program := match mexec names l p with Some q => q | None => p end.
Lemma mruns_goes names l m h count tick : mruns names l (program_new m h count tick) = true ->
  goes clk (program_new m h count tick) (map event_of l) (mfinal names l (program_new m h count tick)).
Proof.
  unfold mruns, mfinal. intros E. destruct (mexec names l (program_new m h count tick)) as [q|] eqn:Eq; [|discriminate].
  apply (mexec_goes names); [intros j _; reflexivity|exact Eq].
Qed.
Lemma mexec_app names l1 : forall l2 p, mexec names (l1 ++ l2) p = match mexec names l1 p with Some q => mexec names l2 q | None => None end.
Proof. induction l1 as [|x l1 IH]; intros l2 p; [reflexivity|]. cbn [app mexec]. destruct (mexec1 names x p); [apply IH|reflexivity]. Qed.
Lemma mexec_named names l : forall p p', named names p -> mexec names l p = Some p' -> named names p'.
Proof.
  induction l as [|x l IH]; intros p p' Nm E; cbn [mexec] in E; [inversion E; subst; exact Nm|].
  destruct (mexec1 names x p) as [p1|] eqn:E1; [|discriminate]. apply mexec1_ok in E1; [|exact Nm]. apply (IH p1); tauto.
Qed.
Lemma mruns_last names l x m h count tick : mruns names (l ++ [x]) (program_new m h count tick) = true ->
  happens clk (mfinal names l (program_new m h count tick)) (event_of x) (mfinal names (l ++ [x]) (program_new m h count tick)).
Proof.
  unfold mruns, mfinal. rewrite mexec_app. intros E. destruct (mexec names l (program_new m h count tick)) as [q|] eqn:Eq; [|discriminate].
  cbn [mexec] in *. destruct (mexec1 names x q) as [q'|] eqn:Ex; [|discriminate]. apply (mexec1_ok names); [|exact Ex].
  apply (mexec_named names l (program_new m h count tick)); [intros j _; reflexivity|exact Eq].
Qed.

(** ** A program with one system *)
Lemma embed i m h count tick tr g ws : steps clk (world_new m h count tick) [] tr g ws -> forallb library_call tr = true ->
  exists p, goes clk (program_new m h count tick) (map (On i) tr) p /\ view p i = g /\ p_inside p i = ws /\ (forall j, j <> i -> p_inside p j = []).
Proof.
  intros S. remember (world_new m h count tick) as g0 eqn:E0. remember ([] : list Z) as ws0 eqn:Ew. induction S as [|tr g1 ws1 c g2 ws2 S IH St]; intros Hl.
  - subst. exists (program_new m h count tick). split; [apply go_refl|]. auto.
  - rewrite forallb_app in Hl. apply andb_true_iff in Hl. destruct Hl as [Hl Hc]. cbn [forallb] in Hc. rewrite andb_true_r in Hc.
    destruct (IH Hl) as (p & Go & Ev & Ei & Ej). subst g1 ws1.
    eexists. split; [rewrite map_app; eapply go_step; [exact Go|]; cbn [map]; apply ev_call; [exact Hc|exact St|]|].
    { intros q j _ Nj. rewrite (Ej j Nj), Ew. intros []. }
    split; [apply view_self|]. cbn [p_inside]. split; [apply name_self|]. intros j Nj. rewrite name_other by exact Nj. auto.
Qed.
Lemma seen_hops i es : hops (flat_map (seen_by i) es) = hops (calls_on i es).
Proof.
  unfold hops. f_equal. induction es as [|e es IH]; [reflexivity|]. unfold calls_on. cbn [flat_map]. fold (calls_on i es). rewrite !filter_app, !app_length, IH.
  f_equal. destruct e as [j c| | |]; try reflexivity. cbn [seen_by]. destruct (j =? i); reflexivity.
Qed.
Lemma seen_all i es (P : call -> Prop) : ~ In Rates es -> P KWalkers -> P KElsewhere -> Forall P (calls_on i es) -> Forall P (flat_map (seen_by i) es).
Proof.
  intros Nr Pw Pe. induction es as [|e es IH]; intros F; [constructor|]. unfold calls_on in F. cbn [flat_map] in *. fold (calls_on i es) in F.
  apply Forall_app in F. destruct F as [F1 F2]. apply Forall_app. split; [|apply IH; [intros X; apply Nr; right; exact X|exact F2]].
  destruct e as [j c| | |]; cbn [seen_by]; auto.
  - destruct (j =? i); auto.
  - destruct Nr. left. reflexivity.
Qed.
End Many.
