(** * Without coarse graining the system is kinetic Monte Carlo, in doubles *)
From Coq Require Import ZArith List Bool Reals Lra Lia Permutation Floats.
From Verif Require Import Base BaseProofs Num OrdLaws F64 RSum WalkerModel SiteModel SiteSpec SiteProofs ClusterModel ContainerModel BasinModel
  SystemModel SystemSpec SystemShape SystemHop SystemCoarse SystemMerge SystemProofs SystemFacts SystemControl SystemInit FloatSpec FloatProofs FloatSite FloatKmcSpec.
Import ListNotations.
Open Scope Z_scope.

Section Kmc.
Context {I : Impl} {N : Num} {G : Rng} {U : Ugly}.
Variable clk : Z -> Z.

Lemma bind_run {S A B} (m : M S A) (k : A -> M S B) s a s1 o : m s = Ret a s1 -> k a s1 = o -> bind m k s = o.
Proof. intros E1 E2. unfold bind. rewrite E1. exact E2. Qed.

(** ** The state as lookups *)
Record frame (g g' : world) : Prop := {
  f_thr : g_thr g' = g_thr g; f_thrmin : g_thrmin g' = g_thrmin g; f_iter : g_iter g' = g_iter g;
  f_feats : g_feats g' = g_feats g; f_clusters : g_clusters g' = g_clusters g;
  f_keys : ukeys (g_walkers g') = ukeys (g_walkers g) }.
Definition st (g0 : world) (fs : Z -> option site) (fw : Z -> option (walker)) (g : world) : Prop :=
  frame g0 g /\ (forall k, ulookup k (g_sites g) = fs k) /\ (forall p, ulookup p (g_walkers g) = fw p).
Lemma st_start g : st g (fun k => ulookup k (g_sites g)) (fun p => ulookup p (g_walkers g)) g.
Proof. split; [split; reflexivity|split; reflexivity]. Qed.

Lemma find_replace {V} k j (v c : V) m : ulookup j m = Some c -> ulookup k (ureplace j v m) = if k =? j then Some v else ulookup k m.
Proof.
  induction m as [|[a x] m IH]; cbn [ulookup ureplace]; intros E; [discriminate|].
  destruct (j =? a) eqn:Ej.
  - apply Z.eqb_eq in Ej. subst a. cbn [ulookup]. destruct (k =? j); reflexivity.
  - cbn [ulookup]. rewrite (IH E). destruct (k =? a) eqn:Ek; [|reflexivity].
    apply Z.eqb_eq in Ek. subst a. rewrite Z.eqb_sym, Ej. reflexivity.
Qed.
Lemma keys_replace {V} k (v : V) m : ukeys (ureplace k v m) = ukeys m.
Proof. induction m as [|[j x] m IH]; [reflexivity|]. cbn [ureplace]. destruct (k =? j); cbn; [reflexivity|]. f_equal. exact IH. Qed.

Lemma run_site {A} g0 fs fw g k (ms : M site A) mc s a s' : st g0 fs fw g -> ulookup k (g_feats g0) = Some (PSite k) ->
  fs k = Some s -> ms s = Ret a s' -> exists g', on_feature k ms mc g = Ret a g' /\ st g0 (set fs k (Some s')) fw g'.
Proof.
  intros [F [Fs Fw]] Hf Hs E. exists (g_with_sites (ureplace k s' (g_sites g)) g). split.
  - unfold on_feature, bind, gets. rewrite (f_feats _ _ F), Hf. unfold in_sites, zoom, at_key. rewrite Fs, Hs, E. reflexivity.
  - split; [destruct F; split; assumption|]. split; [|exact Fw]. intros j. cbn [g_sites g_with_sites].
    rewrite (find_replace j k s' s) by (rewrite Fs; exact Hs). unfold set. destruct (j =? k); [reflexivity|apply Fs].
Qed.
Lemma run_clock g0 fs fw g : st g0 fs fw g -> exists t g', read_clock clk g = Ret t g' /\ st g0 fs fw g'.
Proof.
  intros [F [Fs Fw]]. eexists _, _. split; [reflexivity|]. split; [destruct F; split; assumption|]. split; assumption.
Qed.
Lemma run_walker {A} g0 fs fw g p (m : M (walker) A) w a w' : st g0 fs fw g -> fw p = Some w -> m w = Ret a w' ->
  exists g', in_walker p m g = Ret a g' /\ st g0 fs (set fw p (Some w')) g'.
Proof.
  intros [F [Fs Fw]] Hw E. exists (g_with_walkers (ureplace p w' (g_walkers g)) g). split.
  - unfold in_walker, zoom, at_key. rewrite Fw, Hw, E. reflexivity.
  - split; [destruct F; split; try assumption; cbn [g_walkers g_with_walkers]; rewrite keys_replace; assumption|].
    split; [exact Fs|]. intros q. cbn [g_walkers g_with_walkers]. rewrite (find_replace q p w' w) by (rewrite Fw; exact Hw).
    unfold set. destruct (q =? p); [reflexivity|apply Fw].
Qed.

(** ** Sites *)
Variable rates : umap (umap Z).
Variable table : Z -> list (Z * num).
Variable tau : Z -> num.
Variable cap : Z.
Definition pick_at (k : Z) (u : num) : Z := pick_scan u n0 (table k).
Definition delay_at (k : Z) (u : num) : num := dwell_of u (tau k).
Notation K := (@kmc N G).

Definition site_is (s : site) (k : Z) (e : eng) (n : Z) (b : bool) : Prop :=
  s_rng s = e /\ s_prob s = table k /\ s_tau s = tau k /\ s_occ s = (if b then 1 else 0) /\ s_visits s = n /\ s_cluster s = unassignedId.
Record refines (T : Z) (g : world) (K : K) : Prop := {
  r_feat : forall k, In k (ukeys rates) -> ulookup k (g_feats g) = Some (PSite k);
  r_site : forall k, In k (ukeys rates) -> exists s, ulookup k (g_sites g) = Some s /\ site_is s k (stream K k) (arrivals K k) (someone k (walkers K));
  r_walk : forall p w, In (p, w) (walkers K) -> ulookup p (g_walkers g) = Some (mkWalker (on w) (aim w) (wait w));
  r_in : forall p w, In (p, w) (walkers K) -> In (on w) (ukeys rates) /\ In (aim w) (ukeys rates);
  r_ndp : NoDup (map fst (walkers K));
  r_ndk : NoDup (map (fun e => on (snd e)) (walkers K));
  r_ndw : NoDup (ukeys (g_walkers g));
  r_thr : g_thr g = cap; r_min : g_thrmin g = cap; r_iter : g_iter g = T; r_none : g_clusters g = [] }.

Lemma seek_in p l w : NoDup (map fst l) -> (seek p l = Some w <-> In (p, w) l).
Proof.
  unfold seek. induction l as [|[q x] l IH]; cbn [find map fst snd]; intros ND; [split; [discriminate|intros []]|].
  inversion ND as [|? ? N0 ND']; subst. destruct (Z.eqb_spec q p) as [->|Ne].
  - split; [intros E; inversion E; left; reflexivity|]. intros [E|E]; [inversion E; reflexivity|].
    exfalso. apply N0. apply (in_map fst) in E. exact E.
  - rewrite (IH ND'). split; [intros E; right; exact E|]. intros [E|E]; [inversion E; congruence|exact E].
Qed.
Lemma seek_none p l : seek p l = None -> ~ In p (map fst l).
Proof.
  unfold seek. induction l as [|[q x] l IH]; cbn [find map fst snd]; [intros _ []|].
  destruct (Z.eqb_spec q p) as [->|Ne]; [discriminate|]. intros E [X|X]; [congruence|exact (IH E X)].
Qed.
Lemma someone_in k l : someone k l = true <-> exists p w, In (p, w) l /\ on w = k.
Proof.
  unfold someone. rewrite existsb_exists. split.
  - intros ([p w] & Hin & E). apply Z.eqb_eq in E. exists p, w. auto.
  - intros (p & w & Hin & E). exists (p, w). split; [exact Hin|]. apply Z.eqb_eq. exact E.
Qed.
Lemma bool_ext (a b : bool) : (a = true <-> b = true) -> a = b.
Proof. destruct a, b; intuition congruence. Qed.

(** the two draws at a site *)
Lemma is_site k : a_site rates k = true -> In k (ukeys rates).
Proof. unfold a_site. rewrite existsb_exists. intros (j & Hj & Ej). apply Z.eqb_eq in Ej. subst j. exact Hj. Qed.
Lemma run_draws s k (X : K) n b w X' : site_is s k (stream X k) n b -> settle rates pick_at delay_at k X = Some (w, X') ->
  exists s1 s2, on w = k /\ In (aim w) (ukeys rates) /\
    s_getDwellTime s = Ret (wait w) s1 /\ s_pick s1 = Ret (aim w) s2 /\
    walkers X' = walkers X /\ stream X' = set (stream X) k (s_rng s2) /\ arrivals X' = set (arrivals X) k (arrivals X k + 1) /\
    site_is s2 k (s_rng s2) n b.
Proof.
  intros (E1 & E2 & E3 & E4 & E5 & E6) E. unfold settle in E.
  destruct (edraw (stream X k)) as [u e] eqn:Du. destruct (edraw e) as [v e'] eqn:Dv.
  destruct (a_site rates (pick_at k v)) eqn:Ea; [|discriminate]. inversion E; subst w X'; clear E. apply is_site in Ea.
  exists (s_with_rng e s), (s_with_rng e' (s_with_rng e s)). split; [reflexivity|]. split; [exact Ea|]. split.
  { unfold s_getDwellTime, bind, s_draw, gets, ret. rewrite E1, Du. cbn [s_tau s_with_rng]. rewrite E3. reflexivity. }
  split; [unfold s_pick, bind, s_draw, gets, ret; cbn [s_rng s_with_rng]; rewrite Dv; cbn [s_prob s_with_rng]; rewrite E2; reflexivity|].
  split; [reflexivity|]. split; [reflexivity|]. split; [reflexivity|].
  split; [reflexivity|]. split; [exact E2|]. split; [exact E3|]. split; [exact E4|]. split; [exact E5|exact E6].
Qed.

(** ** Moving one walker *)
Definition swap (p : Z) (w' : hopper) (l : list (Z * hopper)) : list (Z * hopper) := map (fun e => if fst e =? p then (p, w') else e) l.
Lemma swap_fst p w' l : map fst (swap p w' l) = map fst l.
Proof. unfold swap. rewrite map_map. apply map_ext. intros [q x]. cbn [fst]. destruct (Z.eqb_spec q p); [symmetry; assumption|reflexivity]. Qed.
Lemma swap_in p w' l q x : In (q, x) (swap p w' l) <-> (q = p /\ x = w' /\ In p (map fst l)) \/ (q <> p /\ In (q, x) l).
Proof.
  unfold swap. rewrite in_map_iff. split.
  - intros ([r y] & E & Hin). cbn [fst] in E. destruct (Z.eqb_spec r p) as [->|Ne]; inversion E; subst; [|right; auto].
    left. split; [reflexivity|]. split; [reflexivity|]. apply (in_map fst) in Hin. exact Hin.
  - intros [(-> & -> & Hin)|[Ne Hin]].
    + apply in_map_iff in Hin. destruct Hin as ([r y] & E & Hin). cbn in E. subst r. exists (p, y). cbn [fst]. rewrite Z.eqb_refl. auto.
    + exists (q, x). cbn [fst]. apply Z.eqb_neq in Ne. rewrite Ne. auto.
Qed.
Lemma swap_on p w' l : NoDup (map fst l) -> NoDup (map (fun e => on (snd e)) l) ->
  (forall q x, In (q, x) l -> q <> p -> on x <> on w') -> NoDup (map (fun e => on (snd e)) (swap p w' l)).
Proof.
  induction l as [|[q x] l IH]; intros N1 N2 H; [constructor|]. cbn [map fst snd] in N1, N2.
  inversion N1 as [|? ? A1 B1]; inversion N2 as [|? ? A2 B2]; subst. specialize (IH B1 B2 (fun r y Hin => H r y (or_intror Hin))).
  cbn [swap map fst]. constructor; [|exact IH]. intros X. apply in_map_iff in X. destruct X as ([r y] & E & Hin). cbn [snd] in E.
  apply swap_in in Hin. destruct Hin as [(-> & -> & Hp)|[Ne Hin]].
  - destruct (Z.eqb_spec q p) as [->|Nq]; [contradiction|]. cbn [snd] in E. apply (H q x); [left; reflexivity|exact Nq|symmetry; exact E].
  - destruct (Z.eqb_spec q p) as [->|Nq]; cbn [snd] in E.
    + apply (H r y); [right; exact Hin|exact Ne|exact E].
    + apply A2. apply in_map_iff. exists (r, y). split; [exact E|exact Hin].
Qed.
Lemma on_inj (l : list (Z * hopper)) p w q x : NoDup (map (fun e => on (snd e)) l) -> In (p, w) l -> In (q, x) l -> on w = on x -> p = q /\ w = x.
Proof.
  induction l as [|[r y] l IH]; intros ND H1 H2 Eo; [destruct H1|]; destruct H1 as [E|H1], H2 as [E'|H2]; cbn [map snd] in ND; inversion ND as [|? ? A B]; subst.
  - inversion E; inversion E'; subst. auto.
  - inversion E; subst. exfalso. apply A. rewrite Eo. apply (in_map (fun e => on (snd e))) in H2. exact H2.
  - inversion E'; subst. exfalso. apply A. rewrite <- Eo. apply (in_map (fun e => on (snd e))) in H1. exact H1.
  - apply IH; assumption.
Qed.
Lemma swap_someone p w w' l k : NoDup (map (fun e => on (snd e)) l) -> NoDup (map fst l) -> In (p, w) l ->
  someone k (swap p w' l) = (k =? on w') || (someone k l && negb (k =? on w)).
Proof.
  intros N1 N2 Hp. apply bool_ext. rewrite someone_in, orb_true_iff, andb_true_iff, negb_true_iff, Z.eqb_eq, Z.eqb_neq, someone_in. split.
  - intros (q & x & Hin & E). apply swap_in in Hin. destruct Hin as [(-> & -> & _)|[Ne Hin]]; [left; symmetry; exact E|].
    right. split; [exists q, x; auto|]. intros ->. destruct (on_inj _ _ _ _ _ N1 Hp Hin (eq_sym E)). congruence.
  - intros [->|[(q & x & Hin & E) Ne]].
    + exists p, w'. split; [|reflexivity]. apply swap_in. left. split; [reflexivity|]. split; [reflexivity|]. apply (in_map fst) in Hp. exact Hp.
    + exists q, x. split; [|exact E]. apply swap_in. right. split; [|exact Hin]. intros ->.
      assert (x = w); [|subst x; congruence]. apply seek_in in Hin, Hp; [|assumption..]. congruence.
Qed.

Lemma site_at s k e n b : site_is s k e n b -> s_isOccupied s = b.
Proof. intros (_ & _ & _ & E & _). unfold s_isOccupied. rewrite E. destruct b; reflexivity. Qed.
Lemma site_leave s k e n : site_is s k e n true -> exists s', s_vacate s = Ret tt s' /\ site_is s' k e n false.
Proof.
  intros (E1 & E2 & E3 & E4 & E5 & E6). eexists. split; [reflexivity|]. unfold site_is. cbn. rewrite E4. auto 10.
Qed.
Lemma site_enter s k e n : site_is s k e n false -> exists s', s_occupy s = Ret tt s' /\ site_is s' k e (n + 1) true.
Proof.
  intros (E1 & E2 & E3 & E4 & E5 & E6). eexists. split; [reflexivity|]. unfold site_is. cbn. rewrite E4, E5. auto 10.
Qed.

(** what an event leaves behind, as lookups *)
Definition after_hop (fs : Z -> option site) (fw : Z -> option (walker)) (p src dst : Z) (w' : hopper) (s1 s2 : site) (g0 g : world) : Prop :=
  exists fs' fw', st g0 fs' fw' g /\
    (forall k, fs' k = if k =? dst then Some s2 else if k =? src then Some s1 else fs k) /\
    (forall q, fw' q = if q =? p then Some (mkWalker (on w') (aim w') (wait w')) else fw q).

Ltac go H := let t := fresh "t" in let g := fresh "g" in let E := fresh "E" in let S := fresh "S" in
  destruct H as (g & E & S); eapply bind_run; [exact E|clear E].

Lemma settle_run g0 fs fw g k id p (X : K) s n b wk w' X' : settle rates pick_at delay_at k X = Some (w', X') -> st g0 fs fw g -> ulookup k (g_feats g0) = Some (PSite k) ->
  fs k = Some s -> site_is s k (stream X k) n b -> fw p = Some wk -> w_cur wk = k ->
  exists s2 g', (t <- f_getDwellTime k id ;; in_walker p (w_setDwellTime t) ;; n <- f_pick k id ;; in_walker p (w_setPotentialSite n)) g = Ret tt g' /\
    on w' = k /\ In (aim w') (ukeys rates) /\ walkers X' = walkers X /\
    stream X' = set (stream X) k (s_rng s2) /\ arrivals X' = set (arrivals X) k (arrivals X k + 1) /\ site_is s2 k (s_rng s2) n b /\
    exists fs' fw', st g0 fs' fw' g' /\ (forall j, fs' j = if j =? k then Some s2 else fs j) /\
      (forall q, fw' q = if q =? p then Some (mkWalker (on w') (aim w') (wait w')) else fw q).
Proof.
  intros E1 S Hf Hs Hi Hw Hc. destruct (run_draws s k X n b w' X' Hi E1) as (s1 & s2 & E2 & E3 & E4 & E5 & E7 & E8 & E9 & E10).
  exists s2.
  destruct (run_site g0 fs fw g k s_getDwellTime (c_getDwellTime id) s _ s1 S Hf Hs E4) as (g1 & R1 & S1).
  destruct (run_walker g0 _ fw g1 p (w_setDwellTime (wait w')) wk tt _ S1 Hw eq_refl) as (g2 & R2 & S2).
  destruct (run_site g0 _ _ g2 k s_pick (c_pick id) s1 (aim w') s2 S2 Hf) as (g3 & R3 & S3); [unfold set; rewrite Z.eqb_refl; reflexivity|exact E5|].
  destruct (run_walker g0 _ _ g3 p (w_setPotentialSite (aim w')) (mkWalker (w_cur wk) (w_pot wk) (wait w')) tt (mkWalker (w_cur wk) (aim w') (wait w')) S3) as (g4 & R4 & S4); [unfold set; rewrite Z.eqb_refl; reflexivity|reflexivity|].
  exists g4. split; [eapply bind_run; [exact R1|]; eapply bind_run; [exact R2|]; eapply bind_run; [exact R3|exact R4]|].
  split; [exact E2|]. split; [exact E3|]. split; [exact E7|]. split; [exact E8|]. split; [exact E9|]. split; [exact E10|].
  eexists _, _. split; [exact S4|]. split; intros j; unfold set; destruct (j =? _); try reflexivity.
  cbn [w_cur w_dwell]. rewrite Hc, E2. reflexivity.
Qed.

Hypothesis HU : ~ In unassignedId (ukeys rates).
Lemma not_un k : In k (ukeys rates) -> (k =? unassignedId) = false.
Proof. intros Hk. apply Z.eqb_neq. intros ->. exact (HU Hk). Qed.

Lemma attempt_run fuel (g : world) k T : g_thr g = cap -> g_iter g = T -> -1 <= T < INT_MAX -> T < cap ->
  hop_attempt clk fuel k g = Ret tt (g_with_iter (T + 1) g).
Proof.
  intros Et Ei HT' HB. unfold hop_attempt, bind, gets. rewrite Ei.
  assert (C : chk (T + 1) = Ok (T + 1)). { unfold chk. assert (X : in_int (T + 1) = true) by (apply in_int_iff; unfold INT_MIN, INT_MAX in *; lia). rewrite X. reflexivity. }
  rewrite C. cbn [lift modify g_thr g_with_iter]. rewrite Et.
  assert (X : (cap <? T + 1) = false) by (apply Z.ltb_ge; lia). rewrite X. reflexivity.
Qed.

Lemma hop_refines T g X id p fuel X' : refines T g X -> 0 <= T < INT_MAX -> T < cap -> kmc_step rates pick_at delay_at (Hop id p) X = Some X' ->
  exists g', sys_hop clk fuel id p g = Ret tt g' /\ refines (T + 1) g' X'.
Proof.
  intros Rf HT' HB E. cbn [kmc_step] in E. destruct (seek p (walkers X)) as [w|] eqn:Es; [|discriminate].
  apply (seek_in p _ _ (r_ndp _ _ _ Rf)) in Es. destruct (r_in _ _ _ Rf _ _ Es) as [Hon Haim].
  pose proof (r_walk _ _ _ Rf _ _ Es) as Hw. set (src := on w) in *. set (dst := aim w) in *.
  pose proof (st_start g) as S0. set (fs := fun k => ulookup k (g_sites g)) in *. set (fw := fun p => ulookup p (g_walkers g)) in *.
  destruct (r_site _ _ _ Rf src Hon) as (ss & Hss & Is). destruct (r_site _ _ _ Rf dst Haim) as (sd & Hsd & Id).
  assert (Hsrc : someone src (walkers X) = true) by (apply someone_in; exists p, w; auto). rewrite Hsrc in Is.
  (* reading the walker *)
  destruct (run_walker g fs fw g p w_getSite (mkWalker src dst (wait w)) src (mkWalker src dst (wait w)) S0 Hw) as (g1 & R1 & S1).
  { unfold w_getSite. cbn [w_cur]. rewrite (not_un _ Hon). reflexivity. }
  destruct (run_walker g fs _ g1 p w_getPotentialSite (mkWalker src dst (wait w)) dst (mkWalker src dst (wait w)) S1) as (g2 & R2 & S2).
  { unfold set. rewrite Z.eqb_refl. reflexivity. }
  { unfold w_getPotentialSite. cbn [w_pot]. rewrite (not_un _ Haim). reflexivity. }
  destruct (run_site g fs _ g2 dst (gets s_isOccupied) (c <- gets (fun c => c) ;; lift (c_isOccupied c dst)) sd (someone dst (walkers X)) sd S2 (r_feat _ _ _ Rf dst Haim) Hsd) as (g3 & R3 & S3).
  { unfold gets. rewrite (site_at _ _ _ _ _ Id). reflexivity. }
  destruct (settle rates pick_at delay_at (if someone dst (walkers X) then src else dst) X) as [[w' K']|] eqn:Q1; [|discriminate].
  assert (Mv : exists s2 g4 fs' fw', hop_move clk id p src dst g2 = Ret tt g4 /\
    on w' = (if someone dst (walkers X) then src else dst) /\ In (aim w') (ukeys rates) /\
    stream K' = set (stream X) (on w') (s_rng s2) /\ arrivals K' = set (arrivals X) (on w') (arrivals X (on w') + 1) /\
    st g fs' fw' g4 /\ (forall q, fw' q = if q =? p then Some (mkWalker (on w') (aim w') (wait w')) else fw q) /\
    fs' (on w') = Some s2 /\ site_is s2 (on w') (s_rng s2) (arrivals X (on w') + 1) true /\
    forall k, k <> on w' -> In k (ukeys rates) -> exists s', fs' k = Some s' /\ site_is s' k (stream X k) (arrivals X k) (if k =? src then false else someone k (walkers X))).
  { destruct (someone dst (walkers X)) eqn:Eb.
    - (* blocked: the walker leaves and comes back *)
      destruct (site_leave _ _ _ _ Is) as (s1 & V1 & I1). destruct (site_enter _ _ _ _ I1) as (s2 & V2 & I2).
      destruct (run_clock g _ _ g3 S3) as (t & g4 & R4 & S4).
      assert (L3 : set fs dst (Some sd) src = Some ss).
      { unfold set. destruct (Z.eqb_spec src dst) as [Eq|]; [|exact Hss]. rewrite <- Hss, <- Hsd, Eq. reflexivity. }
      destruct (run_site g _ _ g4 src s_vacate (c_vacate t src) ss tt s1 S4 (r_feat _ _ _ Rf src Hon) L3 V1) as (g5 & R5 & S5).
      destruct (run_site g _ _ g5 src s_occupy (c_occupy src) s1 tt s2 S5 (r_feat _ _ _ Rf src Hon)) as (g6 & R6 & S6); [unfold set; rewrite Z.eqb_refl; reflexivity|exact V2|].
      destruct (settle_run g _ _ g6 src id p X s2 (arrivals X src + 1) true (mkWalker src dst (wait w)) w' K' Q1 S6 (r_feat _ _ _ Rf src Hon)) as (s3 & g7 & R7 & Q2 & Q3 & Q4 & Q5 & Q6 & Q7 & fs' & fw' & S7 & Q8 & Q9);
        [unfold set; rewrite Z.eqb_refl; reflexivity|exact I2|unfold set; rewrite Z.eqb_refl; reflexivity|reflexivity|].
      exists s3, g7, fs', fw'. split.
      { unfold hop_move. eapply bind_run; [exact R3|]. cbv beta iota. unfold f_vacate. eapply bind_run; [eapply bind_run; [exact R4|exact R5]|]. eapply bind_run; [exact R6|]. exact R7. }
      split; [exact Q2|]. split; [exact Q3|]. rewrite Q2. split; [exact Q5|]. split; [exact Q6|]. split; [exact S7|]. split.
      { intros q. rewrite Q9. destruct (q =? p) eqn:Eq; [rewrite Q2; reflexivity|]. unfold set. rewrite Eq. reflexivity. }
      split; [rewrite Q8, Z.eqb_refl; reflexivity|]. split; [exact Q7|].
      intros k Nk Hk. rewrite Q8. apply Z.eqb_neq in Nk. rewrite Nk. unfold set. rewrite Nk.
      destruct (Z.eqb_spec k dst) as [->|Nd]; [exists sd; split; [reflexivity|rewrite Eb; exact Id]|].
      exact (r_site _ _ _ Rf k Hk).
    - (* free *)
      assert (Nsd : src <> dst) by (intros Eq; rewrite Eq in Hsrc; congruence).
      destruct (site_leave _ _ _ _ Is) as (s1 & V1 & I1). destruct (site_enter _ _ _ _ Id) as (s2 & V2 & I2).
      destruct (run_clock g _ _ g3 S3) as (t & g4 & R4 & S4).
      assert (L3 : set fs dst (Some sd) src = Some ss).
      { unfold set. apply Z.eqb_neq in Nsd. rewrite Nsd. exact Hss. }
      destruct (run_site g _ _ g4 src s_vacate (c_vacate t src) ss tt s1 S4 (r_feat _ _ _ Rf src Hon) L3 V1) as (g5 & R5 & S5).
      destruct (run_site g _ _ g5 dst s_occupy (c_occupy dst) sd tt s2 S5 (r_feat _ _ _ Rf dst Haim)) as (g6 & R6 & S6).
      { unfold set. replace (dst =? src) with false by (symmetry; apply Z.eqb_neq; congruence). rewrite Z.eqb_refl. reflexivity. }
      { exact V2. }
      destruct (run_walker g _ _ g6 p (w_occupySite dst) (mkWalker src dst (wait w)) tt (mkWalker dst dst (wait w)) S6) as (g6' & R6' & S6'); [unfold set; rewrite Z.eqb_refl; reflexivity|reflexivity|].
      destruct (settle_run g _ _ g6' dst id p X s2 (arrivals X dst + 1) true (mkWalker dst dst (wait w)) w' K' Q1 S6' (r_feat _ _ _ Rf dst Haim)) as (s3 & g7 & R7 & Q2 & Q3 & Q4 & Q5 & Q6 & Q7 & fs' & fw' & S7 & Q8 & Q9);
        [unfold set; rewrite Z.eqb_refl; reflexivity|exact I2|unfold set; rewrite Z.eqb_refl; reflexivity|reflexivity|].
      exists s3, g7, fs', fw'. split.
      { unfold hop_move. eapply bind_run; [exact R3|]. cbv beta iota. unfold f_vacate. eapply bind_run; [eapply bind_run; [exact R4|exact R5]|]. eapply bind_run; [exact R6|]. eapply bind_run; [exact R6'|]. exact R7. }
      split; [exact Q2|]. split; [exact Q3|]. rewrite Q2. split; [exact Q5|]. split; [exact Q6|]. split; [exact S7|]. split.
      { intros q. rewrite Q9. destruct (q =? p) eqn:Eq; [rewrite Q2; reflexivity|]. unfold set. rewrite Eq. reflexivity. }
      split; [rewrite Q8, Z.eqb_refl; reflexivity|]. split; [exact Q7|].
      intros k Nk Hk. rewrite Q8. apply Z.eqb_neq in Nk. rewrite Nk. unfold set. rewrite Nk.
      destruct (Z.eqb_spec k src) as [->|Nd]; [exists s1; split; [reflexivity|exact I1]|].
      exact (r_site _ _ _ Rf k Hk). }
  destruct Mv as (s2 & g4 & fs' & fw' & R4 & Q2 & Q3 & Q5 & Q6 & [F [Fs Fw]] & Q9 & Q10 & Q11 & Q12).
  inversion E; subst X'; clear E. fold (swap p w' (walkers X)).
  assert (SO : forall k, someone k (swap p w' (walkers X)) = if k =? on w' then true else if k =? src then false else someone k (walkers X)).
  { intros k. rewrite (swap_someone p w w' _ k (r_ndk _ _ _ Rf) (r_ndp _ _ _ Rf) Es). fold src.
    destruct (k =? on w'); [reflexivity|]. destruct (k =? src); cbn; [apply andb_false_r|apply andb_true_r]. }
  exists (g_with_iter (T + 1) g4). split.
  - unfold sys_hop. eapply bind_run; [exact R1|]. eapply bind_run; [exact R2|]. eapply bind_run; [exact R4|].
    apply attempt_run; [rewrite (f_thr _ _ F); exact (r_thr _ _ _ Rf)|rewrite (f_iter _ _ F); exact (r_iter _ _ _ Rf)|lia|exact HB].
  - split; cbn [g_feats g_sites g_walkers g_thr g_thrmin g_iter g_clusters g_with_iter walkers stream arrivals].
    + intros k Hk. rewrite (f_feats _ _ F). exact (r_feat _ _ _ Rf k Hk).
    + intros k Hk. rewrite Fs, SO, Q5, Q6. unfold set. destruct (Z.eqb_spec k (on w')) as [->|Nk]; [exists s2; auto|].
      exact (Q12 k Nk Hk).
    + intros q x Hin. rewrite Fw, Q9. apply swap_in in Hin. destruct Hin as [(-> & -> & _)|[Nq Hin]]; [rewrite Z.eqb_refl; reflexivity|].
      apply Z.eqb_neq in Nq. rewrite Nq. exact (r_walk _ _ _ Rf _ _ Hin).
    + intros q x Hin. apply swap_in in Hin. destruct Hin as [(-> & -> & _)|[Nq Hin]]; [|exact (r_in _ _ _ Rf _ _ Hin)].
      split; [|exact Q3]. rewrite Q2. destruct (someone dst (walkers X)); assumption.
    + rewrite swap_fst. exact (r_ndp _ _ _ Rf).
    + apply swap_on; [exact (r_ndp _ _ _ Rf)|exact (r_ndk _ _ _ Rf)|]. intros q x Hin Nq Eq. rewrite Q2 in Eq.
      destruct (someone dst (walkers X)) eqn:Eb.
      * destruct (on_inj _ _ _ _ _ (r_ndk _ _ _ Rf) Es Hin (eq_sym Eq)). congruence.
      * assert (X0 : someone dst (walkers X) = true) by (apply someone_in; exists q, x; auto). congruence.
    + rewrite (f_keys _ _ F). exact (r_ndw _ _ _ Rf).
    + rewrite (f_thr _ _ F). exact (r_thr _ _ _ Rf).
    + rewrite (f_thrmin _ _ F). exact (r_min _ _ _ Rf).
    + reflexivity.
    + rewrite (f_clusters _ _ F). exact (r_none _ _ _ Rf).
Qed.

Lemma enter_refines T g X id p k X' : refines T g X -> kmc_step rates pick_at delay_at (Enter id p k) X = Some X' ->
  exists g', drive clk 0 (Enter id p k) g = Ret tt g' /\ refines T g' X'.
Proof.
  intros Rf E. cbn [kmc_step] in E. destruct (seek p (walkers X)) as [?|] eqn:Es; [discriminate|]. apply seek_none in Es.
  destruct (someone k (walkers X)) eqn:Eb; [discriminate|]. cbn [orb] in E.
  destruct (a_site rates k) eqn:Ek; [|discriminate]. cbn [negb] in E. pose proof (is_site k Ek) as Hk.
  destruct (settle rates pick_at delay_at k X) as [[w' K']|] eqn:E1; [|discriminate].
  destruct (r_site _ _ _ Rf k Hk) as (s & Hs & Is). rewrite Eb in Is. pose proof (r_feat _ _ _ Rf k Hk) as Hf.
  set (wk := mkWalker k unassignedId (nofZ (-1))) in *.
  set (g0 := g_with_walkers (uset (g_walkers g) p wk) g).
  pose proof (st_start g0) as S0.
  assert (Hw : ulookup p (g_walkers g0) = Some wk) by (cbn [g_walkers g0 g_with_walkers]; apply uset_lookup_same, (r_ndw _ _ _ Rf)).
  destruct (run_walker g0 _ _ g0 p w_getSite wk k wk S0 Hw) as (g1 & R1 & S1).
  { unfold w_getSite. cbn [w_cur wk]. rewrite (not_un _ Hk). reflexivity. }
  destruct (site_enter _ _ _ _ Is) as (s1 & V1 & I1).
  destruct (run_site g0 _ _ g1 k s_occupy c_occupy0 s tt s1 S1 Hf Hs V1) as (g2 & R2 & S2).
  destruct (run_draws s1 k X (arrivals X k + 1) true w' K' I1 E1) as (s2 & s3 & E2 & E3 & E4 & E5 & E7 & E8 & E9 & E10).
  destruct (run_site g0 _ _ g2 k s_getDwellTime (c_getDwellTime id) s1 (wait w') s2 S2 Hf) as (g3 & R3 & S3); [unfold set; rewrite Z.eqb_refl; reflexivity|exact E4|].
  destruct (run_site g0 _ _ g3 k s_pick (c_pick id) s2 (aim w') s3 S3 Hf) as (g4 & R4 & S4); [unfold set; rewrite Z.eqb_refl; reflexivity|exact E5|].
  destruct (run_walker g0 _ _ g4 p (w_setDwellTime (wait w')) wk tt (mkWalker k unassignedId (wait w')) S4) as (g5 & R5 & S5); [unfold set; rewrite Z.eqb_refl; reflexivity|reflexivity|].
  destruct (run_walker g0 _ _ g5 p (w_setPotentialSite (aim w')) (mkWalker k unassignedId (wait w')) tt (mkWalker k (aim w') (wait w')) S5) as (g6 & R6 & [F [Fs Fw]]); [unfold set; rewrite Z.eqb_refl; reflexivity|reflexivity|].
  inversion E; subst X'; clear E.
  assert (SO : forall j, someone j ((p, w') :: walkers X) = if j =? k then true else someone j (walkers X)).
  { intros j. unfold someone. cbn [existsb snd]. rewrite E2, (Z.eqb_sym k j). destruct (j =? k); reflexivity. }
  exists g6. split.
  - cbn [drive]. unfold bind at 1, modify at 1. fold wk. fold g0. unfold sys_initializeWalkers, bind at 1, gets.
    cbn [g_feats g_with_walkers g0]. destruct (g_feats g) as [|e0 l0] eqn:Ef; [discriminate|]. cbn [mfor fst snd].
    eapply bind_run; [|reflexivity]. unfold init_walker. eapply bind_run; [exact R1|]. unfold bind at 1, gets.
    assert (Ef1 : g_feats g1 = g_feats g) by (destruct S1 as [F1 _]; rewrite (f_feats _ _ F1); reflexivity).
    rewrite Ef1, Ef. assert (Um : umem k (e0 :: l0) = true) by (unfold umem; rewrite Hf; reflexivity). rewrite Um.
    eapply bind_run; [exact R2|]. eapply bind_run; [exact R3|]. eapply bind_run; [exact R4|]. eapply bind_run; [exact R5|]. exact R6.
  - split; cbn [walkers stream arrivals].
    + intros j Hj. rewrite (f_feats _ _ F). exact (r_feat _ _ _ Rf j Hj).
    + intros j Hj. rewrite Fs, SO, E8, E9. unfold set. destruct (Z.eqb_spec j k) as [->|Nk]; [exists s3; auto|].
      exact (r_site _ _ _ Rf j Hj).
    + intros q x [Hin|Hin].
      * assert (x = w') by congruence. assert (q = p) by congruence. subst x q. rewrite Fw, E2. unfold set. rewrite Z.eqb_refl. reflexivity.
      * assert (Nq : q <> p) by (intros ->; apply Es; apply (in_map fst) in Hin; exact Hin).
        rewrite Fw. unfold set. apply Z.eqb_neq in Nq. rewrite Nq. cbn [g_walkers g0 g_with_walkers]. apply Z.eqb_neq in Nq.
        rewrite uset_lookup_other; [exact (r_walk _ _ _ Rf _ _ Hin)|exact (r_ndw _ _ _ Rf)|exact Nq].
    + intros q x [Hin|Hin]; [assert (x = w') by congruence; subst x; rewrite E2; auto|exact (r_in _ _ _ Rf _ _ Hin)].
    + cbn [map fst]. constructor; [exact Es|exact (r_ndp _ _ _ Rf)].
    + cbn [map snd]. constructor; [|exact (r_ndk _ _ _ Rf)]. intros Y. apply in_map_iff in Y. destruct Y as ([q x] & Eq & Hin). cbn [snd] in Eq.
      assert (X0 : someone k (walkers X) = true) by (apply someone_in; exists q, x; split; [exact Hin|congruence]). congruence.
    + rewrite (f_keys _ _ F). cbn [g_walkers g0 g_with_walkers]. apply uset_NoDup, (r_ndw _ _ _ Rf).
    + rewrite (f_thr _ _ F). exact (r_thr _ _ _ Rf).
    + rewrite (f_thrmin _ _ F). exact (r_min _ _ _ Rf).
    + rewrite (f_iter _ _ F). exact (r_iter _ _ _ Rf).
    + rewrite (f_clusters _ _ F). exact (r_none _ _ _ Rf).
Qed.

Lemma filter_in (p : Z) (l : list (Z * hopper)) q x : In (q, x) (filter (fun e => negb (fst e =? p)) l) <-> q <> p /\ In (q, x) l.
Proof. rewrite filter_In. cbn [fst]. rewrite negb_true_iff, Z.eqb_neq. tauto. Qed.
Lemma filter_NoDup {A} (f : Z * hopper -> A) (c : Z * hopper -> bool) l : NoDup (map f l) -> NoDup (map f (filter c l)).
Proof.
  induction l as [|e l IH]; cbn [filter map]; intros ND; [constructor|]. inversion ND as [|? ? A0 B0]; subst.
  destruct (c e); [|apply IH, B0]. cbn [map]. constructor; [|apply IH, B0]. intros X. apply A0.
  apply in_map_iff in X. destruct X as (y & E & Hy). apply filter_In in Hy. apply in_map_iff. exists y. tauto.
Qed.
Lemma leave_refines T g X id p X' : refines T g X -> kmc_step rates pick_at delay_at (Leave id p) X = Some X' ->
  exists g', sys_removeWalker clk id p g = Ret tt g' /\ refines T g' X'.
Proof.
  intros Rf E. cbn [kmc_step] in E. destruct (seek p (walkers X)) as [w|] eqn:Es; [|discriminate]. inversion E; subst X'; clear E.
  apply (seek_in p _ _ (r_ndp _ _ _ Rf)) in Es. destruct (r_in _ _ _ Rf _ _ Es) as [Hon _].
  pose proof (r_walk _ _ _ Rf _ _ Es) as Hw. set (k := on w) in *. set (wk := mkWalker k (aim w) (wait w)) in *.
  destruct (r_site _ _ _ Rf k Hon) as (s & Hs & Is). pose proof (r_feat _ _ _ Rf k Hon) as Hf.
  assert (Hk : someone k (walkers X) = true) by (apply someone_in; exists p, w; auto). rewrite Hk in Is.
  destruct (run_walker g _ _ g p w_getSite wk k wk (st_start g) Hw) as (g1 & R1 & S1).
  { unfold w_getSite. cbn [w_cur wk]. rewrite (not_un _ Hon). reflexivity. }
  destruct (run_clock g _ _ g1 S1) as (t & g2 & R2 & S2).
  destruct (site_leave _ _ _ _ Is) as (s1 & V1 & I1).
  destruct (run_site g _ _ g2 k s_removeWalker (c_removeWalker t id k) s tt s1 S2 Hf Hs V1) as (g3 & R3 & [F [Fs Fw]]).
  assert (SO : forall j, someone j (filter (fun e => negb (fst e =? p)) (walkers X)) = if j =? k then false else someone j (walkers X)).
  { intros j. apply bool_ext. rewrite someone_in. destruct (Z.eqb_spec j k) as [->|Nj].
    - split; [|discriminate]. intros (q & x & Hin & Eq). apply filter_in in Hin. destruct Hin as [Nq Hin].
      destruct (on_inj _ _ _ _ _ (r_ndk _ _ _ Rf) Es Hin (eq_sym Eq)). congruence.
    - rewrite someone_in. split; intros (q & x & Hin & Eq); exists q, x; (split; [|exact Eq]); [apply filter_in in Hin; tauto|].
      apply filter_in. split; [|exact Hin]. intros ->. assert (x = w); [|subst x; apply Nj; symmetry; exact Eq].
      apply (seek_in _ _ _ (r_ndp _ _ _ Rf)) in Hin. apply (seek_in _ _ _ (r_ndp _ _ _ Rf)) in Es. congruence. }
  exists g3. split.
  - unfold sys_removeWalker. eapply bind_run; [exact R1|]. unfold f_removeWalker. eapply bind_run; [exact R2|exact R3].
  - split; cbn [walkers stream arrivals].
    + intros j Hj. rewrite (f_feats _ _ F). exact (r_feat _ _ _ Rf j Hj).
    + intros j Hj. rewrite Fs, SO. unfold set. destruct (Z.eqb_spec j k) as [->|Nk]; [exists s1; auto|].
      exact (r_site _ _ _ Rf j Hj).
    + intros q x Hin. apply filter_in in Hin. destruct Hin as [Nq Hin]. rewrite Fw. unfold set. apply Z.eqb_neq in Nq. rewrite Nq.
      exact (r_walk _ _ _ Rf _ _ Hin).
    + intros q x Hin. apply filter_in in Hin. exact (r_in _ _ _ Rf _ _ (proj2 Hin)).
    + apply filter_NoDup, (r_ndp _ _ _ Rf).
    + apply filter_NoDup, (r_ndk _ _ _ Rf).
    + rewrite (f_keys _ _ F). exact (r_ndw _ _ _ Rf).
    + rewrite (f_thr _ _ F). exact (r_thr _ _ _ Rf).
    + rewrite (f_thrmin _ _ F). exact (r_min _ _ _ Rf).
    + rewrite (f_iter _ _ F). exact (r_iter _ _ _ Rf).
    + rewrite (f_clusters _ _ F). exact (r_none _ _ _ Rf).
Qed.

Lemma run_refines fuel l : forall T g X X', refines T g X -> 0 <= T -> T + hop_events l <= INT_MAX -> T + hop_events l <= cap -> kmc_run rates pick_at delay_at l X = Some X' ->
  exists g', mfor l (drive clk fuel) g = Ret tt g' /\ refines (T + hop_events l) g' X'.
Proof.
  induction l as [|v l IH]; intros T g X X' Rf H0 HT' HB E; cbn [kmc_run mfor] in *.
  - inversion E; subst. exists g. unfold hop_events. cbn. rewrite Z.add_0_r. split; [reflexivity|exact Rf].
  - destruct (kmc_step rates pick_at delay_at v X) as [X1|] eqn:E1; [|discriminate].
    assert (Hn : hop_events (v :: l) = hop_events l + (if is_hop_event v then 1 else 0)).
    { unfold hop_events. cbn [filter]. destruct (is_hop_event v); cbn [length]; lia. }
    assert (H1 : 0 <= hop_events l) by (unfold hop_events; lia).
    rewrite Hn in *. destruct v as [id p k|id p|id p]; cbn [is_hop_event] in *.
    + destruct (enter_refines T g X id p k X1 Rf E1) as (g1 & R1 & Rf1). destruct (IH T g1 X1 X' Rf1 H0 ltac:(lia) ltac:(lia) E) as (g' & R & Rf').
      exists g'. split; [eapply bind_run; [exact R1|exact R]|]. rewrite Z.add_0_r. exact Rf'.
    + destruct (hop_refines T g X id p fuel X1 Rf ltac:(lia) ltac:(lia) E1) as (g1 & R1 & Rf1). destruct (IH (T + 1) g1 X1 X' Rf1 ltac:(lia) ltac:(lia) ltac:(lia) E) as (g' & R & Rf').
      exists g'. split; [eapply bind_run; [exact R1|exact R]|]. replace (T + (hop_events l + 1)) with (T + 1 + hop_events l) by lia. exact Rf'.
    + destruct (leave_refines T g X id p X1 Rf E1) as (g1 & R1 & Rf1). destruct (IH T g1 X1 X' Rf1 H0 ltac:(lia) ltac:(lia) E) as (g' & R & Rf').
      exists g'. split; [eapply bind_run; [exact R1|exact R]|]. rewrite Z.add_0_r. exact Rf'.
Qed.

Lemma refines_shows T g X : refines T g X -> shows rates g X.
Proof.
  intros Rf. split; [exact (r_walk _ _ _ Rf)|]. split.
  - intros k Hk. destruct (r_site _ _ _ Rf k Hk) as (s & Hs & Is). pose proof (r_feat _ _ _ Rf k Hk) as Hf. split.
    + destruct Is as (_ & _ & _ & _ & Ev & Ec). unfold visits. eexists. unfold sys_getVisits, bind, gets. unfold umem. rewrite Hs.
      unfold in_sites, zoom, sc_getSite, sc_partOfCluster, read_key. rewrite Hs. cbn [lift g_sites g_with_sites]. rewrite Hs. cbn [lift].
      assert (Ep : s_partOfCluster s = false) by (unfold s_partOfCluster; rewrite Ec; reflexivity). rewrite Ep.
      unfold s_getVisitFrequency. rewrite Ev. reflexivity.
    + unfold taken, f_isOccupied.
      destruct (run_site g _ _ g k (gets s_isOccupied) (c <- gets (fun c => c) ;; lift (c_isOccupied c k)) s (someone k (walkers X)) s (st_start g) Hf Hs) as (g3 & R3 & _).
      { unfold gets. rewrite (site_at _ _ _ _ _ Is). reflexivity. }
      exists g3. exact R3.
  - unfold sys_getClusters, in_clusters, zoom, cc_getSiteIds, gets. rewrite (r_none _ _ _ Rf). cbn.
    pose proof (r_none _ _ _ Rf) as Y. destruct g. cbn in Y. subst. reflexivity.
Qed.
End Kmc.

(** ** The start of a simulation *)
Section Start.
Context {I : Impl} {N : Num} {G : Rng} {U : Ugly}.
Variable clk : Z -> Z.

Lemma init_site_seed k r (g g' : world) x : NoDup (ukeys (g_sites g)) -> init_site clk k r g = Ret tt g' -> g_seed g = Some x ->
  g_seed g' = Some ((x + 1) mod 2 ^ 64) /\ exists s, ulookup k (g_sites g') = Some s /\ s_rng s = eseed x.
Proof.
  unfold init_site. intros ND E Ex.
  apply bind_ret_inv in E. destruct E as (t & g1 & E1 & E). apply read_clock_ret in E1. subst g1.
  apply bind_ret_inv in E. destruct E as (h & g1 & E1 & E). inversion E1; subst h g1; clear E1.
  apply bind_ret_inv in E. destruct E as ([u s0] & g1 & E1 & E). apply local_ret in E1. destruct E1 as [-> E1]. cbn [fst snd] in *.
  apply bind_ret_inv in E1. destruct E1 as (u1 & s1 & E1 & E2). inversion E1; subst u1 s1; clear E1. destruct u.
  apply bind_ret_inv in E. destruct E as (sd & g1 & E1 & E).
  unfold use_seed in E1. cbn [g_seed g_with_tick] in E1. rewrite Ex in E1. inversion E1; subst sd g1; clear E1.
  apply bind_ret_inv in E. destruct E as ([u s1] & g1 & E1 & E). apply local_ret in E1. destruct E1 as [-> E1]. cbn [fst snd] in *.
  inversion E1; subst u s1; clear E1.
  destruct (sfixes_setRates _ _ _ _ _ E2) as (A1 & _).
  apply bind_ret_inv in E. destruct E as ([] & g1 & E1 & E). apply (addSite_ret _ k) in E1; [|exact A1].
  destruct E1 as (Nk & ->). inversion E; subst g'; clear E. split; [reflexivity|].
  eexists. cbn [g_sites g_with_feats g_with_sites g_with_seed g_with_tick]. split; [apply uset_lookup_same, ND|reflexivity].
Qed.
Lemma init_seeds l : forall (g g' : world) x, NoDup (ukeys l) -> NoDup (ukeys (g_sites g)) ->
  mfor l (fun e => init_site clk (fst e) (snd e)) g = Ret tt g' -> g_seed g = Some x -> 0 <= x < 2 ^ 64 ->
  forall i k, nth_error (ukeys l) i = Some k ->
    exists s, ulookup k (g_sites g') = Some s /\ s_rng s = eseed ((x + Z.of_nat i) mod 2 ^ 64).
Proof.
  induction l as [|[k0 r0] l IH]; intros g g' x ND NDs E Ex Hx i k Hi; [destruct i; discriminate|]. cbn [mfor] in E.
  apply bind_ret_inv in E. destruct E as ([] & g1 & E1 & E). cbn [fst snd] in E1.
  destruct (init_site_seed _ _ _ _ _ NDs E1 Ex) as (Ex1 & s & Es & Er).
  cbn [ukeys map fst] in ND, Hi. inversion ND as [|? ? N0 ND']; subst.
  assert (NDs1 : NoDup (ukeys (g_sites g1))).
  { apply init_site_inv in E1. destruct E1 as (? & ? & _ & _ & _ & _ & ->). cbn [g_sites g_with_feats g_with_sites]. apply uset_NoDup, NDs. }
  destruct i as [|i]; cbn [nth_error] in Hi.
  - inversion Hi; subst k. destruct (init_keys clk _ _ _ ND' NDs1 E) as (_ & _ & _ & B). exists s. rewrite B by exact N0.
    split; [exact Es|]. cbn [Z.of_nat]. rewrite Z.add_0_r, Z.mod_small by exact Hx. exact Er.
  - destruct (IH g1 g' _ ND' NDs1 E Ex1 (Z.mod_pos_bound (x + 1) (2 ^ 64) eq_refl) i k Hi) as (s1 & Es1 & Er1). exists s1. split; [exact Es1|].
    rewrite Er1. f_equal. rewrite Zplus_mod_idemp_l. f_equal. lia.
Qed.

(** a map of rates that can be given to a site without neighbours *)
Definition settable (h : heap) (r : umap Z) : Prop := forall s0 : site, s_neigh s0 = [] -> exists s, s_setRates h r s0 = Ret tt s.
Lemma init_site_ok k r (g : world) : settable (g_heap g) r -> ulookup k (g_sites g) = None ->
  exists g', init_site clk k r g = Ret tt g'.
Proof.
  intros Hg Nk.
  destruct (Hg (s_with_id (Some k) (site_new (clk (g_tick g)))) eq_refl) as [s1 E1].
  assert (Ei : s_id s1 = Some k) by (destruct (sfixes_setRates _ _ _ _ _ E1) as (A1 & _); exact A1).
  unfold init_site. unfold bind at 1. unfold read_clock, next_tick, bind at 1, ret.
  unfold bind at 1, gets. cbn [g_heap g_with_tick].
  assert (E2 : (s_setId k ;; s_setRates (g_heap g) r) (site_new (clk (g_tick g))) = Ret tt s1) by exact E1.
  unfold bind at 1. unfold local at 1. rewrite E2.
  unfold bind at 1. unfold use_seed. cbn [g_seed g_with_tick fst snd].
  assert (Add : forall s (x : world), s_id s = Some k -> g_sites x = g_sites g -> exists x',
            (in_sites (sc_addSite s) ;; modify (fun g => g_with_feats (uset (g_feats g) k (PSite k)) g)) x = Ret tt x').
  { intros s x Es Ex. unfold bind at 1, in_sites, zoom, sc_addSite, bind, lift, s_getId, gets, modify. rewrite Es, Ex.
    assert (Um : umem k (g_sites g) = false) by (apply umem_false_lookup; exact Nk). rewrite Um. eexists. reflexivity. }
  destruct (g_seed g) as [sd|]; cbn [fst snd]; unfold bind at 1; unfold local at 1; cbn [s_setRandomSeed modify fst snd].
  - apply Add; [exact Ei|reflexivity].
  - cbn [ret]. apply Add; [exact Ei|reflexivity].
Qed.
Lemma init_drain_ok k (g : world) : ulookup k (g_sites g) = None -> exists g', init_drain clk k g = Ret tt g'.
Proof.
  intros Nk. unfold init_drain, read_clock, next_tick, bind, ret, local, s_setId, modify, in_sites, zoom, sc_addSite, lift, s_getId, gets.
  cbn [fst snd s_id s_with_id bind lift g_sites g_with_tick]. unfold bind, lift, gets, modify. cbn [fst snd s_id s_with_id g_sites g_with_tick].
  assert (Um : umem k (g_sites g) = false) by (apply umem_false_lookup; exact Nk). rewrite Um. eexists. reflexivity.
Qed.
Lemma init_keys_ok l : forall (g : world), NoDup (ukeys l) -> NoDup (ukeys (g_sites g)) ->
  (forall k r, In (k, r) l -> settable (g_heap g) r /\ ulookup k (g_sites g) = None) ->
  exists g', mfor l (fun e => init_site clk (fst e) (snd e)) g = Ret tt g'.
Proof.
  induction l as [|[k r] l IH]; intros g ND NDs Hl; cbn [mfor]; [eexists; reflexivity|].
  destruct (Hl k r (or_introl eq_refl)) as [Hg Nk]. destruct (init_site_ok k r g Hg Nk) as [g1 E1].
  unfold bind. cbn [fst snd]. rewrite E1. apply init_site_inv in E1. destruct E1 as (s & sd & _ & _ & _ & _ & ->).
  cbn [ukeys map fst] in ND. inversion ND as [|? ? N0 ND']; subst.
  apply IH; [exact ND'|cbn [g_sites g_with_feats g_with_sites]; apply uset_NoDup, NDs|].
  intros k' r' Hin. destruct (Hl k' r' (or_intror Hin)) as [Hg' Nk']. split; [exact Hg'|].
  cbn [g_sites g_with_feats g_with_sites]. rewrite uset_lookup_other; [exact Nk'|exact NDs|].
  intros ->. apply N0. apply (in_map fst) in Hin. exact Hin.
Qed.
Lemma init_drains_ok l : forall (g : world), NoDup l -> NoDup (ukeys (g_sites g)) ->
  (forall k, In k l -> ulookup k (g_sites g) = None) -> exists g', mfor l (init_drain clk) g = Ret tt g'.
Proof.
  induction l as [|k l IH]; intros g ND NDs Hl; cbn [mfor]; [eexists; reflexivity|].
  destruct (init_drain_ok k g (Hl k (or_introl eq_refl))) as [g1 E1].
  unfold bind. rewrite E1. apply init_drain_inv in E1. destruct E1 as (t & _ & ->).
  inversion ND as [|? ? N0 ND']; subst. apply IH; [exact ND'|cbn [g_sites g_with_feats g_with_sites]; apply uset_NoDup, NDs|].
  intros k' Hin. cbn [g_sites g_with_feats g_with_sites]. rewrite uset_lookup_other; [apply Hl; right; exact Hin|exact NDs|].
  intros ->. contradiction.
Qed.
Lemma init_ok rates (g : world) ws : inv g ws -> g_res g <> None -> NoDup (ukeys rates) ->
  (forall k r, In (k, r) rates -> settable (g_heap g) r) -> (forall k, mentioned rates k -> ~ knows g k) ->
  exists g', sys_initializeSystem clk rates g = Ret tt g'.
Proof.
  intros V Hr ND Hg Nk. unfold sys_initializeSystem, bind at 1, gets. destruct (g_res g); [|congruence].
  assert (L : forall k, mentioned rates k -> ulookup k (g_sites g) = None).
  { intros k Hk. destruct (ulookup k (g_sites g)) eqn:Es; [|reflexivity]. exfalso. apply (Nk k Hk), (known_site g ws k V). eauto. }
  pose proof (h_nds _ _ _ (v_shape _ _ V)) as NDs.
  destruct (init_keys_ok rates g ND NDs) as [g1 E1].
  { intros k r Hin. split; [eapply Hg; eauto|]. apply L. left. apply (in_map fst) in Hin. exact Hin. }
  unfold bind. rewrite E1. destruct (init_keys clk _ _ _ ND NDs E1) as (_ & ND1 & _ & B).
  destruct (drains_in clk rates) as [NDd Hd]. apply init_drains_ok; [exact NDd|exact ND1|].
  intros k Hk. apply Hd in Hk. rewrite B by tauto. apply L. right. tauto.
Qed.

Definition site_table (g : world) (k : Z) : list (Z * num) := match ulookup k (g_sites g) with Some s => s_prob s | None => [] end.
Definition site_tau (g : world) (k : Z) : num := match ulookup k (g_sites g) with Some s => s_tau s | None => n0 end.
Definition site_stream (g : world) (k : Z) : eng := match ulookup k (g_sites g) with Some s => s_rng s | None => eseed 0 end.

Lemma start rates walkers h count tick thr (t : num) seed : NoDup (ukeys walkers) -> 0 <= count -> nleb t n0 = false ->
  NoDup (ukeys rates) ->
  (forall k r, In (k, r) rates -> settable h r /\ NoDup (ukeys r) /\ forall n, In n (ukeys r) -> In n (ukeys rates)) ->
  exists g, prologue rates clk thr t seed (world_new walkers h count tick) = Ret tt g /\
    refines rates (site_table g) (site_tau g) (search_after thr) 0 g (empty (site_stream g)) /\
    (forall k r, In (k, r) rates -> exists s, ulookup k (g_sites g) = Some s /\ keyed h r k s) /\
    (forall s, seed = Some s -> 0 <= s < 2 ^ 64 -> forall i k, nth_error (ukeys rates) i = Some k -> site_stream g k = eseed ((s + Z.of_nat i) mod 2 ^ 64)).
Proof.
  intros NDw Hc Ht ND Hr.
  set (g0 := world_new walkers h count tick).
  set (g1 := match thr with Some b => g_with_thr b (g_with_thrmin b g0) | None => g0 end).
  set (g2 := g_with_res (Some t) g1).
  set (g3 := match seed with Some s => g_with_seed (Some s) g2 | None => g2 end).
  assert (E1 : (match thr with Some b => sys_setThreshold b | None => ret tt end) g0 = Ret tt g1) by (destruct thr; reflexivity).
  assert (E2 : sys_setTimeResolution t g1 = Ret tt g2) by (unfold sys_setTimeResolution; rewrite Ht; reflexivity).
  assert (E3 : (match seed with Some s => sys_setRandomSeed s | None => ret tt end) g2 = Ret tt g3) by (unfold g3, g2, g1; destruct seed, thr; reflexivity).
  assert (Hh : g_heap g3 = h /\ g_sites g3 = [] /\ g_clusters g3 = [] /\ g_walkers g3 = walkers /\ g_thr g3 = search_after thr /\ g_thrmin g3 = search_after thr /\ g_iter g3 = 0 /\ g_res g3 <> None)
    by (unfold g3, g2, g1; destruct seed, thr; repeat split; discriminate).
  destruct Hh as (Hh & Hsi & Hcl & Hwa & Htr & Htm & Hit & Hre).
  assert (R3 : reach clk g3 []).
  { assert (S2 : steps clk g0 [] ((match thr with Some b => [] ++ [KThr b] | None => [] end) ++ [KRes t]) g2 []).
    { econstructor; [|apply st_res; exact E2]. destruct thr; [econstructor; [constructor|apply st_thr; exact E1]|constructor]. }
    destruct seed as [s|]; eexists; exists walkers, h, count, tick; (split; [exact NDw|]); (split; [exact Hc|]); [|exact S2].
    econstructor; [exact S2|]. apply st_seed. exact E3. }
  pose proof (reach_inv clk _ _ R3) as V3.
  assert (Nkn : forall k, ~ knows g3 k). { intros k X. apply (known_site g3 [] k V3) in X. destruct X as [s Es]. rewrite Hsi in Es. discriminate. }
  destruct (init_ok rates g3 [] V3 Hre ND) as [g E].
  { intros k r Hin. rewrite Hh. apply Hr in Hin. apply Hin. }
  { intros k _. apply Nkn. }
  assert (R : reach clk g []).
  { destruct R3 as (tr & a & b & c & d & X1 & X2 & X3). exists (tr ++ [KInit rates]), a, b, c, d. split; [exact X1|]. split; [exact X2|].
    econstructor; [exact X3|]. apply st_init; [exact ND| |exact E]. intros k r Hin. apply Hr in Hin. apply Hin. }
  pose proof (reach_inv clk _ _ R) as V.
  destruct (init_all clk rates g3 g [] V3 ND E) as (Zs & A & _ & _).
  rewrite Hh in A.
  assert (Ky : forall k r, In (k, r) rates -> exists s, ulookup k (g_sites g) = Some s /\ keyed h r k s).
  { intros k r Hin. destruct (A k r Hin) as (_ & s & Es & K). eauto. }
  assert (Kx : forall k, In k (ukeys rates) -> exists s r, ulookup k (g_sites g) = Some s /\ keyed h r k s).
  { intros k Hk. apply in_map_iff in Hk. destruct Hk as ([k' r] & Ek & Hin). cbn [fst] in Ek. subst k'. destruct (Ky k r Hin) as (s & Es & K). eauto. }
  exists g. split; [|split; [|split]].
  - unfold prologue. eapply bind_run; [exact E1|]. eapply bind_run; [exact E2|]. eapply bind_run; [exact E3|exact E].
  - split; cbn [FloatKmcSpec.walkers stream arrivals empty someone existsb]; try (intros ? ? []); try constructor.
    + intros k Hk. destruct (Kx k Hk) as (s & r & Es & (_ & (B1 & _) & _)). rewrite (h_feat _ _ _ (v_shape _ _ V)), Es, B1. reflexivity.
    + intros k Hk. destruct (Kx k Hk) as (s & r & Es & K). exists s. split; [exact Es|]. destruct K as (_ & (B1 & B2 & B3) & _).
      unfold site_is, site_table, site_tau, site_stream. rewrite Es. repeat split; assumption.
    + rewrite (z_walkers _ _ Zs), Hwa. exact NDw.
    + rewrite (z_thr _ _ Zs). exact Htr.
    + rewrite (z_thrmin _ _ Zs). exact Htm.
    + rewrite (z_iter _ _ Zs). exact Hit.
    + rewrite (z_clusters _ _ Zs). exact Hcl.
  - exact Ky.
  - intros s -> Hs i k Hi.
    unfold sys_initializeSystem in E. apply bind_ret_inv in E. destruct E as (r0 & gx & Ex & E). inversion Ex; subst r0 gx; clear Ex.
    destruct (g_res g3); [|congruence].
    apply bind_ret_inv in E. destruct E as ([] & g4 & E4 & E).
    assert (Dr : ukeys (drains rates) = []).
    { destruct (ukeys (drains rates)) as [|k0 l0] eqn:Ed; [reflexivity|]. exfalso. destruct (drains_in clk rates) as [_ X].
      destruct (proj1 (X k0)) as (Y & k' & r & Hin & Hn); [rewrite Ed; left; reflexivity|]. apply Y. apply Hr in Hin. apply Hin, Hn. }
    rewrite Dr in E. inversion E; subst g4; clear E.
    assert (NDs : NoDup (ukeys (g_sites g3))) by (rewrite Hsi; constructor).
    destruct (init_seeds rates g3 g s ND NDs E4 eq_refl Hs i k Hi) as (s1 & Es1 & Er1). unfold site_stream. rewrite Es1. exact Er1.
Qed.

End Start.

(** ** Doubles *)
Section Doubles.
Variable lnf : float -> float.
Context {I : Impl} {G : @Rng (F64 lnf)} {U : @Ugly (F64 lnf)}.
Notation FN := (F64 lnf).
Variable clk : Z -> Z.

Theorem plain64 rates walkers (h : @heap FN) count tick thr (t : @num FN) seed : NoDup (ukeys walkers) -> 0 <= count -> nleb t n0 = false -> network64 h rates ->
  exists (choose : Z -> @num FN -> Z) (delay : Z -> @num FN -> @num FN) streams, nearly_fair (G := G) h rates choose /\ nearly_exponential (G := G) h rates delay /\
    (forall s, seed = Some s -> 0 <= s < 2 ^ 64 -> forall i k, nth_error (ukeys rates) i = Some k -> streams k = eseed ((s + Z.of_nat i) mod 2 ^ 64)) /\
    forall fuel l K, kmc_run rates choose delay l (empty streams) = Some K -> hop_events l <= INT_MAX -> hop_events l <= search_after thr ->
      exists g, (prologue rates clk thr t seed ;; mfor l (drive clk fuel)) (world_new walkers h count tick) = Ret tt g /\ shows rates g K.
Proof.
  intros NDw Hc Ht (ND & Nu & Hn). destruct (start clk rates walkers h count tick thr t seed NDw Hc Ht ND) as (g0 & E0 & Rf & Ky & Sd).
  { intros k r Hin. destruct (Hn k r Hin) as [Hg Hk]. split; [|split; [apply Hg|exact Hk]].
    intros s0 Hs. destruct (fsetRates lnf (I := I) h r s0 Hs Hg) as (nb & rs & E & _). eauto. }
  exists (pick_at (site_table g0)), (delay_at (site_tau g0)), (site_stream g0). split; [|split; [|split; [exact Sd|]]].
  - intros k r Hin margin. destruct (Hn k r Hin) as [Hg _]. destruct (Ky k r Hin) as (s & Es & _ & _ & t0 & e0 & sr & Er & Esr).
    destruct (pick_near lnf (I := I) h r (s_with_id (Some k) (site_new t0)) eq_refl Hg) as (sp & Ep & P1 & lo & P2 & P3 & P4).
    assert (sp = sr) by congruence. subst sp. clear Ep.
    assert (Pk : forall d e e', edraw e = (d, e') -> s_pick (s_with_rng e sr) = Ret (pick_at (site_table g0) k d) (s_with_rng e' (s_with_rng e sr))).
    { intros d e e' Ed. unfold s_pick, bind, s_draw, gets, ret. cbn [s_rng s_with_rng]. rewrite Ed. unfold pick_at, site_table. rewrite Es, Esr. reflexivity. }
    split; [|exists lo; split; [exact P2|split; [exact P3|]]].
    + intros d (e & e' & Ed & Fd & Hd) Hm. destruct (P1 (s_with_rng e sr) d e' eq_refl Ed Fd (conj (proj1 Hd) Hm)) as (j & s2 & Ej & Hj).
      rewrite (Pk _ _ _ Ed) in Ej. assert (Ej' : pick_at (site_table g0) k d = j) by congruence. rewrite Ej'. exact Hj.
    + intros d j a (e & e' & Ed & Fd & Hd) Ha. destruct (P4 (s_with_rng e sr) d e' j a eq_refl Ed Fd (proj1 Hd) Ha _ _ (Pk _ _ _ Ed)) as [A B].
      split; [exact A|exact B].
  - intros k r d Hin (e & e' & Ed & Fd & Hd) Hp Hl. destruct (Hn k r Hin) as [Hg _]. destruct (Ky k r Hin) as (s & Es & _ & _ & t0 & e0 & sr & Er & Esr).
    destruct (dwell_near lnf (I := I) h r (s_with_id (Some k) (site_new t0)) eq_refl Hg) as (sd & Esd & D1).
    assert (sd = sr) by congruence. subst sd. clear Esd.
    destruct (D1 (s_with_rng e sr) d e' eq_refl Ed Fd (conj Hp (proj2 Hd)) Hl) as (w & s2 & Ew & Fw & Pw & Nw).
    assert (Ew' : delay_at (site_tau g0) k d = w).
    { unfold s_getDwellTime, bind, s_draw, gets, ret in Ew. cbn [s_rng s_with_rng] in Ew. rewrite Ed in Ew. injection Ew as Ew _. rewrite <- Ew.
      unfold delay_at, site_tau. rewrite Es, Esr. reflexivity. }
    rewrite Ew'. auto.
  - intros fuel l K E Hl Hb.
    destruct (run_refines clk rates (site_table g0) (site_tau g0) (search_after thr) Nu fuel l 0 g0 _ K Rf ltac:(lia) ltac:(lia) ltac:(lia) E) as (g & Eg & Rg).
    exists g. split; [eapply bind_run; [exact E0|exact Eg]|]. exact (refines_shows _ _ _ _ _ _ _ Rg).
Qed.
End Doubles.
