(** * Without coarse graining the system is kinetic Monte Carlo *)
From Coq Require Import ZArith List Bool Reals Lra Lia Permutation.
From Verif Require Import Base BaseProofs Num OrdLaws RSum WalkerModel SiteModel SiteSpec SiteProofs ClusterModel ContainerModel BasinModel
  SystemModel SystemSpec SystemShape SystemHop SystemCoarse SystemMerge SystemProofs SystemFacts SystemControl SystemInit ValidSpec KmcSpec.
Import ListNotations.
Open Scope Z_scope.

Section Kmc.
Context {I : Impl} {G : @Rng XR} {U : @Ugly XR}.
Variable clk : Z -> Z.
Notation world := (@world XR G).
Notation site := (@site XR G).

Lemma bind_run {S A B} (m : M S A) (k : A -> M S B) s a s1 o : m s = Ret a s1 -> k a s1 = o -> bind m k s = o.
Proof. intros E1 E2. unfold bind. rewrite E1. exact E2. Qed.

(** ** The state as lookups *)
Record frame (g g' : world) : Prop := {
  f_thr : g_thr g' = g_thr g; f_thrmin : g_thrmin g' = g_thrmin g; f_iter : g_iter g' = g_iter g;
  f_feats : g_feats g' = g_feats g; f_clusters : g_clusters g' = g_clusters g;
  f_keys : ukeys (g_walkers g') = ukeys (g_walkers g) }.
Definition st (g0 : world) (fs : Z -> option site) (fw : Z -> option (@walker XR)) (g : world) : Prop :=
  frame g0 g /\ (forall k, ulookup k (g_sites g) = fs k) /\ (forall p, ulookup p (g_walkers g) = fw p).
Lemma st_start g : st g (fun k => ulookup k (g_sites g)) (fun p => ulookup p (g_walkers g)) g.
Proof. split; [split; reflexivity|split; reflexivity]. Qed.

Lemma find_replace {V} k j (v c : V) m : ulookup j m = Some c -> ulookup k (ureplace j v m) = if k =? j then Some v else ulookup k m.
Proof.
  induction m as [|[a x] m IH]; cbn [ulookup ureplace]; intros E; [discriminate|].
  destruct (j =? a) eqn:Ej.
  - apply Z.eqb_eq in Ej. subst a. cbn [ulookup]. destruct (k =? j); reflexivity.
  - cbn [ulookup]. rewrite (IH E). destruct (k =? a) eqn:Ek; [|reflexivity].
    apply Z.eqb_eq in Ek. subst a. rewrite Z.eqb_sym, Ej. reflexivity.
Qed.
Lemma keys_replace {V} k (v : V) m : ukeys (ureplace k v m) = ukeys m.
Proof. induction m as [|[j x] m IH]; [reflexivity|]. cbn [ureplace]. destruct (k =? j); cbn; [reflexivity|]. f_equal. exact IH. Qed.

Lemma run_site {A} g0 fs fw g k (ms : M site A) mc s a s' : st g0 fs fw g -> ulookup k (g_feats g0) = Some (PSite k) ->
  fs k = Some s -> ms s = Ret a s' -> exists g', on_feature k ms mc g = Ret a g' /\ st g0 (set fs k (Some s')) fw g'.
Proof.
  intros [F [Fs Fw]] Hf Hs E. exists (g_with_sites (ureplace k s' (g_sites g)) g). split.
  - unfold on_feature, bind, gets. rewrite (f_feats _ _ F), Hf. unfold in_sites, zoom, at_key. rewrite Fs, Hs, E. reflexivity.
  - split; [destruct F; split; assumption|]. split; [|exact Fw]. intros j. cbn [g_sites g_with_sites].
    rewrite (find_replace j k s' s) by (rewrite Fs; exact Hs). unfold set. destruct (j =? k); [reflexivity|apply Fs].
Qed.
Lemma run_clock g0 fs fw g : st g0 fs fw g -> exists t g', read_clock clk g = Ret t g' /\ st g0 fs fw g'.
Proof.
  intros [F [Fs Fw]]. eexists _, _. split; [reflexivity|]. split; [destruct F; split; assumption|]. split; assumption.
Qed.
Lemma run_walker {A} g0 fs fw g p (m : M (@walker XR) A) w a w' : st g0 fs fw g -> fw p = Some w -> m w = Ret a w' ->
  exists g', in_walker p m g = Ret a g' /\ st g0 fs (set fw p (Some w')) g'.
Proof.
  intros [F [Fs Fw]] Hw E. exists (g_with_walkers (ureplace p w' (g_walkers g)) g). split.
  - unfold in_walker, zoom, at_key. rewrite Fw, Hw, E. reflexivity.
  - split; [destruct F; split; try assumption; cbn [g_walkers g_with_walkers]; rewrite keys_replace; assumption|].
    split; [exact Fs|]. intros q. cbn [g_walkers g_with_walkers]. rewrite (find_replace q p w' w) by (rewrite Fw; exact Hw).
    unfold set. destruct (q =? p); [reflexivity|apply Fw].
Qed.

(** ** Sites *)
Variable h : @heap XR.
Variable rates : umap (umap Z).
Variable table : Z -> list (Z * @num XR).
Variable cap : Z.
Definition pick_at (k : Z) (u : R) : Z := @pick_scan XR (Fin u) n0 (table k).
Notation K := (@kmc G).
Notation total k := (total_rate h (away rates k)).

Definition site_is (s : site) (k : Z) (e : @eng XR G) (n : Z) (b : bool) : Prop :=
  s_rng s = e /\ s_prob s = table k /\ s_tau s = (Fin (1 / total k) : @num XR) /\ s_occ s = (if b then 1 else 0) /\ s_visits s = n /\ s_cluster s = unassignedId.
Record refines (T : Z) (g : world) (K : K) : Prop := {
  r_feat : forall k, In k (ukeys rates) -> ulookup k (g_feats g) = Some (PSite k);
  r_site : forall k, In k (ukeys rates) -> exists s, ulookup k (g_sites g) = Some s /\ site_is s k (stream K k) (arrivals K k) (someone k (walkers K));
  r_walk : forall p w, In (p, w) (walkers K) -> ulookup p (g_walkers g) = Some (mkWalker (on w) (aim w) (Fin (wait w)));
  r_in : forall p w, In (p, w) (walkers K) -> In (on w) (ukeys rates) /\ In (aim w) (ukeys rates);
  r_ndp : NoDup (map fst (walkers K));
  r_ndk : NoDup (map (fun e => on (snd e)) (walkers K));
  r_ndw : NoDup (ukeys (g_walkers g));
  r_thr : g_thr g = cap; r_min : g_thrmin g = cap; r_iter : g_iter g = T; r_none : g_clusters g = [] }.

Lemma seek_in p l w : NoDup (map fst l) -> (seek p l = Some w <-> In (p, w) l).
Proof.
  unfold seek. induction l as [|[q x] l IH]; cbn [find map fst snd]; intros ND; [split; [discriminate|intros []]|].
  inversion ND as [|? ? N0 ND']; subst. destruct (Z.eqb_spec q p) as [->|Ne].
  - split; [intros E; inversion E; left; reflexivity|]. intros [E|E]; [inversion E; reflexivity|].
    exfalso. apply N0. apply (in_map fst) in E. exact E.
  - rewrite (IH ND'). split; [intros E; right; exact E|]. intros [E|E]; [inversion E; congruence|exact E].
Qed.
Lemma seek_none p l : seek p l = None -> ~ In p (map fst l).
Proof.
  unfold seek. induction l as [|[q x] l IH]; cbn [find map fst snd]; [intros _ []|].
  destruct (Z.eqb_spec q p) as [->|Ne]; [discriminate|]. intros E [X|X]; [congruence|exact (IH E X)].
Qed.
Lemma someone_in k l : someone k l = true <-> exists p w, In (p, w) l /\ on w = k.
Proof.
  unfold someone. rewrite existsb_exists. split.
  - intros ([p w] & Hin & E). apply Z.eqb_eq in E. exists p, w. auto.
  - intros (p & w & Hin & E). exists (p, w). split; [exact Hin|]. apply Z.eqb_eq. exact E.
Qed.
Lemma bool_ext (a b : bool) : (a = true <-> b = true) -> a = b.
Proof. destruct a, b; intuition congruence. Qed.

(** draws *)
Hypothesis HD : open_draws G.
Lemma drawn (e : @eng XR G) : exists u e', edraw e = ((Fin u : @num XR), e') /\ (0 < u < 1)%R.
Proof. apply HD. Qed.
Hypothesis HT : forall k, In k (ukeys rates) -> (0 < total k)%R.
Hypothesis HP : forall k u, In k (ukeys rates) -> (0 <= u < 1)%R -> In (pick_at k u) (ukeys rates).

(** the two draws at a site *)
Lemma run_draws s k (X : K) n b : site_is s k (stream X k) n b -> In k (ukeys rates) ->
  exists w X' t s1 s2, settle h rates pick_at k X = (w, X') /\ on w = k /\ In (aim w) (ukeys rates) /\
    s_getDwellTime s = Ret (Fin (wait w) : @num XR) s1 /\ s_pick s1 = Ret (aim w) s2 /\ t = wait w /\
    walkers X' = walkers X /\ stream X' = set (stream X) k (s_rng s2) /\ arrivals X' = set (arrivals X) k (arrivals X k + 1) /\
    site_is s2 k (s_rng s2) n b.
Proof.
  intros (E1 & E2 & E3 & E4 & E5 & E6) Hk.
  destruct (drawn (stream X k)) as (u & e & Du & Hu). destruct (drawn e) as (v & e' & Dv & Hv).
  exists (mkHopper k (pick_at k v) (- ln u / total k)), (mkKmc (walkers X) (set (stream X) k e') (set (arrivals X) k (arrivals X k + 1))), (- ln u / total k)%R,
    (s_with_rng e s), (s_with_rng e' (s_with_rng e s)).
  split; [unfold settle; rewrite Du, Dv; reflexivity|]. split; [reflexivity|]. split; [cbn [aim]; apply HP; [exact Hk|lra]|]. split.
  { unfold s_getDwellTime, bind, s_draw, gets, ret. rewrite E1, Du. cbn [s_tau s_with_rng]. rewrite E3.
    unfold dwell_of. cbn [nmul nofZ nlog XR]. unfold xlog. cbn [wait].
    assert (Lu : Rltb u 0 = false) by (apply Rltb_false; lra).
    assert (Le : Reqb u 0 = false) by (unfold Reqb; destruct (Req_EM_T u 0); [lra|reflexivity]).
    cbn [nltb neqb]. rewrite ?Lu, ?Le. cbn [xmul]. f_equal. f_equal.
    assert (total k <> 0)%R by (specialize (HT k Hk); lra). field. assumption. }
  split; [unfold s_pick, bind, s_draw, gets, ret; cbn [s_rng s_with_rng]; rewrite Dv; cbn [s_prob s_with_rng]; rewrite E2; reflexivity|].
  split; [reflexivity|]. split; [reflexivity|]. split; [reflexivity|]. split; [reflexivity|].
  split; [reflexivity|]. split; [exact E2|]. split; [exact E3|]. split; [exact E4|]. split; [exact E5|exact E6].
Qed.

(** ** Moving one walker *)
Definition swap (p : Z) (w' : hopper) (l : list (Z * hopper)) : list (Z * hopper) := map (fun e => if fst e =? p then (p, w') else e) l.
Lemma swap_fst p w' l : map fst (swap p w' l) = map fst l.
Proof. unfold swap. rewrite map_map. apply map_ext. intros [q x]. cbn [fst]. destruct (Z.eqb_spec q p); [symmetry; assumption|reflexivity]. Qed.
Lemma swap_in p w' l q x : In (q, x) (swap p w' l) <-> (q = p /\ x = w' /\ In p (map fst l)) \/ (q <> p /\ In (q, x) l).
Proof.
  unfold swap. rewrite in_map_iff. split.
  - intros ([r y] & E & Hin). cbn [fst] in E. destruct (Z.eqb_spec r p) as [->|Ne]; inversion E; subst; [|right; auto].
    left. split; [reflexivity|]. split; [reflexivity|]. apply (in_map fst) in Hin. exact Hin.
  - intros [(-> & -> & Hin)|[Ne Hin]].
    + apply in_map_iff in Hin. destruct Hin as ([r y] & E & Hin). cbn in E. subst r. exists (p, y). cbn [fst]. rewrite Z.eqb_refl. auto.
    + exists (q, x). cbn [fst]. apply Z.eqb_neq in Ne. rewrite Ne. auto.
Qed.
Lemma swap_on p w' l : NoDup (map fst l) -> NoDup (map (fun e => on (snd e)) l) ->
  (forall q x, In (q, x) l -> q <> p -> on x <> on w') -> NoDup (map (fun e => on (snd e)) (swap p w' l)).
Proof.
  induction l as [|[q x] l IH]; intros N1 N2 H; [constructor|]. cbn [map fst snd] in N1, N2.
  inversion N1 as [|? ? A1 B1]; inversion N2 as [|? ? A2 B2]; subst. specialize (IH B1 B2 (fun r y Hin => H r y (or_intror Hin))).
  cbn [swap map fst]. constructor; [|exact IH]. intros X. apply in_map_iff in X. destruct X as ([r y] & E & Hin). cbn [snd] in E.
  apply swap_in in Hin. destruct Hin as [(-> & -> & Hp)|[Ne Hin]].
  - destruct (Z.eqb_spec q p) as [->|Nq]; [contradiction|]. cbn [snd] in E. apply (H q x); [left; reflexivity|exact Nq|symmetry; exact E].
  - destruct (Z.eqb_spec q p) as [->|Nq]; cbn [snd] in E.
    + apply (H r y); [right; exact Hin|exact Ne|exact E].
    + apply A2. apply in_map_iff. exists (r, y). split; [exact E|exact Hin].
Qed.
Lemma on_inj (l : list (Z * hopper)) p w q x : NoDup (map (fun e => on (snd e)) l) -> In (p, w) l -> In (q, x) l -> on w = on x -> p = q /\ w = x.
Proof.
  induction l as [|[r y] l IH]; intros N H1 H2 Eo; [destruct H1|]; destruct H1 as [E|H1], H2 as [E'|H2]; cbn [map snd] in N; inversion N as [|? ? A B]; subst.
  - inversion E; inversion E'; subst. auto.
  - inversion E; subst. exfalso. apply A. rewrite Eo. apply (in_map (fun e => on (snd e))) in H2. exact H2.
  - inversion E'; subst. exfalso. apply A. rewrite <- Eo. apply (in_map (fun e => on (snd e))) in H1. exact H1.
  - apply IH; assumption.
Qed.
Lemma swap_someone p w w' l k : NoDup (map (fun e => on (snd e)) l) -> NoDup (map fst l) -> In (p, w) l ->
  someone k (swap p w' l) = (k =? on w') || (someone k l && negb (k =? on w)).
Proof.
  intros N1 N2 Hp. apply bool_ext. rewrite someone_in, orb_true_iff, andb_true_iff, negb_true_iff, Z.eqb_eq, Z.eqb_neq, someone_in. split.
  - intros (q & x & Hin & E). apply swap_in in Hin. destruct Hin as [(-> & -> & _)|[Ne Hin]]; [left; symmetry; exact E|].
    right. split; [exists q, x; auto|]. intros ->. destruct (on_inj _ _ _ _ _ N1 Hp Hin (eq_sym E)). congruence.
  - intros [->|[(q & x & Hin & E) Ne]].
    + exists p, w'. split; [|reflexivity]. apply swap_in. left. split; [reflexivity|]. split; [reflexivity|]. apply (in_map fst) in Hp. exact Hp.
    + exists q, x. split; [|exact E]. apply swap_in. right. split; [|exact Hin]. intros ->.
      assert (x = w); [|subst x; congruence]. apply seek_in in Hin, Hp; [|assumption..]. congruence.
Qed.

Lemma site_at s k e n b : site_is s k e n b -> s_isOccupied s = b.
Proof. intros (_ & _ & _ & E & _). unfold s_isOccupied. rewrite E. destruct b; reflexivity. Qed.
Lemma site_leave s k e n : site_is s k e n true -> exists s', s_vacate s = Ret tt s' /\ site_is s' k e n false.
Proof.
  intros (E1 & E2 & E3 & E4 & E5 & E6). eexists. split; [reflexivity|]. unfold site_is. cbn. rewrite E4. auto 10.
Qed.
Lemma site_enter s k e n : site_is s k e n false -> exists s', s_occupy s = Ret tt s' /\ site_is s' k e (n + 1) true.
Proof.
  intros (E1 & E2 & E3 & E4 & E5 & E6). eexists. split; [reflexivity|]. unfold site_is. cbn. rewrite E4, E5. auto 10.
Qed.

(** what an event leaves behind, as lookups *)
Definition after_hop (fs : Z -> option site) (fw : Z -> option (@walker XR)) (p src dst : Z) (w' : hopper) (s1 s2 : site) (g0 g : world) : Prop :=
  exists fs' fw', st g0 fs' fw' g /\
    (forall k, fs' k = if k =? dst then Some s2 else if k =? src then Some s1 else fs k) /\
    (forall q, fw' q = if q =? p then Some (mkWalker (on w') (aim w') (Fin (wait w'))) else fw q).

Ltac go H := let t := fresh "t" in let g := fresh "g" in let E := fresh "E" in let S := fresh "S" in
  destruct H as (g & E & S); eapply bind_run; [exact E|clear E].

Lemma settle_run g0 fs fw g k id p (X : K) s n b wk : st g0 fs fw g -> ulookup k (g_feats g0) = Some (PSite k) ->
  fs k = Some s -> site_is s k (stream X k) n b -> In k (ukeys rates) -> fw p = Some wk -> w_cur wk = k ->
  exists w' X' s2 g', (t <- f_getDwellTime k id ;; in_walker p (w_setDwellTime t) ;; n <- f_pick k id ;; in_walker p (w_setPotentialSite n)) g = Ret tt g' /\
    settle h rates pick_at k X = (w', X') /\ on w' = k /\ In (aim w') (ukeys rates) /\ walkers X' = walkers X /\
    stream X' = set (stream X) k (s_rng s2) /\ arrivals X' = set (arrivals X) k (arrivals X k + 1) /\ site_is s2 k (s_rng s2) n b /\
    exists fs' fw', st g0 fs' fw' g' /\ (forall j, fs' j = if j =? k then Some s2 else fs j) /\
      (forall q, fw' q = if q =? p then Some (mkWalker (on w') (aim w') (Fin (wait w'))) else fw q).
Proof.
  intros S Hf Hs Hi Hk Hw Hc. destruct (run_draws s k X n b Hi Hk) as (w' & X' & t & s1 & s2 & E1 & E2 & E3 & E4 & E5 & _ & E7 & E8 & E9 & E10).
  exists w', X', s2.
  destruct (run_site g0 fs fw g k s_getDwellTime (c_getDwellTime id) s _ s1 S Hf Hs E4) as (g1 & R1 & S1).
  destruct (run_walker g0 _ fw g1 p (w_setDwellTime (Fin (wait w') : @num XR)) wk tt _ S1 Hw eq_refl) as (g2 & R2 & S2).
  destruct (run_site g0 _ _ g2 k s_pick (c_pick id) s1 (aim w') s2 S2 Hf) as (g3 & R3 & S3); [unfold set; rewrite Z.eqb_refl; reflexivity|exact E5|].
  destruct (run_walker g0 _ _ g3 p (w_setPotentialSite (aim w')) (@mkWalker XR (w_cur wk) (w_pot wk) (Fin (wait w'))) tt (@mkWalker XR (w_cur wk) (aim w') (Fin (wait w'))) S3) as (g4 & R4 & S4); [unfold set; rewrite Z.eqb_refl; reflexivity|reflexivity|].
  exists g4. split; [eapply bind_run; [exact R1|]; eapply bind_run; [exact R2|]; eapply bind_run; [exact R3|exact R4]|].
  split; [exact E1|]. split; [exact E2|]. split; [exact E3|]. split; [exact E7|]. split; [exact E8|]. split; [exact E9|]. split; [exact E10|].
  eexists _, _. split; [exact S4|]. split; intros j; unfold set; destruct (j =? _); try reflexivity.
  cbn [w_cur w_dwell]. rewrite Hc, E2. reflexivity.
Qed.

Hypothesis HU : ~ In unassignedId (ukeys rates).
Lemma not_un k : In k (ukeys rates) -> (k =? unassignedId) = false.
Proof. intros Hk. apply Z.eqb_neq. intros ->. exact (HU Hk). Qed.

Lemma attempt_run fuel (g : world) k T : g_thr g = cap -> g_iter g = T -> -1 <= T < INT_MAX -> T < cap ->
  hop_attempt clk fuel k g = Ret tt (g_with_iter (T + 1) g).
Proof.
  intros Et Ei HT' HB. unfold hop_attempt, bind, gets. rewrite Ei.
  assert (C : chk (T + 1) = Ok (T + 1)). { unfold chk. assert (X : in_int (T + 1) = true) by (apply in_int_iff; unfold INT_MIN, INT_MAX in *; lia). rewrite X. reflexivity. }
  rewrite C. cbn [lift modify g_thr g_with_iter]. rewrite Et.
  assert (X : (cap <? T + 1) = false) by (apply Z.ltb_ge; lia). rewrite X. reflexivity.
Qed.

Lemma hop_refines T g X id p fuel X' : refines T g X -> 0 <= T < INT_MAX -> T < cap -> kmc_step h rates pick_at (Hop id p) X = Some X' ->
  exists g', sys_hop clk fuel id p g = Ret tt g' /\ refines (T + 1) g' X'.
Proof.
  intros Rf HT' HB E. cbn [kmc_step] in E. destruct (seek p (walkers X)) as [w|] eqn:Es; [|discriminate].
  apply (seek_in p _ _ (r_ndp _ _ _ Rf)) in Es. destruct (r_in _ _ _ Rf _ _ Es) as [Hon Haim].
  pose proof (r_walk _ _ _ Rf _ _ Es) as Hw. set (src := on w) in *. set (dst := aim w) in *.
  pose proof (st_start g) as S0. set (fs := fun k => ulookup k (g_sites g)) in *. set (fw := fun p => ulookup p (g_walkers g)) in *.
  destruct (r_site _ _ _ Rf src Hon) as (ss & Hss & Is). destruct (r_site _ _ _ Rf dst Haim) as (sd & Hsd & Id).
  assert (Hsrc : someone src (walkers X) = true) by (apply someone_in; exists p, w; auto). rewrite Hsrc in Is.
  (* reading the walker *)
  destruct (run_walker g fs fw g p w_getSite (@mkWalker XR src dst (Fin (wait w))) src (@mkWalker XR src dst (Fin (wait w))) S0 Hw) as (g1 & R1 & S1).
  { unfold w_getSite. cbn [w_cur]. rewrite (not_un _ Hon). reflexivity. }
  destruct (run_walker g fs _ g1 p w_getPotentialSite (@mkWalker XR src dst (Fin (wait w))) dst (@mkWalker XR src dst (Fin (wait w))) S1) as (g2 & R2 & S2).
  { unfold set. rewrite Z.eqb_refl. reflexivity. }
  { unfold w_getPotentialSite. cbn [w_pot]. rewrite (not_un _ Haim). reflexivity. }
  destruct (run_site g fs _ g2 dst (gets s_isOccupied) (c <- gets (fun c => c) ;; lift (c_isOccupied c dst)) sd (someone dst (walkers X)) sd S2 (r_feat _ _ _ Rf dst Haim) Hsd) as (g3 & R3 & S3).
  { unfold gets. rewrite (site_at _ _ _ _ _ Id). reflexivity. }
  assert (Mv : exists w' K' s2 g4 fs' fw', settle h rates pick_at (if someone dst (walkers X) then src else dst) X = (w', K') /\ hop_move clk id p src dst g2 = Ret tt g4 /\
    on w' = (if someone dst (walkers X) then src else dst) /\ In (aim w') (ukeys rates) /\
    stream K' = set (stream X) (on w') (s_rng s2) /\ arrivals K' = set (arrivals X) (on w') (arrivals X (on w') + 1) /\
    st g fs' fw' g4 /\ (forall q, fw' q = if q =? p then Some (mkWalker (on w') (aim w') (Fin (wait w'))) else fw q) /\
    fs' (on w') = Some s2 /\ site_is s2 (on w') (s_rng s2) (arrivals X (on w') + 1) true /\
    forall k, k <> on w' -> In k (ukeys rates) -> exists s', fs' k = Some s' /\ site_is s' k (stream X k) (arrivals X k) (if k =? src then false else someone k (walkers X))).
  { destruct (someone dst (walkers X)) eqn:Eb.
    - (* blocked: the walker leaves and comes back *)
      destruct (site_leave _ _ _ _ Is) as (s1 & V1 & I1). destruct (site_enter _ _ _ _ I1) as (s2 & V2 & I2).
      destruct (run_clock g _ _ g3 S3) as (t & g4 & R4 & S4).
      assert (L3 : set fs dst (Some sd) src = Some ss).
      { unfold set. destruct (Z.eqb_spec src dst) as [Eq|]; [|exact Hss]. rewrite <- Hss, <- Hsd, Eq. reflexivity. }
      destruct (run_site g _ _ g4 src s_vacate (c_vacate t src) ss tt s1 S4 (r_feat _ _ _ Rf src Hon) L3 V1) as (g5 & R5 & S5).
      destruct (run_site g _ _ g5 src s_occupy (c_occupy src) s1 tt s2 S5 (r_feat _ _ _ Rf src Hon)) as (g6 & R6 & S6); [unfold set; rewrite Z.eqb_refl; reflexivity|exact V2|].
      destruct (settle_run g _ _ g6 src id p X s2 (arrivals X src + 1) true (@mkWalker XR src dst (Fin (wait w))) S6 (r_feat _ _ _ Rf src Hon)) as (w' & K' & s3 & g7 & R7 & Q1 & Q2 & Q3 & Q4 & Q5 & Q6 & Q7 & fs' & fw' & S7 & Q8 & Q9);
        [unfold set; rewrite Z.eqb_refl; reflexivity|exact I2|exact Hon|unfold set; rewrite Z.eqb_refl; reflexivity|reflexivity|].
      exists w', K', s3, g7, fs', fw'. split; [exact Q1|]. split.
      { unfold hop_move. eapply bind_run; [exact R3|]. cbv beta iota. unfold f_vacate. eapply bind_run; [eapply bind_run; [exact R4|exact R5]|]. eapply bind_run; [exact R6|]. exact R7. }
      split; [exact Q2|]. split; [exact Q3|]. rewrite Q2. split; [exact Q5|]. split; [exact Q6|]. split; [exact S7|]. split.
      { intros q. rewrite Q9. destruct (q =? p) eqn:Eq; [rewrite Q2; reflexivity|]. unfold set. rewrite Eq. reflexivity. }
      split; [rewrite Q8, Z.eqb_refl; reflexivity|]. split; [exact Q7|].
      intros k Nk Hk. rewrite Q8. apply Z.eqb_neq in Nk. rewrite Nk. unfold set. rewrite Nk.
      destruct (Z.eqb_spec k dst) as [->|Nd]; [exists sd; split; [reflexivity|rewrite Eb; exact Id]|].
      exact (r_site _ _ _ Rf k Hk).
    - (* free *)
      assert (Nsd : src <> dst) by (intros Eq; rewrite Eq in Hsrc; congruence).
      destruct (site_leave _ _ _ _ Is) as (s1 & V1 & I1). destruct (site_enter _ _ _ _ Id) as (s2 & V2 & I2).
      destruct (run_clock g _ _ g3 S3) as (t & g4 & R4 & S4).
      assert (L3 : set fs dst (Some sd) src = Some ss).
      { unfold set. apply Z.eqb_neq in Nsd. rewrite Nsd. exact Hss. }
      destruct (run_site g _ _ g4 src s_vacate (c_vacate t src) ss tt s1 S4 (r_feat _ _ _ Rf src Hon) L3 V1) as (g5 & R5 & S5).
      destruct (run_site g _ _ g5 dst s_occupy (c_occupy dst) sd tt s2 S5 (r_feat _ _ _ Rf dst Haim)) as (g6 & R6 & S6).
      { unfold set. replace (dst =? src) with false by (symmetry; apply Z.eqb_neq; congruence). rewrite Z.eqb_refl. reflexivity. }
      { exact V2. }
      destruct (run_walker g _ _ g6 p (w_occupySite dst) (@mkWalker XR src dst (Fin (wait w))) tt (@mkWalker XR dst dst (Fin (wait w))) S6) as (g6' & R6' & S6'); [unfold set; rewrite Z.eqb_refl; reflexivity|reflexivity|].
      destruct (settle_run g _ _ g6' dst id p X s2 (arrivals X dst + 1) true (@mkWalker XR dst dst (Fin (wait w))) S6' (r_feat _ _ _ Rf dst Haim)) as (w' & K' & s3 & g7 & R7 & Q1 & Q2 & Q3 & Q4 & Q5 & Q6 & Q7 & fs' & fw' & S7 & Q8 & Q9);
        [unfold set; rewrite Z.eqb_refl; reflexivity|exact I2|exact Haim|unfold set; rewrite Z.eqb_refl; reflexivity|reflexivity|].
      exists w', K', s3, g7, fs', fw'. split; [exact Q1|]. split.
      { unfold hop_move. eapply bind_run; [exact R3|]. cbv beta iota. unfold f_vacate. eapply bind_run; [eapply bind_run; [exact R4|exact R5]|]. eapply bind_run; [exact R6|]. eapply bind_run; [exact R6'|]. exact R7. }
      split; [exact Q2|]. split; [exact Q3|]. rewrite Q2. split; [exact Q5|]. split; [exact Q6|]. split; [exact S7|]. split.
      { intros q. rewrite Q9. destruct (q =? p) eqn:Eq; [rewrite Q2; reflexivity|]. unfold set. rewrite Eq. reflexivity. }
      split; [rewrite Q8, Z.eqb_refl; reflexivity|]. split; [exact Q7|].
      intros k Nk Hk. rewrite Q8. apply Z.eqb_neq in Nk. rewrite Nk. unfold set. rewrite Nk.
      destruct (Z.eqb_spec k src) as [->|Nd]; [exists s1; split; [reflexivity|exact I1]|].
      exact (r_site _ _ _ Rf k Hk). }
  destruct Mv as (w' & K' & s2 & g4 & fs' & fw' & Q1 & R4 & Q2 & Q3 & Q5 & Q6 & [F [Fs Fw]] & Q9 & Q10 & Q11 & Q12).
  rewrite Q1 in E. inversion E; subst X'; clear E. fold (swap p w' (walkers X)).
  assert (SO : forall k, someone k (swap p w' (walkers X)) = if k =? on w' then true else if k =? src then false else someone k (walkers X)).
  { intros k. rewrite (swap_someone p w w' _ k (r_ndk _ _ _ Rf) (r_ndp _ _ _ Rf) Es). fold src.
    destruct (k =? on w'); [reflexivity|]. destruct (k =? src); cbn; [apply andb_false_r|apply andb_true_r]. }
  exists (g_with_iter (T + 1) g4). split.
  - unfold sys_hop. eapply bind_run; [exact R1|]. eapply bind_run; [exact R2|]. eapply bind_run; [exact R4|].
    apply attempt_run; [rewrite (f_thr _ _ F); exact (r_thr _ _ _ Rf)|rewrite (f_iter _ _ F); exact (r_iter _ _ _ Rf)|lia|exact HB].
  - split; cbn [g_feats g_sites g_walkers g_thr g_thrmin g_iter g_clusters g_with_iter walkers stream arrivals].
    + intros k Hk. rewrite (f_feats _ _ F). exact (r_feat _ _ _ Rf k Hk).
    + intros k Hk. rewrite Fs, SO, Q5, Q6. unfold set. destruct (Z.eqb_spec k (on w')) as [->|Nk]; [exists s2; auto|].
      exact (Q12 k Nk Hk).
    + intros q x Hin. rewrite Fw, Q9. apply swap_in in Hin. destruct Hin as [(-> & -> & _)|[Nq Hin]]; [rewrite Z.eqb_refl; reflexivity|].
      apply Z.eqb_neq in Nq. rewrite Nq. exact (r_walk _ _ _ Rf _ _ Hin).
    + intros q x Hin. apply swap_in in Hin. destruct Hin as [(-> & -> & _)|[Nq Hin]]; [|exact (r_in _ _ _ Rf _ _ Hin)].
      split; [|exact Q3]. rewrite Q2. destruct (someone dst (walkers X)); assumption.
    + rewrite swap_fst. exact (r_ndp _ _ _ Rf).
    + apply swap_on; [exact (r_ndp _ _ _ Rf)|exact (r_ndk _ _ _ Rf)|]. intros q x Hin Nq Eq. rewrite Q2 in Eq.
      destruct (someone dst (walkers X)) eqn:Eb.
      * destruct (on_inj _ _ _ _ _ (r_ndk _ _ _ Rf) Es Hin (eq_sym Eq)). congruence.
      * assert (X0 : someone dst (walkers X) = true) by (apply someone_in; exists q, x; auto). congruence.
    + rewrite (f_keys _ _ F). exact (r_ndw _ _ _ Rf).
    + rewrite (f_thr _ _ F). exact (r_thr _ _ _ Rf).
    + rewrite (f_thrmin _ _ F). exact (r_min _ _ _ Rf).
    + reflexivity.
    + rewrite (f_clusters _ _ F). exact (r_none _ _ _ Rf).
Qed.

Lemma enter_refines T g X id p k X' : refines T g X -> kmc_step h rates pick_at (Enter id p k) X = Some X' ->
  exists g', drive clk 0 (Enter id p k) g = Ret tt g' /\ refines T g' X'.
Proof.
  intros Rf E. cbn [kmc_step] in E. destruct (seek p (walkers X)) as [?|] eqn:Es; [discriminate|]. apply seek_none in Es.
  destruct (someone k (walkers X)) eqn:Eb; [discriminate|]. cbn [orb] in E.
  destruct (existsb (Z.eqb k) (ukeys rates)) eqn:Ek; [|discriminate]. cbn [negb] in E.
  assert (Hk : In k (ukeys rates)). { apply existsb_exists in Ek. destruct Ek as (j & Hj & Ej). apply Z.eqb_eq in Ej. subst j. exact Hj. }
  destruct (r_site _ _ _ Rf k Hk) as (s & Hs & Is). rewrite Eb in Is. pose proof (r_feat _ _ _ Rf k Hk) as Hf.
  set (wk := @mkWalker XR k unassignedId (nofZ (-1))) in *.
  set (g0 := g_with_walkers (uset (g_walkers g) p wk) g).
  pose proof (st_start g0) as S0.
  assert (Hw : ulookup p (g_walkers g0) = Some wk) by (cbn [g_walkers g0 g_with_walkers]; apply uset_lookup_same, (r_ndw _ _ _ Rf)).
  destruct (run_walker g0 _ _ g0 p w_getSite wk k wk S0 Hw) as (g1 & R1 & S1).
  { unfold w_getSite. cbn [w_cur wk]. rewrite (not_un _ Hk). reflexivity. }
  destruct (site_enter _ _ _ _ Is) as (s1 & V1 & I1).
  destruct (run_site g0 _ _ g1 k s_occupy c_occupy0 s tt s1 S1 Hf Hs V1) as (g2 & R2 & S2).
  destruct (run_draws s1 k X (arrivals X k + 1) true I1 Hk) as (w' & K' & t & s2 & s3 & E1 & E2 & E3 & E4 & E5 & _ & E7 & E8 & E9 & E10).
  destruct (run_site g0 _ _ g2 k s_getDwellTime (c_getDwellTime id) s1 (Fin (wait w') : @num XR) s2 S2 Hf) as (g3 & R3 & S3); [unfold set; rewrite Z.eqb_refl; reflexivity|exact E4|].
  destruct (run_site g0 _ _ g3 k s_pick (c_pick id) s2 (aim w') s3 S3 Hf) as (g4 & R4 & S4); [unfold set; rewrite Z.eqb_refl; reflexivity|exact E5|].
  destruct (run_walker g0 _ _ g4 p (w_setDwellTime (Fin (wait w') : @num XR)) wk tt (@mkWalker XR k unassignedId (Fin (wait w'))) S4) as (g5 & R5 & S5); [unfold set; rewrite Z.eqb_refl; reflexivity|reflexivity|].
  destruct (run_walker g0 _ _ g5 p (w_setPotentialSite (aim w')) (@mkWalker XR k unassignedId (Fin (wait w'))) tt (@mkWalker XR k (aim w') (Fin (wait w'))) S5) as (g6 & R6 & [F [Fs Fw]]); [unfold set; rewrite Z.eqb_refl; reflexivity|reflexivity|].
  rewrite E1 in E. inversion E; subst X'; clear E.
  assert (SO : forall j, someone j ((p, w') :: walkers X) = if j =? k then true else someone j (walkers X)).
  { intros j. unfold someone. cbn [existsb snd]. rewrite E2, (Z.eqb_sym k j). destruct (j =? k); reflexivity. }
  exists g6. split.
  - cbn [drive]. unfold bind at 1, modify at 1. fold wk. fold g0. unfold sys_initializeWalkers, bind at 1, gets.
    cbn [g_feats g_with_walkers g0]. destruct (g_feats g) as [|e0 l0] eqn:Ef; [discriminate|]. cbn [mfor fst snd].
    eapply bind_run; [|reflexivity]. unfold init_walker. eapply bind_run; [exact R1|]. unfold bind at 1, gets.
    assert (Ef1 : g_feats g1 = g_feats g) by (destruct S1 as [F1 _]; rewrite (f_feats _ _ F1); reflexivity).
    rewrite Ef1, Ef. assert (Um : umem k (e0 :: l0) = true) by (unfold umem; rewrite Hf; reflexivity). rewrite Um.
    eapply bind_run; [exact R2|]. eapply bind_run; [exact R3|]. eapply bind_run; [exact R4|]. eapply bind_run; [exact R5|]. exact R6.
  - split; cbn [walkers stream arrivals].
    + intros j Hj. rewrite (f_feats _ _ F). exact (r_feat _ _ _ Rf j Hj).
    + intros j Hj. rewrite Fs, SO, E8, E9. unfold set. destruct (Z.eqb_spec j k) as [->|Nk]; [exists s3; auto|].
      exact (r_site _ _ _ Rf j Hj).
    + intros q x [Hin|Hin].
      * assert (x = w') by congruence. assert (q = p) by congruence. subst x q. rewrite Fw, E2. unfold set. rewrite Z.eqb_refl. reflexivity.
      * assert (Nq : q <> p) by (intros ->; apply Es; apply (in_map fst) in Hin; exact Hin).
        rewrite Fw. unfold set. apply Z.eqb_neq in Nq. rewrite Nq. cbn [g_walkers g0 g_with_walkers]. apply Z.eqb_neq in Nq.
        rewrite uset_lookup_other; [exact (r_walk _ _ _ Rf _ _ Hin)|exact (r_ndw _ _ _ Rf)|exact Nq].
    + intros q x [Hin|Hin]; [assert (x = w') by congruence; subst x; rewrite E2; auto|exact (r_in _ _ _ Rf _ _ Hin)].
    + cbn [map fst]. constructor; [exact Es|exact (r_ndp _ _ _ Rf)].
    + cbn [map snd]. constructor; [|exact (r_ndk _ _ _ Rf)]. intros Y. apply in_map_iff in Y. destruct Y as ([q x] & Eq & Hin). cbn [snd] in Eq.
      assert (X0 : someone k (walkers X) = true) by (apply someone_in; exists q, x; split; [exact Hin|congruence]). congruence.
    + rewrite (f_keys _ _ F). cbn [g_walkers g0 g_with_walkers]. apply uset_NoDup, (r_ndw _ _ _ Rf).
    + rewrite (f_thr _ _ F). exact (r_thr _ _ _ Rf).
    + rewrite (f_thrmin _ _ F). exact (r_min _ _ _ Rf).
    + rewrite (f_iter _ _ F). exact (r_iter _ _ _ Rf).
    + rewrite (f_clusters _ _ F). exact (r_none _ _ _ Rf).
Qed.

Lemma filter_in (p : Z) (l : list (Z * hopper)) q x : In (q, x) (filter (fun e => negb (fst e =? p)) l) <-> q <> p /\ In (q, x) l.
Proof. rewrite filter_In. cbn [fst]. rewrite negb_true_iff, Z.eqb_neq. tauto. Qed.
Lemma filter_NoDup {A} (f : Z * hopper -> A) (c : Z * hopper -> bool) l : NoDup (map f l) -> NoDup (map f (filter c l)).
Proof.
  induction l as [|e l IH]; cbn [filter map]; intros ND; [constructor|]. inversion ND as [|? ? A0 B0]; subst.
  destruct (c e); [|apply IH, B0]. cbn [map]. constructor; [|apply IH, B0]. intros X. apply A0.
  apply in_map_iff in X. destruct X as (y & E & Hy). apply filter_In in Hy. apply in_map_iff. exists y. tauto.
Qed.
Lemma leave_refines T g X id p X' : refines T g X -> kmc_step h rates pick_at (Leave id p) X = Some X' ->
  exists g', sys_removeWalker clk id p g = Ret tt g' /\ refines T g' X'.
Proof.
  intros Rf E. cbn [kmc_step] in E. destruct (seek p (walkers X)) as [w|] eqn:Es; [|discriminate]. inversion E; subst X'; clear E.
  apply (seek_in p _ _ (r_ndp _ _ _ Rf)) in Es. destruct (r_in _ _ _ Rf _ _ Es) as [Hon _].
  pose proof (r_walk _ _ _ Rf _ _ Es) as Hw. set (k := on w) in *. set (wk := @mkWalker XR k (aim w) (Fin (wait w))) in *.
  destruct (r_site _ _ _ Rf k Hon) as (s & Hs & Is). pose proof (r_feat _ _ _ Rf k Hon) as Hf.
  assert (Hk : someone k (walkers X) = true) by (apply someone_in; exists p, w; auto). rewrite Hk in Is.
  destruct (run_walker g _ _ g p w_getSite wk k wk (st_start g) Hw) as (g1 & R1 & S1).
  { unfold w_getSite. cbn [w_cur wk]. rewrite (not_un _ Hon). reflexivity. }
  destruct (run_clock g _ _ g1 S1) as (t & g2 & R2 & S2).
  destruct (site_leave _ _ _ _ Is) as (s1 & V1 & I1).
  destruct (run_site g _ _ g2 k s_removeWalker (c_removeWalker t id k) s tt s1 S2 Hf Hs V1) as (g3 & R3 & [F [Fs Fw]]).
  assert (SO : forall j, someone j (filter (fun e => negb (fst e =? p)) (walkers X)) = if j =? k then false else someone j (walkers X)).
  { intros j. apply bool_ext. rewrite someone_in. destruct (Z.eqb_spec j k) as [->|Nj].
    - split; [|discriminate]. intros (q & x & Hin & Eq). apply filter_in in Hin. destruct Hin as [Nq Hin].
      destruct (on_inj _ _ _ _ _ (r_ndk _ _ _ Rf) Es Hin (eq_sym Eq)). congruence.
    - rewrite someone_in. split; intros (q & x & Hin & Eq); exists q, x; (split; [|exact Eq]); [apply filter_in in Hin; tauto|].
      apply filter_in. split; [|exact Hin]. intros ->. assert (x = w); [|subst x; apply Nj; symmetry; exact Eq].
      apply (seek_in _ _ _ (r_ndp _ _ _ Rf)) in Hin. apply (seek_in _ _ _ (r_ndp _ _ _ Rf)) in Es. congruence. }
  exists g3. split.
  - unfold sys_removeWalker. eapply bind_run; [exact R1|]. unfold f_removeWalker. eapply bind_run; [exact R2|exact R3].
  - split; cbn [walkers stream arrivals].
    + intros j Hj. rewrite (f_feats _ _ F). exact (r_feat _ _ _ Rf j Hj).
    + intros j Hj. rewrite Fs, SO. unfold set. destruct (Z.eqb_spec j k) as [->|Nk]; [exists s1; auto|].
      exact (r_site _ _ _ Rf j Hj).
    + intros q x Hin. apply filter_in in Hin. destruct Hin as [Nq Hin]. rewrite Fw. unfold set. apply Z.eqb_neq in Nq. rewrite Nq.
      exact (r_walk _ _ _ Rf _ _ Hin).
    + intros q x Hin. apply filter_in in Hin. exact (r_in _ _ _ Rf _ _ (proj2 Hin)).
    + apply filter_NoDup, (r_ndp _ _ _ Rf).
    + apply filter_NoDup, (r_ndk _ _ _ Rf).
    + rewrite (f_keys _ _ F). exact (r_ndw _ _ _ Rf).
    + rewrite (f_thr _ _ F). exact (r_thr _ _ _ Rf).
    + rewrite (f_thrmin _ _ F). exact (r_min _ _ _ Rf).
    + rewrite (f_iter _ _ F). exact (r_iter _ _ _ Rf).
    + rewrite (f_clusters _ _ F). exact (r_none _ _ _ Rf).
Qed.

Lemma run_refines fuel l : forall T g X X', refines T g X -> 0 <= T -> T + hop_events l <= INT_MAX -> T + hop_events l <= cap -> kmc_run h rates pick_at l X = Some X' ->
  exists g', mfor l (drive clk fuel) g = Ret tt g' /\ refines (T + hop_events l) g' X'.
Proof.
  induction l as [|v l IH]; intros T g X X' Rf H0 HT' HB E; cbn [kmc_run mfor] in *.
  - inversion E; subst. exists g. unfold hop_events. cbn. rewrite Z.add_0_r. split; [reflexivity|exact Rf].
  - destruct (kmc_step h rates pick_at v X) as [X1|] eqn:E1; [|discriminate].
    assert (Hn : hop_events (v :: l) = hop_events l + (if is_hop_event v then 1 else 0)).
    { unfold hop_events. cbn [filter]. destruct (is_hop_event v); cbn [length]; lia. }
    assert (H1 : 0 <= hop_events l) by (unfold hop_events; lia).
    rewrite Hn in *. destruct v as [id p k|id p|id p]; cbn [is_hop_event] in *.
    + destruct (enter_refines T g X id p k X1 Rf E1) as (g1 & R1 & Rf1). destruct (IH T g1 X1 X' Rf1 H0 ltac:(lia) ltac:(lia) E) as (g' & R & Rf').
      exists g'. split; [eapply bind_run; [exact R1|exact R]|]. rewrite Z.add_0_r. exact Rf'.
    + destruct (hop_refines T g X id p fuel X1 Rf ltac:(lia) ltac:(lia) E1) as (g1 & R1 & Rf1). destruct (IH (T + 1) g1 X1 X' Rf1 ltac:(lia) ltac:(lia) ltac:(lia) E) as (g' & R & Rf').
      exists g'. split; [eapply bind_run; [exact R1|exact R]|]. replace (T + (hop_events l + 1)) with (T + 1 + hop_events l) by lia. exact Rf'.
    + destruct (leave_refines T g X id p X1 Rf E1) as (g1 & R1 & Rf1). destruct (IH T g1 X1 X' Rf1 H0 ltac:(lia) ltac:(lia) E) as (g' & R & Rf').
      exists g'. split; [eapply bind_run; [exact R1|exact R]|]. rewrite Z.add_0_r. exact Rf'.
Qed.

Lemma refines_shows T g X : refines T g X -> shows rates g X.
Proof.
  intros Rf. split; [exact (r_walk _ _ _ Rf)|]. split.
  - intros k Hk. destruct (r_site _ _ _ Rf k Hk) as (s & Hs & Is). pose proof (r_feat _ _ _ Rf k Hk) as Hf. split.
    + destruct Is as (_ & _ & _ & _ & Ev & Ec). unfold visits. eexists. unfold sys_getVisits, bind, gets. unfold umem. rewrite Hs.
      unfold in_sites, zoom, sc_getSite, sc_partOfCluster, read_key. rewrite Hs. cbn [lift g_sites g_with_sites]. rewrite Hs. cbn [lift].
      assert (Ep : s_partOfCluster s = false) by (unfold s_partOfCluster; rewrite Ec; reflexivity). rewrite Ep.
      unfold s_getVisitFrequency. rewrite Ev. reflexivity.
    + unfold taken, f_isOccupied.
      destruct (run_site g _ _ g k (gets s_isOccupied) (c <- gets (fun c => c) ;; lift (c_isOccupied c k)) s (someone k (walkers X)) s (st_start g) Hf Hs) as (g3 & R3 & _).
      { unfold gets. rewrite (site_at _ _ _ _ _ Is). reflexivity. }
      exists g3. exact R3.
  - unfold sys_getClusters, in_clusters, zoom, cc_getSiteIds, gets. rewrite (r_none _ _ _ Rf). cbn.
    pose proof (r_none _ _ _ Rf) as Y. destruct g. cbn in Y. subst. reflexivity.
Qed.
End Kmc.

(** ** The start of a simulation *)
Section Start.
Context {I : Impl} {G : @Rng XR} {U : @Ugly XR}.
Variable clk : Z -> Z.
Notation world := (@world XR G).
Notation site := (@site XR G).

Lemma init_site_seed k r (g g' : world) x : NoDup (ukeys (g_sites g)) -> init_site clk k r g = Ret tt g' -> g_seed g = Some x ->
  g_seed g' = Some ((x + 1) mod 2 ^ 64) /\ exists s, ulookup k (g_sites g') = Some s /\ s_rng s = eseed x.
Proof.
  unfold init_site. intros ND E Ex.
  apply bind_ret_inv in E. destruct E as (t & g1 & E1 & E). apply read_clock_ret in E1. subst g1.
  apply bind_ret_inv in E. destruct E as (h & g1 & E1 & E). inversion E1; subst h g1; clear E1.
  apply bind_ret_inv in E. destruct E as ([u s0] & g1 & E1 & E). apply local_ret in E1. destruct E1 as [-> E1]. cbn [fst snd] in *.
  apply bind_ret_inv in E1. destruct E1 as (u1 & s1 & E1 & E2). inversion E1; subst u1 s1; clear E1. destruct u.
  apply bind_ret_inv in E. destruct E as (sd & g1 & E1 & E).
  unfold use_seed in E1. cbn [g_seed g_with_tick] in E1. rewrite Ex in E1. inversion E1; subst sd g1; clear E1.
  apply bind_ret_inv in E. destruct E as ([u s1] & g1 & E1 & E). apply local_ret in E1. destruct E1 as [-> E1]. cbn [fst snd] in *.
  inversion E1; subst u s1; clear E1.
  destruct (sfixes_setRates _ _ _ _ _ E2) as (A1 & _).
  apply bind_ret_inv in E. destruct E as ([] & g1 & E1 & E). apply (addSite_ret _ k) in E1; [|exact A1].
  destruct E1 as (Nk & ->). inversion E; subst g'; clear E. split; [reflexivity|].
  eexists. cbn [g_sites g_with_feats g_with_sites g_with_seed g_with_tick]. split; [apply uset_lookup_same, ND|reflexivity].
Qed.
Lemma init_seeds l : forall (g g' : world) x, NoDup (ukeys l) -> NoDup (ukeys (g_sites g)) ->
  mfor l (fun e => init_site clk (fst e) (snd e)) g = Ret tt g' -> g_seed g = Some x -> 0 <= x < 2 ^ 64 ->
  forall i k, nth_error (ukeys l) i = Some k ->
    exists s, ulookup k (g_sites g') = Some s /\ s_rng s = eseed ((x + Z.of_nat i) mod 2 ^ 64).
Proof.
  induction l as [|[k0 r0] l IH]; intros g g' x ND NDs E Ex Hx i k Hi; [destruct i; discriminate|]. cbn [mfor] in E.
  apply bind_ret_inv in E. destruct E as ([] & g1 & E1 & E). cbn [fst snd] in E1.
  destruct (init_site_seed _ _ _ _ _ NDs E1 Ex) as (Ex1 & s & Es & Er).
  cbn [ukeys map fst] in ND, Hi. inversion ND as [|? ? N0 ND']; subst.
  assert (NDs1 : NoDup (ukeys (g_sites g1))).
  { apply init_site_inv in E1. destruct E1 as (? & ? & _ & _ & _ & _ & ->). cbn [g_sites g_with_feats g_with_sites]. apply uset_NoDup, NDs. }
  destruct i as [|i]; cbn [nth_error] in Hi.
  - inversion Hi; subst k. destruct (init_keys clk _ _ _ ND' NDs1 E) as (_ & _ & _ & B). exists s. rewrite B by exact N0.
    split; [exact Es|]. cbn [Z.of_nat]. rewrite Z.add_0_r, Z.mod_small by exact Hx. exact Er.
  - destruct (IH g1 g' _ ND' NDs1 E Ex1 (Z.mod_pos_bound (x + 1) (2 ^ 64) eq_refl) i k Hi) as (s1 & Es1 & Er1). exists s1. split; [exact Es1|].
    rewrite Er1. f_equal. rewrite Zplus_mod_idemp_l. f_equal. lia.
Qed.

Definition site_table (g : world) (k : Z) : list (Z * @num XR) := match ulookup k (g_sites g) with Some s => s_prob s | None => [] end.
Definition site_stream (g : world) (k : Z) : @eng XR G := match ulookup k (g_sites g) with Some s => s_rng s | None => eseed 0 end.

Lemma start rates walkers h count tick thr t seed : NoDup (ukeys walkers) -> 0 <= count -> (0 < t)%R -> network h rates ->
  exists g, prologue rates clk thr (Fin t) seed (world_new walkers h count tick) = Ret tt g /\
    refines h rates (site_table g) (search_after thr) 0 g (empty (site_stream g)) /\
    (forall k, In k (ukeys rates) -> exists s, ulookup k (g_sites g) = Some s /\ (reads h (away rates k) s /\ is_table h (away rates k) (s_prob s)) /\ good_rates h (away rates k) /\
       forall n, In n (ukeys (away rates k)) -> In n (ukeys rates)) /\
    (forall s, seed = Some s -> 0 <= s < 2 ^ 64 -> forall i k, nth_error (ukeys rates) i = Some k -> site_stream g k = eseed ((s + Z.of_nat i) mod 2 ^ 64)).
Proof.
  intros NDw Hc Ht (ND & Nu & Hr).
  set (g0 := world_new walkers h count tick).
  set (g1 := match thr with Some b => g_with_thr b (g_with_thrmin b g0) | None => g0 end).
  set (g2 := g_with_res (Some (Fin t : @num XR)) g1).
  set (g3 := match seed with Some s => g_with_seed (Some s) g2 | None => g2 end).
  assert (E1 : (match thr with Some b => sys_setThreshold b | None => ret tt end) g0 = Ret tt g1) by (destruct thr; reflexivity).
  assert (E2 : sys_setTimeResolution (Fin t) g1 = Ret tt g2).
  { unfold sys_setTimeResolution. assert (X : nleb (Fin t : @num XR) n0 = false); [|rewrite X; reflexivity].
    rewrite n0_XR. cbn [nleb XR]. unfold xleb. cbn [xltb xeqb]. apply orb_false_iff. split; [apply Rltb_false; lra|]. unfold Reqb. destruct (Req_EM_T t 0); [lra|reflexivity]. }
  assert (E3 : (match seed with Some s => sys_setRandomSeed s | None => ret tt end) g2 = Ret tt g3) by (unfold g3, g2, g1; destruct seed, thr; reflexivity).
  assert (Hh : g_heap g3 = h /\ g_sites g3 = [] /\ g_clusters g3 = [] /\ g_walkers g3 = walkers /\ g_thr g3 = search_after thr /\ g_thrmin g3 = search_after thr /\ g_iter g3 = 0 /\ g_res g3 <> None)
    by (unfold g3, g2, g1; destruct seed, thr; repeat split; discriminate).
  destruct Hh as (Hh & Hsi & Hcl & Hwa & Htr & Htm & Hit & Hre).
  assert (R3 : reach clk g3 []).
  { assert (S2 : steps clk g0 [] ((match thr with Some b => [] ++ [KThr b] | None => [] end) ++ [KRes (Fin t : @num XR)]) g2 []).
    { econstructor; [|apply st_res; exact E2]. destruct thr; [econstructor; [constructor|apply st_thr; exact E1]|constructor]. }
    destruct seed as [s|]; eexists; exists walkers, h, count, tick; (split; [exact NDw|]); (split; [exact Hc|]); [|exact S2].
    econstructor; [exact S2|]. apply st_seed. exact E3. }
  pose proof (reach_inv clk _ _ R3) as V3.
  assert (Nkn : forall k, ~ knows g3 k). { intros k X. apply (known_site g3 [] k V3) in X. destruct X as [s Es]. rewrite Hsi in Es. discriminate. }
  destruct (init_ok clk rates g3 [] V3 Hre ND) as [g E].
  { intros k r Hin. rewrite Hh. apply Hr in Hin. apply Hin. }
  { intros k _. apply Nkn. }
  assert (R : reach clk g []).
  { destruct R3 as (tr & a & b & c & d & X1 & X2 & X3). exists (tr ++ [KInit rates]), a, b, c, d. split; [exact X1|]. split; [exact X2|].
    econstructor; [exact X3|]. apply st_init; [exact ND| |exact E]. intros k r Hin. apply Hr in Hin. destruct Hin as [(_ & X & _) _]. exact X. }
  pose proof (reach_inv clk _ _ R) as V.
  destruct (init_all clk rates g3 g [] V3 ND E) as (Zs & A & _ & _).
  assert (Aw : forall k r, In (k, r) rates -> away rates k = r) by (intros k r Hin; unfold away; rewrite (In_ulookup _ _ _ ND Hin); reflexivity).
  assert (Ky : forall k, In k (ukeys rates) -> exists s, ulookup k (g_sites g) = Some s /\ keyed h (away rates k) k s /\ In (k, away rates k) rates).
  { intros k Hk. apply in_map_iff in Hk. destruct Hk as ([k' r] & Ek & Hin). cbn [fst] in Ek. subst k'.
    destruct (A k r Hin) as (_ & s & Es & K). exists s. rewrite (Aw k r Hin). rewrite Hh in K. auto. }
  exists g. split; [|split; [|split]].
  - unfold prologue. eapply bind_run; [exact E1|]. eapply bind_run; [exact E2|]. eapply bind_run; [exact E3|exact E].
  - split; cbn [KmcSpec.walkers stream arrivals empty someone existsb]; try (intros ? ? []); try constructor.
    + intros k Hk. destruct (Ky k Hk) as (s & Es & (_ & (B1 & _) & _) & _). rewrite (h_feat _ _ _ (v_shape _ _ V)), Es, B1. reflexivity.
    + intros k Hk. destruct (Ky k Hk) as (s & Es & K & Hin). destruct (Hr _ _ Hin) as [Hg _]. exists s. split; [exact Es|].
      pose proof (keyed_reads h _ _ _ Hg K) as (_ & _ & _ & _ & _ & Tau & _). destruct K as (_ & (B1 & B2 & B3) & _).
      unfold site_is, site_table, site_stream. rewrite Es. repeat split; assumption.
    + rewrite (z_walkers _ _ Zs), Hwa. exact NDw.
    + rewrite (z_thr _ _ Zs). exact Htr.
    + rewrite (z_thrmin _ _ Zs). exact Htm.
    + rewrite (z_iter _ _ Zs). exact Hit.
    + rewrite (z_clusters _ _ Zs). exact Hcl.
  - intros k Hk. destruct (Ky k Hk) as (s & Es & K & Hin). destruct (Hr _ _ Hin) as [Hg Hn]. exists s. split; [exact Es|].
    split; [split; [apply (keyed_reads h _ _ _ Hg K)|apply (keyed_table h _ _ _ Hg K)]|]. auto.
  - intros s -> Hs i k Hi.
    unfold sys_initializeSystem in E. apply bind_ret_inv in E. destruct E as (r0 & gx & Ex & E). inversion Ex; subst r0 gx; clear Ex.
    destruct (g_res g3); [|congruence].
    apply bind_ret_inv in E. destruct E as ([] & g4 & E4 & E).
    assert (Dr : ukeys (drains rates) = []).
    { destruct (ukeys (drains rates)) as [|k0 l0] eqn:Ed; [reflexivity|]. exfalso. destruct (drains_in clk rates) as [_ X].
      destruct (proj1 (X k0)) as (Y & k' & r & Hin & Hn); [rewrite Ed; left; reflexivity|]. apply Y. apply Hr in Hin. apply Hin, Hn. }
    rewrite Dr in E. inversion E; subst g4; clear E.
    assert (NDs : NoDup (ukeys (g_sites g3))) by (rewrite Hsi; constructor).
    destruct (init_seeds rates g3 g s ND NDs E4 eq_refl Hs i k Hi) as (s1 & Es1 & Er1). unfold site_stream. rewrite Es1. exact Er1.
Qed.

Lemma table_below h r l j : is_table h r l -> psum (filter (fun e => fst e <? j) l) = below h r j.
Proof.
  intros [P _]. unfold psum, below. rewrite Rsum_filter, (Rsum_perm _ _ _ P), Rsum_map. cbn [fst snd realv]. unfold Rdiv.
  rewrite <- Rsum_scal_r. apply Rsum_ext. intros e _. destruct (fst e <? j); lra.
Qed.
Lemma table_fair h rates (g : world) :
  (forall k, In k (ukeys rates) -> exists s, ulookup k (g_sites g) = Some s /\ (reads h (away rates k) s /\ is_table h (away rates k) (s_prob s)) /\ good_rates h (away rates k) /\
       forall n, In n (ukeys (away rates k)) -> In n (ukeys rates)) -> fair h rates (pick_at (site_table g)).
Proof.
  intros X k Hk. destruct (X k Hk) as (s & Es & [(He & ND & Hp & Hs & _ & _ & _) Tb] & Hg & _). unfold s_getProbs in *.
  unfold pick_at, site_table. rewrite Es.
  assert (Hq : forall e, In e (s_prob s) -> exists q, snd e = Fin q /\ (0 <= q)%R).
  { intros [n p] Hin. destruct (Hp n p Hin) as (q & -> & Hq). exists q; simpl; split; [reflexivity | lra]. }
  split.
  - intros u Hu. assert (M : In (@pick_scan XR (Fin u) (Fin 0) (s_prob s)) (map fst (s_prob s))).
    { apply pick_scan_member; [exact Hq|]. unfold psum. rewrite Hs. lra. }
    apply in_map_iff in M. destruct M as ([n p] & E & Hin). simpl in E.
    apply He in Hin. destruct Hin as (r & (a & Ha & _) & _). rewrite n0_XR, <- E. apply (in_map fst) in Ha. exact Ha.
  - intros j r Hr u Hu. assert (Hin : In (j, Fin (r / total_rate h (away rates k))) (s_prob s)) by (apply He; eauto).
    rewrite n0_XR, (pick_scan_sorted (s_prob s) 0 u j (r / total_rate h (away rates k)) Hq (proj2 Tb) Hin) by (unfold psum; rewrite Hs; lra).
    pose proof (table_below h _ _ j Tb) as Eb. cbn [num XR] in *. rewrite Eb, !Rplus_0_l. tauto.
Qed.

Theorem plain rates walkers h count tick thr t seed : NoDup (ukeys walkers) -> 0 <= count -> (0 < t)%R -> network h rates -> open_draws G ->
  exists choose streams, fair h rates choose /\
    (forall s, seed = Some s -> 0 <= s < 2 ^ 64 -> forall i k, nth_error (ukeys rates) i = Some k -> streams k = eseed ((s + Z.of_nat i) mod 2 ^ 64)) /\
    forall fuel l K, kmc_run h rates choose l (empty streams) = Some K -> hop_events l <= INT_MAX -> hop_events l <= search_after thr ->
      exists g, (prologue rates clk thr (Fin t) seed ;; mfor l (drive clk fuel)) (world_new walkers h count tick) = Ret tt g /\ shows rates g K.
Proof.
  intros NDw Hc Ht Hn HD. destruct (start rates walkers h count tick thr t seed NDw Hc Ht Hn) as (g0 & E0 & Rf & Rd & Sd).
  pose proof (table_fair h rates g0 Rd) as Hf.
  exists (pick_at (site_table g0)), (site_stream g0). split; [exact Hf|]. split; [exact Sd|].
  intros fuel l K E Hl Hb.
  destruct (fun a b c => run_refines clk h rates (site_table g0) (search_after thr) HD a b c fuel l 0 g0 _ K Rf ltac:(lia) ltac:(lia) ltac:(lia) E) as (g & Eg & Rg).
  - intros k Hk. destruct (Rd k Hk) as (s & _ & _ & Hg & _). apply total_rate_pos, Hg.
  - intros k u Hk Hu. destruct (Rd k Hk) as (s & _ & _ & _ & Hin). apply Hin, (proj1 (Hf k Hk)); lra.
  - apply Hn.
  - exists g. split; [eapply bind_run; [exact E0|exact Eg]|]. exact (refines_shows _ _ _ _ _ _ _ Rg).
Qed.
End Start.
