(** * Valid simulations, from their first call on, and an example *)
From Coq Require Import ZArith List Bool Reals Lra Lia Permutation Relations.
From Verif Require Import Base BaseProofs Num RSum WalkerModel SiteModel SiteSpec SiteProofs ClusterModel ClusterSpec ClusterReal ClusterProofs ClusterFrame
  ClusterLive ContainerModel BasinModel BasinSpec CrossSpec CrossProofs SystemModel SystemSpec SystemShape SystemHop SystemCoarse SystemMerge
  SystemProofs SystemFacts SystemInit SystemControl ValidSpec SystemEffect SystemEquil Fuel SystemLive SystemGrow SystemTotal SystemStart DueSpec SystemDue SystemValid.
Import ListNotations.
Open Scope R_scope.

Section Sim.
Context {I : Impl} {G : @Rng XR} {U : @Ugly XR}.
Variable clk : Z -> Z.
Variables (lo hi : R).
Hypothesis (Hlo : 0 < lo) (Hlh : lo <= hi) (Hhi : hi < / dbl_min) (HF : @fair G).

Lemma gain_nonneg : 0 <= most_gain lo hi.
Proof. unfold most_gain. apply Rmult_le_pos; [lra|]. apply Rlt_le, Rinv_0_lt_compat. nra. Qed.
Lemma fits_zero : fits (most_gain lo hi) 0.
Proof. split; [apply gain_nonneg|]. split; [lia|]. lra. Qed.

Definition preface (rho T : R) (t : Z) (rates : umap (umap Z)) : list (@call XR) :=
  [KPerf (Fin rho : @num XR); KRes (Fin T : @num XR); KThr t; KInit rates].

Lemma put_all l : forall (g g' : @world XR G), mfor l (fun w => init_walker (fst w) (snd w)) g = Ret tt g' -> put g g'.
Proof.
  induction l as [|e l IH]; intros g g' E; cbn [mfor] in E; [injection E as <-; split; reflexivity|].
  apply bind_ret_inv in E. destruct E as ([] & g1 & E1 & E). apply init_walker_put in E1. apply (put_trans _ g1); [apply E1|apply IH, E].
Qed.
Lemma enter_put l (g g' : @world XR G) : sys_initializeWalkers l g = Ret tt g' -> put g g'.
Proof.
  unfold sys_initializeWalkers. intros E. apply bind_ret_inv in E. destruct E as (f & g1 & E1 & E). inversion E1; subst f g1; clear E1.
  destruct (g_feats g); [discriminate|]. eapply put_all; exact E.
Qed.

(** every rate map that may be given is accepted, and walkers may enter *)
Lemma program_starts m h count tick rho T t rates l : NoDup (ukeys m) -> (0 <= count)%Z -> 1 / 2 <= rho -> 0 < T -> (0 <= t)%Z ->
  NoDup (ukeys rates) -> mutual_map h rates -> paced_call h lo hi (KInit rates) ->
  l <> [] -> NoDup (map snd l) -> (forall p, In p (map snd l) -> exists w, ulookup p m = Some w /\ In (w_cur w) (ukeys rates)) ->
  (forall p q w w', In p (map snd l) -> In q (map snd l) -> ulookup p m = Some w -> ulookup q m = Some w' -> w_cur w = w_cur w' -> p = q) ->
  exists g, steps clk (world_new m h count tick) [] (preface rho T t rates ++ [KEnter l]) g (map snd l ++ []) /\ g_heap g = h /\
    (forall i r, In (i, r) rates -> exists s, ulookup i (g_sites g) = Some s /\ Permutation (s_neigh s) r) /\
    (forall i s, ulookup i (g_sites g) = Some s -> s_cluster s = unassignedId /\ exists r, In (i, r) rates) /\
    (forall p, option_map w_cur (ulookup p (g_walkers g)) = option_map w_cur (ulookup p m)).
Proof.
  intros NDm Hc Hr HT Ht NDr Mm Pc Nl NDl On Di. set (g0 := world_new m h count tick : @world XR G).
  set (g1 := g_with_perf (Fin rho : @num XR) g0). set (g2 := g_with_res (Some (Fin T : @num XR)) g1). set (g3 := g_with_thr t (g_with_thrmin t g2)).
  assert (S3 : steps clk g0 [] [KPerf (Fin rho : @num XR); KRes (Fin T : @num XR); KThr t] g3 []).
  { apply (sts_step clk g0 [] [KPerf (Fin rho : @num XR); KRes (Fin T : @num XR)] g2 [] (KThr t)).
    2: { apply st_thr. reflexivity. }
    apply (sts_step clk g0 [] [KPerf (Fin rho : @num XR)] g1 [] (KRes (Fin T : @num XR))).
    - apply (sts_step clk g0 [] [] g0 [] (KPerf (Fin rho : @num XR))); [constructor|]. apply st_perf. reflexivity.
    - apply st_res. unfold sys_setTimeResolution. replace (nleb (Fin T : @num XR) n0) with false; [reflexivity|].
      symmetry. unfold nleb, n0; cbn. unfold xleb, xltb, xeqb, Rltb, Reqb. destruct (Rlt_dec T 0); [lra|]. destruct (Req_EM_T T 0); [lra|reflexivity]. }
  assert (R3 : reach_by clk [KPerf (Fin rho : @num XR); KRes (Fin T : @num XR); KThr t] g3 []).
  { exists m, h, count, tick. auto. }
  assert (V3 : inv g3 []) by (apply (reach_inv clk); eexists; exact R3).
  assert (Nk : forall k, ~ knows g3 k).
  { intros k [c Hk]. apply cluster_of_iff in Hk. destruct Hk as (s & Es & _). discriminate. }
  destruct (init_ok clk rates g3 [] V3) as [g4 E4]; [discriminate|exact NDr|intros k r Hin; apply (Mm k r Hin)|auto|].
  assert (S4 : steps clk g0 [] (preface rho T t rates) g4 []).
  { apply (sts_step clk g0 [] [KPerf (Fin rho : @num XR); KRes (Fin T : @num XR); KThr t] g3 [] (KInit rates)); [exact S3|].
    apply st_init; [exact NDr|intros k r Hin; apply (Mm k r Hin)|exact E4]. }
  assert (R4 : reach_by clk (preface rho T t rates) g4 []) by (exists m, h, count, tick; auto).
  assert (V4 : inv g4 []) by (apply (reach_inv clk); eexists; exact R4).
  destruct (init_all clk _ _ _ _ V3 NDr E4) as (Zs & A1 & _ & C1). destruct (registers clk _ _ _ _ V3 NDr E4) as (_ & B1 & _).
  assert (Eh4 : g_heap g4 = h) by apply (z_heap _ _ Zs). assert (Ew4 : g_walkers g4 = m) by apply (z_walkers _ _ Zs).
  assert (Fv : Forall (valid_call (g_heap g4)) (preface rho T t rates)).
  { rewrite Eh4. unfold preface. constructor; [exists rho; auto|]. constructor; [exists T; reflexivity|]. constructor; [exact Logic.I|]. constructor; [exact Mm|]. constructor. }
  assert (Fp : Forall (paced_call (g_heap g4) lo hi) (preface rho T t rates)).
  { rewrite Eh4. unfold preface. constructor; [exact Logic.I|]. constructor; [exact Logic.I|]. constructor; [exact Ht|]. constructor; [exact Pc|]. constructor. }
  assert (L4 : living lo hi 0 g4 []) by (apply (living_reach clk lo hi Hlo Hhi HF (preface rho T t rates) g4 [] R4 Fv Fp fits_zero); cbn; lia).
  assert (Un : forall p, In p (map snd l) -> exists k, walker_on g4 p k /\ cluster_of g4 k unassignedId).
  { intros p Hp. destruct (On p Hp) as (w & Ew & Hk). exists (w_cur w). split; [exists w; rewrite Ew4; auto|]. apply B1. left; exact Hk. }
  destruct (enter_ends clk lo hi Hlo HF 0 l g4 [] V4 L4 gain_nonneg Nl NDl) as [g5 E5]; [intros p _ []|exact Un|].
  assert (S5 : step clk g4 [] (KEnter l) g5 (map snd l ++ [])).
  { apply st_enter; [exact NDl|intros p _ []| | | |exact E5].
    - intros p q k Hp Hq (w & Ew & Ek) (w' & Ew' & Ek'). rewrite Ew4 in Ew, Ew'. apply (Di p q w w'); try assumption. congruence.
    - intros p q k _ [].
    - intros p k Hp (w & Ew & <-). destruct (Un p Hp) as (k' & (w' & Ew' & <-) & X). assert (w' = w) by congruence. subst; exact X. }
  pose proof (step_still clk _ _ _ _ _ V4 S5 eq_refl eq_refl eq_refl) as St.
  exists g5. split; [eapply sts_step; eauto|]. split; [rewrite (l_heap _ _ St); exact Eh4|].
  assert (Lk : forall k s, ulookup k (g_sites g5) = Some s -> exists s0, ulookup k (g_sites g4) = Some s0 /\ s_neigh s = s_neigh s0 /\ s_cluster s = s_cluster s0).
  { intros k s Es. pose proof (l_look _ _ St k) as X. rewrite Es in X. destruct (ulookup k (g_sites g4)) as [s0|] eqn:Es0; [|discriminate].
    cbn [option_map] in X. unfold look in X. exists s0. split; [reflexivity|]. split; congruence. }
  split; [|split].
  - intros i r Hin. destruct (A1 i r Hin) as (_ & s0 & Es0 & K). pose proof (l_look _ _ St i) as X. rewrite Es0 in X.
    destruct (ulookup i (g_sites g5)) as [s|] eqn:Es; [|discriminate]. exists s. split; [reflexivity|].
    destruct (Lk i s Es) as (s1 & Es1 & -> & _). assert (s1 = s0) by congruence. subst. apply (keyed_neigh (g_heap g3) r i); [apply (Mm i r Hin)|exact K].
  - intros i s Es. destruct (Lk i s Es) as (s0 & Es0 & _ & ->).
    assert (Hm : mentioned rates i).
    { destruct (in_dec Z.eq_dec i (ukeys rates)) as [X|X]; [left; exact X|right].
      destruct (drains_in clk rates) as [_ Hd]. destruct (in_dec Z.eq_dec i (ukeys (drains rates))) as [Y|Y]; [apply Hd, Y|].
      exfalso. rewrite C1 in Es0; [discriminate|]. intros [Z0|Z0]; [contradiction|]. apply Y, Hd. auto. }
    split.
    + pose proof (proj1 (proj2 (proj2 (B1 i Hm)))) as X. apply cluster_of_iff in X. destruct X as (s' & Es' & X). congruence.
    + destruct (mutual_mentioned _ _ _ Mm Hm) as [r Hin]. eauto.
  - intros p. rewrite (proj2 (enter_put _ _ _ E5) p), Ew4. reflexivity.
Qed.
End Sim.

(** ** An example: the chain 3 - 1 - 2 - 4

    The rates between 1 and 2 are 100, the others 1; the walker starts on
    site 3; an attempt to coarse grain follows every hop. *)
Definition heap_c : @heap XR := fun a => if (a <? 2)%Z then Fin 100 else Fin 1.
Definition rates_c : umap (umap Z) := [(1, [(2, 0); (3, 2)]); (2, [(1, 1); (4, 3)]); (3, [(1, 4)]); (4, [(2, 5)])]%Z.
Definition rng_c : @Rng XR := {| eng := unit; eseed := fun _ => tt; edraw := fun _ => (Fin (1 / 2) : @num XR, tt) |}.
Definition ugly_c : @Ugly XR := {|
  u_order := fun _ _ l => l; u_order_perm := fun _ _ l => Permutation_refl l;
  u_next := fun _ _ e _ => e; u_next_in := fun _ _ e l => or_introl eq_refl;
  u_verts := fun _ l => l; u_verts_perm := fun _ l => Permutation_refl l;
  u_far := fun _ _ _ => None |}.
Definition walkers_c : umap (@walker XR) := [(10, @mkWalker XR 3 unassignedId (Fin 0))]%Z.
Definition clk_c : Z -> Z := fun t => t.
Notation calls_c := (preface 1 1 0 rates_c ++ [KEnter [(0, 10)]])%Z.

Lemma fair_c : @fair rng_c.
Proof. intros e. exists (1 / 2), tt. split; [reflexivity|lra]. Qed.
Lemma mutual_c : mutual_map heap_c rates_c.
Proof.
  assert (P1 : exists r, Fin 100 = Fin r /\ 0 < r) by (exists 100; split; [reflexivity|lra]).
  assert (P2 : exists r, Fin 1 = Fin r /\ 0 < r) by (exists 1; split; [reflexivity|lra]).
  intros i r Hin. split.
  - destruct Hin as [E|[E|[E|[E|[]]]]]; inversion E; subst; (split; [discriminate|]); (split; [repeat constructor; cbn; intuition lia|]);
      intros n a Ha; cbn [In] in Ha; intuition; match goal with X : (_, _) = (n, a) |- _ => inversion X; subst end; assumption.
  - intros j Hj. destruct Hin as [E|[E|[E|[E|[]]]]]; inversion E; subst; cbn in Hj.
    + destruct Hj as [<-|[<-|[]]]; [exists [(1, 1); (4, 3)]%Z|exists [(1, 4)]%Z]; cbn; auto 6.
    + destruct Hj as [<-|[<-|[]]]; [exists [(2, 0); (3, 2)]%Z|exists [(2, 5)]%Z]; cbn; auto 6.
    + destruct Hj as [<-|[]]; exists [(2, 0); (3, 2)]%Z; cbn; auto 6.
    + destruct Hj as [<-|[]]; exists [(1, 1); (4, 3)]%Z; cbn; auto 6.
Qed.
Lemma paced_c : paced_call heap_c 1 101 (KInit rates_c).
Proof.
  intros i r Hin. destruct Hin as [E|[E|[E|[E|[]]]]]; inversion E; subst; (split; [discriminate|]); (split; [cbn; intuition lia|]); split.
  all: try (intros j a Ha; cbn [In] in Ha; intuition; match goal with X : (_, _) = (j, a) |- _ => inversion X; subst end; cbn; lra).
  all: unfold total_rate; cbn; lra.
Qed.
Lemma small_c : 101 < / dbl_min.
Proof.
  unfold dbl_min. change (powerRZ 2 (-1022)) with (/ 2 ^ Pos.to_nat 1022). rewrite Rinv_inv.
  apply Rlt_le_trans with (2 ^ 7); [cbn; lra|]. apply Rle_pow; [lra|lia].
Qed.
Lemma starts_c : exists g : @world XR rng_c, @reach_by impl0 XR rng_c ugly_c clk_c calls_c g [10%Z] /\ g_heap g = heap_c /\
    (forall i r, In (i, r) rates_c -> exists s, ulookup i (g_sites g) = Some s /\ Permutation (s_neigh s) r) /\
    (forall i s, ulookup i (g_sites g) = Some s -> s_cluster s = unassignedId /\ exists r, In (i, r) rates_c) /\
    walker_on g 10 3.
Proof.
  destruct (@program_starts impl0 rng_c ugly_c clk_c 1 101 ltac:(lra) ltac:(lra) small_c fair_c walkers_c heap_c 0 0 1 1 0 rates_c [(0, 10)]%Z) as (g & S & A & B & C & D);
    try lia; try lra; try discriminate.
  - repeat constructor; cbn; tauto.
  - repeat constructor; cbn; intuition lia.
  - exact mutual_c.
  - exact paced_c.
  - repeat constructor; cbn; tauto.
  - intros p [<-|[]]. eexists. split; [reflexivity|]. cbn; tauto.
  - intros p q w w' [<-|[]] [<-|[]]. reflexivity.
  - exists g. split; [exists walkers_c, heap_c, 0%Z, 0%Z; split; [repeat constructor; cbn; tauto|]; split; [lia|exact S]|].
    split; [exact A|]. split; [exact B|]. split; [exact C|]. specialize (D 10%Z). cbn in D.
    destruct (ulookup 10 (g_walkers g)) as [w|] eqn:Ew; [|discriminate]. injection D as D. exists w. auto.
Qed.

Section Net.
Variable sites : umap (@site XR rng_c).
Hypothesis (ND : NoDup (ukeys sites))
  (H1 : forall i r, In (i, r) rates_c -> exists s, ulookup i sites = Some s /\ Permutation (s_neigh s) r)
  (H2 : forall i s, ulookup i sites = Some s -> exists r, In (i, r) rates_c).

Lemma rate_c i j x : rate_between heap_c sites i j x <->
  (i, j) = (1, 2)%Z /\ x = 100 \/ (i, j) = (1, 3)%Z /\ x = 1 \/ (i, j) = (2, 1)%Z /\ x = 100 \/ (i, j) = (2, 4)%Z /\ x = 1 \/ (i, j) = (3, 1)%Z /\ x = 1 \/ (i, j) = (4, 2)%Z /\ x = 1.
Proof.
  split.
  - intros (s & a & Es & Ha & Ex). apply (In_ulookup _ _ _ ND) in Es. destruct (H2 i s Es) as [r Hr].
    destruct (H1 i r Hr) as (s' & Es' & P). assert (s' = s) by congruence. subst s'. apply (Permutation_in _ P) in Ha.
    destruct Hr as [E|[E|[E|[E|[]]]]]; inversion E; subst; cbn in Ha; intuition;
      match goal with X : (_, _) = (j, a) |- _ => inversion X; subst end; cbn in Ex; inversion Ex; subst; auto 9.
  - assert (X : forall r a, In (i, r) rates_c -> In (j, a) r -> heap_c a = Fin x -> rate_between heap_c sites i j x).
    { intros r a Hr Ha Ex. destruct (H1 i r Hr) as (s & Es & P). exists s, a. split; [apply ulookup_In, Es|]. split; [|exact Ex].
      apply (Permutation_in _ (Permutation_sym P)), Ha. }
    intros [[E ->]|[[E ->]|[[E ->]|[[E ->]|[[E ->]|[E ->]]]]]]; inversion E; subst; eapply X; unfold rates_c; cbn [In]; auto 6; cbn [In]; auto; reflexivity.
Qed.
Ltac rates E := apply rate_c in E; destruct E as [[E ->]|[[E ->]|[[E ->]|[[E ->]|[[E ->]|[E ->]]]]]]; inversion E; subst.

Lemma good_c : good_sites heap_c sites.
Proof.
  split; [exact ND|]. intros k s Hin. apply (In_ulookup _ _ _ ND) in Hin. destruct (H2 k s Hin) as [r Hr].
  destruct (H1 k r Hr) as (s' & Es' & P). assert (s' = s) by congruence. subst s'.
  destruct (mutual_c k r Hr) as ((_ & X & Y) & _). split.
  - eapply Permutation_NoDup; [apply Permutation_map, Permutation_sym, P|exact X].
  - intros n a Ha. apply (Y n a). eapply Permutation_in; eauto.
Qed.

Definition pair_of (B : list Z) : Prop := NoDup B /\ forall j, In j B <-> j = 1%Z \/ j = 2%Z.
Lemma basin_c B : basin_is heap_c sites 1 100 5 B -> pair_of B.
Proof.
  intros [(_ & L & NDL & _ & Big & Re)|(NDL & HL & Sz & Re & Cl)].
  - exfalso. assert (S4 : incl L [1; 2; 3; 4]%Z).
    { intros j Hj. specialize (Re j Hj). apply clos_rt_rtn1 in Re. destruct Re as [|y z (_ & _ & r & Hr & _) _]; [cbn; auto|]. rates Hr; cbn; auto 6. }
    apply (NoDup_incl_length NDL) in S4. cbn [length] in S4. lia.
  - assert (H2L : In 2%Z B).
    { destruct (in_dec Z.eq_dec 2%Z B) as [X|X]; [exact X|]. exfalso. specialize (Cl 1%Z 2%Z 100 HL). specialize (Cl ltac:(apply rate_c; auto) X). lra. }
    split; [exact NDL|].
    assert (Len : (length B <= 5)%nat) by (destruct Sz as [Sz| ->]; [lia|cbn; lia]).
    assert (Sl : 1 < slack (pairs B) 100).
    { unfold slack. assert (Pn : (pairs B <= 10)%nat).
      { unfold pairs. assert (Y : (length B * (length B - 1) <= 20)%nat) by nia. change 10%nat with (20 / 2)%nat. apply Nat.div_le_mono; lia. }
      apply Rlt_le_trans with ((9999 / 10000) ^ 10 * 100); [cbn; lra|]. apply Rmult_le_compat_r; [lra|].
      generalize (pairs B) Pn. intros n Hn. replace 10%nat with (n + (10 - n))%nat by lia. rewrite pow_add.
      rewrite <- (Rmult_1_r ((9999 / 10000) ^ n)) at 2. apply Rmult_le_compat_l; [apply pow_le; lra|].
      generalize (10 - n)%nat. intros q. rewrite <- (pow1 q). apply pow_incr. lra. }
    intros j. split.
    + intros Hj. specialize (Re j Hj). apply clos_rt_rtn1 in Re. destruct Re as [|y z (_ & _ & r & Hr & Le) _]; [auto|].
      rates Hr; auto; lra.
    + intros [-> | ->]; assumption.
Qed.

Lemma leaving_c B : pair_of B -> leaving heap_c sites B = 2.
Proof.
  intros [NDB HB].
  assert (P : Permutation B [1; 2]%Z).
  { apply NoDup_Permutation; [exact NDB|repeat constructor; cbn; intuition lia|]. intros j. rewrite HB. cbn. intuition. }
  assert (Ex : forall j, existsb (Z.eqb j) B = (j =? 1)%Z || (j =? 2)%Z).
  { intros j. apply Bool.eq_iff_eq_true. rewrite existsb_exists, orb_true_iff, !Z.eqb_eq. split.
    - intros (y & Hy & E). apply Z.eqb_eq in E. subst y. apply HB, Hy.
    - intros X. exists j. split; [apply HB, X|apply Z.eqb_refl]. }
  unfold leaving. rewrite (Rsum_perm _ _ _ P). cbn [Rsum].
  assert (Out : forall i r, In (i, r) rates_c -> rates_out heap_c sites B i = Rsum (fun e => if existsb (Z.eqb (fst e)) B then 0 else realv (heap_c (snd e))) r).
  { intros i r Hr. destruct (H1 i r Hr) as (s & Es & Pr). unfold rates_out. rewrite Es. apply Rsum_perm, Pr. }
  rewrite (Out 1%Z [(2, 0); (3, 2)]%Z) by (cbn; auto). rewrite (Out 2%Z [(1, 1); (4, 3)]%Z) by (cbn; auto).
  cbn [Rsum fst snd]. rewrite !Ex. cbn. lra.
Qed.
Lemma crossing_c B : pair_of B -> crossing heap_c sites B (1 / 100).
Proof.
  intros [NDB HB].
  assert (W : forall i j t, walk heap_c sites B i j t -> 0 <= t /\ (i <> j -> 1 / 100 <= t)).
  { intros i j t X. induction X as [|j k t r X IH Hk Hr]; [split; [lra|congruence]|]. assert (0 <= t) by apply IH.
    assert (1 / 100 <= 1 / r) by (rates Hr; lra). split; [lra|intros; lra]. }
  assert (Q : forall i j, (i = 1 /\ j = 2)%Z \/ (i = 2 /\ j = 1)%Z -> walk heap_c sites B i j (1 / 100)).
  { intros i j Hij. replace (1 / 100) with (0 + 1 / 100) by lra. apply (walk_go _ _ _ _ i).
    - apply walk_stay. apply HB. lia.
    - apply HB. lia.
    - apply rate_c. destruct Hij as [[-> ->]|[-> ->]]; auto. }
  assert (Q' : forall i j, (i = 1 /\ j = 2)%Z \/ (i = 2 /\ j = 1)%Z -> quickest heap_c sites B i j (1 / 100)).
  { intros i j Hij. split; [apply Q, Hij|]. intros t Ht. apply (W i j t Ht). lia. }
  split.
  - intros i j d Hij [Hd Low]. assert (X : (i = 1 /\ j = 2)%Z \/ (i = 2 /\ j = 1)%Z).
    { assert (Hi : In i B) by (clear -Hd; induction Hd; assumption). assert (Hj : In j B) by (clear -Hd; induction Hd; assumption).
      apply HB in Hi, Hj. lia. }
    apply Low, Q, X.
  - right. exists 1%Z, 2%Z. split; [lia|]. apply Q'. auto.
Qed.
End Net.

(** after one hop sites 1 and 2 are a cluster *)
Lemma cluster_c : exists (g g' : @world XR rng_c) (n : nat) (c : Z),
  @reach_by impl0 XR rng_c ugly_c clk_c calls_c g [10%Z] /\ g_heap g = heap_c /\ walker_to g 10 1 /\
  (forall f, (n <= f)%nat -> @sys_hop impl0 XR rng_c ugly_c clk_c f 0 10 g = Ret tt g') /\ @listed impl0 XR rng_c g' c 1 /\ @listed impl0 XR rng_c g' c 2 /\
  (forall k, cluster_of g k unassignedId <-> (1 <= k <= 4)%Z) /\ @fastest_off_of impl0 rng_c g 1 100 /\ (g_thr g <= g_iter g)%Z /\ g_thrmin g <> inf_iterations /\
  (forall i j x, rate_between heap_c (g_sites g) i j x <->
    (i, j) = (1, 2)%Z /\ x = 100 \/ (i, j) = (1, 3)%Z /\ x = 1 \/ (i, j) = (2, 1)%Z /\ x = 100 \/ (i, j) = (2, 4)%Z /\ x = 1 \/ (i, j) = (3, 1)%Z /\ x = 1 \/ (i, j) = (4, 2)%Z /\ x = 1) /\
  (forall B, basin_is heap_c (g_sites g) 1 100 5 B -> pair_of B /\ crossing heap_c (g_sites g) B (1 / 100) /\ leaving heap_c (g_sites g) B = 2).
Proof.
  destruct starts_c as (g & R & Eh & H1 & H2 & On).
  assert (V : @inv XR rng_c g [10%Z]) by (apply (@reach_inv impl0 XR rng_c ugly_c clk_c); eexists; exact R).
  assert (Fv : Forall (valid_call (g_heap g)) calls_c).
  { rewrite Eh. constructor; [exists 1; split; [reflexivity|lra]|]. constructor; [exists 1; reflexivity|]. constructor; [exact Logic.I|].
    constructor; [exact mutual_c|]. constructor; [exact Logic.I|constructor]. }
  assert (Fp : Forall (paced_call (g_heap g) 1 101) calls_c).
  { rewrite Eh. constructor; [exact Logic.I|]. constructor; [exact Logic.I|]. constructor; [cbn; lia|]. constructor; [exact paced_c|]. constructor; [exact Logic.I|constructor]. }
  assert (Hops : hops (N := XR) calls_c = 0%Z) by reflexivity.
  assert (Fits : fits (most_gain 1 101) 1) by (split; [unfold most_gain; lra|split; [lia|unfold most_gain; lra]]).
  assert (L : living 1 101 0 g [10%Z]).
  { rewrite <- Hops. apply (@living_reach impl0 rng_c ugly_c clk_c 1 101 ltac:(lra) small_c fair_c); try assumption; rewrite Hops; [|lia].
    apply (fits_less _ _ 1); [lia|exact Fits]. }
  assert (H2' : forall i s, ulookup i (g_sites g) = Some s -> exists r, In (i, r) rates_c) by (intros i s Es; apply (H2 i s Es)).
  pose proof (h_nds _ _ _ (v_shape _ _ V)) as ND. pose proof (rate_c (g_sites g) ND H1 H2') as Rc.
  assert (To : walker_to g 10 1).
  { destruct (i_aims _ _ _ _ _ L 10%Z (or_introl eq_refl)) as (w & Ew & Nx & _). exists w. split; [exact Ew|].
    destruct On as (w' & Ew' & Ec). assert (w' = w) by congruence. subst w'. rewrite Ec in Nx.
    destruct Nx as [(s & Es & Hn)|(c & i & (m & Hm) & _)].
    - destruct (H1 3%Z [(1, 4)]%Z) as (s' & Es' & P); [cbn; auto|]. assert (s' = s) by congruence. subst s'. unfold s_neighIds in Hn.
      apply (Permutation_in _ (Permutation_map fst P)) in Hn. cbn in Hn. destruct Hn as [<-|[]]. reflexivity.
    - destruct (h_mem _ _ _ (v_shape _ _ V) c 3%Z m Hm) as (s & Es & Nu & _). destruct (H2 _ _ Es) as [X _]. contradiction. }
  assert (Un : forall k, cluster_of g k unassignedId <-> (1 <= k <= 4)%Z).
  { intros k. rewrite cluster_of_iff. split.
    - intros (s & Es & _). destruct (H2 k s Es) as (_ & r & Hr). destruct Hr as [E|[E|[E|[E|[]]]]]; inversion E; lia.
    - intros Hk. assert (exists r, In (k, r) rates_c) as [r Hr].
      { assert (k = 1 \/ k = 2 \/ k = 3 \/ k = 4)%Z as [-> | [-> | [-> | ->]]] by lia; eexists; cbn; eauto 6. }
      destruct (H1 k r Hr) as (s & Es & _). exists s. split; [exact Es|]. apply (H2 k s Es). }
  assert (Off : @fastest_off_of impl0 rng_c g 1 100).
  { left. split; [apply Un; lia|]. rewrite Eh. right. split; [exists 2%Z; apply Rc; auto|].
    intros x (j & Hj). apply Rc in Hj. lra. }
  destruct (zero_due clk_c _ _ _ R eq_refl) as [D1 D2].
  destruct (@hop_runs impl0 rng_c ugly_c clk_c 1 101 ltac:(lra) small_c fair_c _ g [10%Z] 0%Z 10%Z R Fv Fp) as (g' & (n & E) & _).
  { rewrite Hops. exact Fits. } { rewrite Hops. lia. } { left; reflexivity. }
  destruct (@hop_due impl0 rng_c ugly_c clk_c _ g [10%Z] n 0%Z 10%Z g' 1%Z 100 1 1 R Fv (or_introl eq_refl) (E n (le_n n)) To D1 D2 Off eq_refl eq_refl) as (B & Bs & Due).
  rewrite Eh in *. 
  assert (All : forall B, basin_is heap_c (g_sites g) 1 100 5 B -> pair_of B /\ crossing heap_c (g_sites g) B (1 / 100) /\ leaving heap_c (g_sites g) B = 2).
  { intros B' Bs'. apply (basin_c _ ND H1 H2') in Bs'. split; [exact Bs'|]. split; [apply crossing_c; assumption|apply leaving_c; assumption]. }
  apply (basin_c _ ND H1 H2') in Bs. pose proof (leaving_c _ H1 B Bs) as Lv. rewrite Lv in Due.
  destruct (Due (1 / 100) (crossing_c _ ND H1 H2' B Bs)) as [c Hc]; try lra.
  exists g, g', n, c. split; [exact R|]. split; [exact Eh|]. split; [exact To|]. split; [exact E|].
  split; [apply Hc, Bs; auto|]. split; [apply Hc, Bs; auto|]. auto 7.
Qed.
