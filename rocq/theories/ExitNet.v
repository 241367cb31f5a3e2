(** * A cluster that grows over all its exits keeps its walkers for ever

    The chain 1 - 2 - 3 - 4: the rates between 1 and 2 are 100, 2 to 3 is 1,
    3 to 2 is 50, 3 to 4 is 1/100 and 4 to 3 is 1.  Walker 10 starts on site
    1, walker 20 on site 4. *)
From Coq Require Import ZArith List Bool Reals Lra Lia Permutation Relations.
From Verif Require Import Base BaseProofs Num RSum WalkerModel SiteModel SiteSpec SiteProofs ClusterModel ClusterHist ClusterSpec ClusterReal ClusterProofs ClusterFrame
  ClusterLive ContainerModel BasinModel BasinSpec CrossSpec CrossProofs SystemModel SystemSpec SystemShape SystemHop SystemCoarse SystemMerge
  SystemProofs SystemFacts SystemInit SystemControl ValidSpec SystemEffect SystemEquil Fuel SystemLive SystemGrow SystemTotal SystemStart DueSpec SystemDue SystemValid SystemChain
  PropValid SystemDrain SystemOps SystemTables StaySpec SystemStay ExitSpec SystemExit.
Import ListNotations.
Open Scope R_scope.

Definition heap_e : @heap XR := fun a => if (a <? 2)%Z then Fin 100 else if (a =? 3)%Z then Fin 50 else if (a =? 4)%Z then Fin (1 / 100) else Fin 1.
Definition rates_e : umap (umap Z) := [(1, [(2, 0)]); (2, [(1, 1); (3, 2)]); (3, [(2, 3); (4, 4)]); (4, [(3, 5)])]%Z.
Definition walkers_e : umap (@walker XR) := [(10, @mkWalker XR 1 unassignedId (Fin 0)); (20, @mkWalker XR 4 unassignedId (Fin 0))]%Z.
Definition calls_e : list (@call XR) := (preface 1 10000000 0 rates_e ++ [KEnter [(0, 10); (1, 20)]])%Z.

Lemma mutual_e : mutual_map heap_e rates_e.
Proof.
  assert (P1 : exists r, Fin 100 = Fin r /\ 0 < r) by (exists 100; split; [reflexivity|lra]).
  assert (P2 : exists r, Fin 1 = Fin r /\ 0 < r) by (exists 1; split; [reflexivity|lra]).
  assert (P3 : exists r, Fin 50 = Fin r /\ 0 < r) by (exists 50; split; [reflexivity|lra]).
  assert (P4 : exists r, Fin (1 / 100) = Fin r /\ 0 < r) by (exists (1 / 100); split; [reflexivity|lra]).
  intros i r Hin. split.
  - destruct Hin as [E|[E|[E|[E|[]]]]]; inversion E; subst; (split; [discriminate|]); (split; [repeat constructor; cbn; intuition lia|]);
      intros n a Ha; cbn [In] in Ha; intuition; match goal with X : (_, _) = (n, a) |- _ => inversion X; subst end; assumption.
  - intros j Hj. destruct Hin as [E|[E|[E|[E|[]]]]]; inversion E; subst; cbn in Hj.
    + destruct Hj as [<-|[]]; exists [(1, 1); (3, 2)]%Z; cbn; auto 6.
    + destruct Hj as [<-|[<-|[]]]; [exists [(2, 0)]%Z|exists [(2, 3); (4, 4)]%Z]; cbn; auto 6.
    + destruct Hj as [<-|[<-|[]]]; [exists [(1, 1); (3, 2)]%Z|exists [(3, 5)]%Z]; cbn; auto 6.
    + destruct Hj as [<-|[]]; exists [(2, 3); (4, 4)]%Z; cbn; auto 6.
Qed.
Lemma paced_e : paced_call heap_e (1 / 100) 101 (KInit rates_e).
Proof.
  intros i r Hin. destruct Hin as [E|[E|[E|[E|[]]]]]; inversion E; subst; (split; [discriminate|]); (split; [cbn; intuition lia|]); split.
  all: try (intros j a Ha; cbn [In] in Ha; intuition; match goal with X : (_, _) = (j, a) |- _ => inversion X; subst end; cbn; lra).
  all: unfold total_rate; cbn; lra.
Qed.
Lemma bounds_e : rate_bounds (1 / 100) 101.
Proof. split; [lra|apply small_c]. Qed.
Lemma few_e n : (0 <= n <= 4000)%Z -> few_hops (1 / 100) 101 n.
Proof.
  intros [A B]. split; [|lia]. apply IZR_le in A, B. replace (101 / (2 * (1 / 100 * (1 / 100))) + 1) with 505001 by lra. nra.
Qed.

Section Net.
Context {I : Impl} {G : @Rng XR}.
Variable sites : umap (@site XR G).
Hypothesis (ND : NoDup (ukeys sites))
  (H1 : forall i r, In (i, r) rates_e -> exists s, ulookup i sites = Some s /\ Permutation (s_neigh s) r)
  (H2 : forall i s, ulookup i sites = Some s -> exists r, In (i, r) rates_e).

Lemma rate_e i j x : rate_between heap_e sites i j x <->
  (i, j) = (1, 2)%Z /\ x = 100 \/ (i, j) = (2, 1)%Z /\ x = 100 \/ (i, j) = (2, 3)%Z /\ x = 1 \/ (i, j) = (3, 2)%Z /\ x = 50 \/ (i, j) = (3, 4)%Z /\ x = 1 / 100 \/ (i, j) = (4, 3)%Z /\ x = 1.
Proof.
  split.
  - intros (s & a & Es & Ha & Ex). apply (In_ulookup _ _ _ ND) in Es. destruct (H2 i s Es) as [r Hr].
    destruct (H1 i r Hr) as (s' & Es' & P). assert (s' = s) by congruence. subst s'. apply (Permutation_in _ P) in Ha.
    destruct Hr as [E|[E|[E|[E|[]]]]]; inversion E; subst; cbn in Ha; intuition;
      match goal with X : (_, _) = (j, a) |- _ => inversion X; subst end; cbn in Ex; inversion Ex; subst; auto 9.
  - assert (X : forall r a, In (i, r) rates_e -> In (j, a) r -> heap_e a = Fin x -> rate_between heap_e sites i j x).
    { intros r a Hr Ha Ex. destruct (H1 i r Hr) as (s & Es & P). exists s, a. split; [apply ulookup_In, Es|]. split; [|exact Ex].
      apply (Permutation_in _ (Permutation_sym P)), Ha. }
    intros [[E ->]|[[E ->]|[[E ->]|[[E ->]|[[E ->]|[E ->]]]]]]; inversion E; subst; eapply X; unfold rates_e; cbn [In]; auto 6; cbn [In]; auto; reflexivity.
Qed.
Ltac rates E := apply rate_e in E; destruct E as [[E ->]|[[E ->]|[[E ->]|[[E ->]|[[E ->]|[E ->]]]]]]; inversion E; subst.

Lemma slack_e (B : list Z) ref : (length B <= 5)%nat -> 0 < ref -> 49 / 50 * ref < slack (pairs B) ref.
Proof.
  intros Len Hr. unfold slack. assert (Pn : (pairs B <= 10)%nat).
  { unfold pairs. assert (Y : (length B * (length B - 1) <= 20)%nat) by nia. change 10%nat with (20 / 2)%nat. apply Nat.div_le_mono; lia. }
  apply Rlt_le_trans with ((9999 / 10000) ^ 10 * ref); [apply Rmult_lt_compat_r; [exact Hr|cbn; lra]|]. apply Rmult_le_compat_r; [lra|].
  generalize (pairs B) Pn. intros n Hn. replace 10%nat with (n + (10 - n))%nat by lia. rewrite pow_add.
  rewrite <- (Rmult_1_r ((9999 / 10000) ^ n)) at 2. apply Rmult_le_compat_l; [apply pow_le; lra|].
  generalize (10 - n)%nat. intros q. rewrite <- (pow1 q). apply pow_incr. lra.
Qed.
Definition sites_are (l B : list Z) : Prop := NoDup B /\ forall j, In j B <-> In j l.
(** site [k] of the sites [l] is held together with them by rates of at least [ref] *)
Lemma basin_e k ref l B : In k l -> 0 < ref -> (1 <= k <= 4)%Z -> incl l [1; 2; 3; 4]%Z -> basin_is heap_e sites k ref 5 B ->
  (forall i j x, In i l -> rate_between heap_e sites i j x -> 49 / 50 * ref < x -> In j l) ->
  (forall L, In k L -> (forall i j x, In i L -> rate_between heap_e sites i j x -> ref <= x -> In j L) -> incl l L) -> sites_are l B.
Proof.
  intros Hk H0 Rk Il [(_ & L & NDL & _ & Big & Re)|(NDL & HL & Sz & Re & Cl)] St Al.
  - exfalso. assert (S4 : incl L [1; 2; 3; 4]%Z).
    { intros j Hj. specialize (Re j Hj). apply clos_rt_rtn1 in Re. destruct Re as [|y z (_ & _ & r & Hr & _) _]; [cbn; lia|]. rates Hr; cbn; auto 6. }
    apply (NoDup_incl_length NDL) in S4. cbn [length] in S4. lia.
  - assert (Len : (length B <= 5)%nat) by (destruct Sz as [Sz| ->]; [lia|cbn; lia]). pose proof (slack_e B ref Len H0) as Sl.
    split; [exact NDL|]. intros j. split.
    + intros Hj. specialize (Re j Hj). apply clos_rt_rtn1 in Re. clear Hj. induction Re as [|y z (_ & _ & r & Hr & Le) _ IH]; [exact Hk|].
      apply (St y z r IH Hr). lra.
    + intros Hj. apply (Al B HL); [|exact Hj]. intros i x r Hi Hr Le. destruct (in_dec Z.eq_dec x B) as [X|X]; [exact X|]. exfalso. specialize (Cl i x r Hi Hr X). lra.
Qed.
Lemma basin_two B : basin_is heap_e sites 2 100 5 B -> sites_are [1; 2]%Z B.
Proof.
  intros Bs. apply (basin_e 2%Z 100 [1; 2]%Z _ ltac:(cbn; auto) ltac:(lra) ltac:(lia)) in Bs; [exact Bs| | |].
  - intros j Hj. cbn in *. intuition.
  - intros i j x Hi Hr Hx. cbn in Hi. rates Hr; cbn; auto; try lra; intuition lia.
  - intros L HL Cl. assert (In 1%Z L) by (apply (Cl 2%Z 1%Z 100 HL); [apply rate_e; auto|lra]). intros j [<-|[<-|[]]]; assumption.
Qed.
Lemma basin_three B : basin_is heap_e sites 3 50 5 B -> sites_are [1; 2; 3]%Z B.
Proof.
  intros Bs. apply (basin_e 3%Z 50 [1; 2; 3]%Z _ ltac:(cbn; auto) ltac:(lra) ltac:(lia)) in Bs; [exact Bs| | |].
  - intros j Hj. cbn in *. intuition.
  - intros i j x Hi Hr Hx. cbn in Hi. rates Hr; cbn; auto; try lra; intuition lia.
  - intros L HL Cl. assert (H2L : In 2%Z L) by (apply (Cl 3%Z 2%Z 50 HL); [apply rate_e; auto 7|lra]).
    assert (In 1%Z L) by (apply (Cl 2%Z 1%Z 100 H2L); [apply rate_e; auto|lra]). intros j [<-|[<-|[<-|[]]]]; assumption.
Qed.

Lemma out_of i r B l : In (i, r) rates_e -> sites_are l B ->
  rates_out heap_e sites B i = Rsum (fun e => if existsb (Z.eqb (fst e)) l then 0 else realv (heap_e (snd e))) r.
Proof.
  intros Hr [_ HB]. destruct (H1 i r Hr) as (s & Es & Pr). unfold rates_out. rewrite Es. rewrite (Rsum_perm _ _ _ Pr). apply Rsum_ext. intros e _.
  replace (existsb (Z.eqb (fst e)) B) with (existsb (Z.eqb (fst e)) l); [reflexivity|]. apply Bool.eq_iff_eq_true. rewrite !existsb_exists.
  split; intros (y & Hy & E); exists y; (split; [apply HB, Hy|exact E]).
Qed.
Lemma leaving_of l B : sites_are l B -> NoDup l -> leaving heap_e sites B = Rsum (rates_out heap_e sites B) l.
Proof. intros [NDB HB] Nl. unfold leaving. apply Rsum_perm, NoDup_Permutation; assumption. Qed.
Lemma leaving_two B : sites_are [1; 2]%Z B -> leaving heap_e sites B = 1.
Proof.
  intros S. rewrite (leaving_of _ _ S) by (repeat constructor; cbn; intuition lia). cbn [Rsum].
  rewrite (out_of 1%Z [(2, 0)]%Z B _ ltac:(cbn; auto) S), (out_of 2%Z [(1, 1); (3, 2)]%Z B _ ltac:(cbn; auto) S). cbn. lra.
Qed.
Lemma leaving_three B : sites_are [1; 2; 3]%Z B -> leaving heap_e sites B = 1 / 100.
Proof.
  intros S. rewrite (leaving_of _ _ S) by (repeat constructor; cbn; intuition lia). cbn [Rsum].
  rewrite (out_of 1%Z [(2, 0)]%Z B _ ltac:(cbn; auto) S), (out_of 2%Z [(1, 1); (3, 2)]%Z B _ ltac:(cbn; auto) S), (out_of 3%Z [(2, 3); (4, 4)]%Z B _ ltac:(cbn; auto) S). cbn. lra.
Qed.

(** how long it takes from site 1 *)
Definition since (j : Z) : R := if (j =? 1)%Z then 0 else if (j =? 2)%Z then 1 / 100 else if (j =? 3)%Z then 101 / 100 else 0.
Lemma walk_since B j t : ~ In 4%Z B -> walk heap_e sites B 1 j t -> since j <= t.
Proof.
  intros N4 X. induction X as [Hi|j k t r X IH Hk Hr].
  - cbn. lra.
  - assert (Hj : In j B) by (clear -X; induction X; assumption). rates Hr; cbn in *; try lra; contradiction.
Qed.
Lemma walk_ends B i j t : walk heap_e sites B i j t -> In i B /\ In j B.
Proof. induction 1 as [Hi|j k t r X [A B'] Hk Hr]; auto. Qed.
Lemma one_walk B i j r : In i B -> In j B -> rate_between heap_e sites i j r -> walk heap_e sites B i j (1 / r).
Proof. intros Hi Hj Hr. replace (1 / r) with (0 + 1 / r) by lra. apply (walk_go _ _ _ _ i); [apply walk_stay, Hi|exact Hj|exact Hr]. Qed.
Lemma crossing_two B : sites_are [1; 2]%Z B -> crossing heap_e sites B (1 / 100).
Proof.
  intros [NDB HB]. assert (B1 : In 1%Z B) by (apply HB; cbn; auto). assert (B2 : In 2%Z B) by (apply HB; cbn; auto). assert (B4 : ~ In 4%Z B) by (rewrite HB; cbn; lia).
  assert (W12 : walk heap_e sites B 1 2 (1 / 100)) by (apply one_walk; [assumption..|apply rate_e; auto]).
  assert (W21 : walk heap_e sites B 2 1 (1 / 100)) by (apply one_walk; [assumption..|apply rate_e; auto]).
  split.
  - intros i j d Hij [Hd Low]. destruct (walk_ends _ _ _ _ Hd) as [Hi Hj]. apply HB in Hi, Hj. cbn in Hi, Hj. apply Low.
    destruct Hi as [<-|[<-|[]]], Hj as [<-|[<-|[]]]; try congruence; assumption.
  - right. exists 1%Z, 2%Z. split; [lia|]. split; [exact W12|]. intros t Ht. apply (walk_since _ _ _ B4) in Ht. exact Ht.
Qed.
Lemma crossing_three B : sites_are [1; 2; 3]%Z B -> crossing heap_e sites B (101 / 100).
Proof.
  intros [NDB HB]. assert (B1 : In 1%Z B) by (apply HB; cbn; auto). assert (B2 : In 2%Z B) by (apply HB; cbn; auto). assert (B3 : In 3%Z B) by (apply HB; cbn; auto).
  assert (B4 : ~ In 4%Z B) by (rewrite HB; cbn; lia).
  assert (W12 : walk heap_e sites B 1 2 (1 / 100)) by (apply one_walk; [assumption..|apply rate_e; auto]).
  assert (W21 : walk heap_e sites B 2 1 (1 / 100)) by (apply one_walk; [assumption..|apply rate_e; auto]).
  assert (W23 : walk heap_e sites B 2 3 (1 / 1)) by (apply one_walk; [assumption..|apply rate_e; auto]).
  assert (W32 : walk heap_e sites B 3 2 (1 / 50)) by (apply one_walk; [assumption..|apply rate_e; auto 7]).
  assert (W13 : walk heap_e sites B 1 3 (1 / 100 + 1 / 1)) by (eapply walk_go; [exact W12|exact B3|apply rate_e; auto]).
  assert (W31 : walk heap_e sites B 3 1 (1 / 50 + 1 / 100)) by (eapply walk_go; [exact W32|exact B1|apply rate_e; auto]).
  split.
  - intros i j d Hij [Hd Low]. destruct (walk_ends _ _ _ _ Hd) as [Hi Hj]. apply HB in Hi, Hj. cbn in Hi, Hj.
    destruct Hi as [<-|[<-|[<-|[]]]], Hj as [<-|[<-|[<-|[]]]]; try congruence;
      [apply Low in W12|apply Low in W13|apply Low in W21|apply Low in W23|apply Low in W31|apply Low in W32]; lra.
  - right. exists 1%Z, 3%Z. split; [lia|]. split; [replace (101 / 100) with (1 / 100 + 1 / 1) by lra; exact W13|]. intros t Ht. apply (walk_since _ _ _ B4) in Ht. exact Ht.
Qed.
End Net.

Section Kept.
Context {I : Impl} {G : @Rng XR} {U : @Ugly XR}.
Variable clk : Z -> Z.
Lemma hop_neigh fuel id p (g : @world XR G) g' ws : inv g ws -> In p ws -> sys_hop clk fuel id p g = Ret tt g' ->
  forall k, option_map s_neigh (ulookup k (g_sites g')) = option_map s_neigh (ulookup k (g_sites g)).
Proof.
  intros V Hp E k. destruct (hop_made clk _ _ _ _ _ _ V Hp E) as (g1 & i & n & V1 & D & _ & H). cbv zeta in H. rewrite <- (look_neigh _ _ (still_drift _ _ D) k).
  destruct H as [[A _]|(g3 & B & c & -> & _ & Md & _)]; [rewrite A; reflexivity|]. change (g_sites (g_with_iter 0 (g_with_thr (g_thrmin g1) g3))) with (g_sites g3).
  rewrite (d_label _ _ _ _ _ Md). destruct (existsb _ _); [|reflexivity]. destruct (ulookup k (g_sites g1)); reflexivity.
Qed.
Lemma hop_net fuel id p (g : @world XR G) g' ws : inv g ws -> In p ws -> sys_hop clk fuel id p g = Ret tt g' ->
  (forall i r, In (i, r) rates_e -> exists s, ulookup i (g_sites g) = Some s /\ Permutation (s_neigh s) r) ->
  (forall i s, ulookup i (g_sites g) = Some s -> exists r, In (i, r) rates_e) ->
  (forall i r, In (i, r) rates_e -> exists s, ulookup i (g_sites g') = Some s /\ Permutation (s_neigh s) r) /\
  (forall i s, ulookup i (g_sites g') = Some s -> exists r, In (i, r) rates_e).
Proof.
  intros V Hp E H1 H2. pose proof (hop_neigh _ _ _ _ _ _ V Hp E) as Hn. split.
  - intros i r Hr. destruct (H1 i r Hr) as (s & Es & P). specialize (Hn i). rewrite Es in Hn. destruct (ulookup i (g_sites g')) as [s'|]; [|discriminate].
    exists s'. split; [reflexivity|]. cbn [option_map] in Hn. injection Hn as ->. exact P.
  - intros i s Es. specialize (Hn i). rewrite Es in Hn. destruct (ulookup i (g_sites g)) as [s'|] eqn:Es'; [|discriminate]. eapply H2; eauto.
Qed.
End Kept.

Section Witness.
Context (I : Impl) (G : @Rng XR) (U : @Ugly XR).
Variable clk : Z -> Z.
Hypothesis HD : open_draws G.

Lemma starts_e : exists g : @world XR G,
  valid_reach clk (1 / 100) 101 calls_e g [10; 20]%Z /\ g_heap g = heap_e /\ ratio calls_e = Fin 1 /\ resolution calls_e = Some (Fin 10000000) /\ min_thr calls_e = 0%Z /\
  (forall i r, In (i, r) rates_e -> exists s, ulookup i (g_sites g) = Some s /\ Permutation (s_neigh s) r) /\
  (forall i s, ulookup i (g_sites g) = Some s -> s_cluster s = unassignedId /\ exists r, In (i, r) rates_e) /\
  walker_on g 10 1 /\ walker_on g 20 4.
Proof.
  destruct bounds_e as [[B1 B2] B3].
  destruct (program_starts clk (1 / 100) 101 B1 B2 B3 HD walkers_e heap_e 0 0 1 10000000 0 rates_e [(0, 10); (1, 20)]%Z) as (g & S & Eh & H1 & H2 & On);
    try lia; try lra; try discriminate.
  - repeat constructor; cbn; intuition lia.
  - repeat constructor; cbn; intuition lia.
  - exact mutual_e.
  - exact paced_e.
  - repeat constructor; cbn; intuition lia.
  - intros p [<-|[<-|[]]]; eexists; (split; [reflexivity|]); cbn; auto 6.
  - intros p q w w' [<-|[<-|[]]] [<-|[<-|[]]] E E'; try reflexivity; cbn in E, E'; injection E as <-; injection E' as <-; discriminate.
  - exists g. split; [split; [exists walkers_e, heap_e, 0%Z, 0%Z; split; [repeat constructor; cbn; intuition lia|]; split; [lia|exact S]|]|].
    { rewrite Eh. split.
      - constructor; [exists 1; split; [reflexivity|lra]|]. constructor; [exists 10000000; reflexivity|]. constructor; [exact Logic.I|].
        constructor; [exact mutual_e|]. constructor; [exact Logic.I|constructor].
      - constructor; [exact Logic.I|]. constructor; [exact Logic.I|]. constructor; [cbn; lia|]. constructor; [exact paced_e|]. constructor; [exact Logic.I|constructor]. }
    split; [exact Eh|]. split; [reflexivity|]. split; [reflexivity|]. split; [reflexivity|]. split; [exact H1|]. split; [exact H2|].
    split; [specialize (On 10%Z)|specialize (On 20%Z)]; cbn in On; unfold walker_on.
    + destruct (ulookup 10 (g_walkers g)) as [w|]; [|discriminate]. injection On as On. exists w. auto.
    + destruct (ulookup 20 (g_walkers g)) as [w|]; [|discriminate]. injection On as On. exists w. auto.
Qed.

Lemma rate_site (g : @world XR G) ws k n r : inv g ws -> (StaySpec.site_rate g k n r <-> rate_between (g_heap g) (g_sites g) k n r).
Proof.
  intros V. split.
  - intros (s & Es & a & Ha & Er). exists s, a. split; [apply ulookup_In, Es|auto].
  - intros (s & a & Es & Ha & Er). exists s. split; [apply In_ulookup; [apply (v_shape _ _ V)|exact Es]|exists a; auto].
Qed.
Lemma hop_place fuel id p (g : @world XR G) g' ws src dst k : inv g ws -> In p ws -> sys_hop clk fuel id p g = Ret tt g' ->
  walker_on g p src -> walker_to g p dst -> walker_on g' p k -> k = src \/ k = dst.
Proof.
  intros V Hp E Hs Hd Hk. destruct (hop_facts clk _ _ _ src dst _ _ _ V Hp Hs Hd E) as ((w & Ew & X) & _). destruct Hk as (w' & Ew' & <-).
  assert (w' = w) by congruence. subst w'. rewrite X. destruct (here g ws dst); auto.
Qed.
Lemma listed_marked (g : @world XR G) ws c k : inv g ws -> listed g c k -> exists s, ulookup k (g_sites g) = Some s /\ s_cluster s <> unassignedId.
Proof.
  intros V X. apply (proj1 (listed_holds g c k (h_ndc _ _ _ (v_shape _ _ V)))) in X. destruct X as [m Hm].
  destruct (h_mem _ _ _ (v_shape _ _ V) c k m Hm) as (s & Es & Nu & _). eauto.
Qed.
Lemma unlisted_unmarked (g : @world XR G) ws k s : inv g ws -> solid g -> ulookup k (g_sites g) = Some s -> (forall c, ~ listed g c k) -> cluster_of g k unassignedId.
Proof.
  intros V So Es N. apply cluster_of_iff. exists s. split; [exact Es|]. destruct (Z.eq_dec (s_cluster s) unassignedId) as [X|X]; [exact X|].
  exfalso. apply (N (s_cluster s)), (listed_holds g _ _ (h_ndc _ _ _ (v_shape _ _ V))), (o_label _ So k s Es X).
Qed.

(** Walker 10 hops, and sites 1 and 2 become a cluster; walker 20 hops, and site
    3 joins it. *)
Lemma grown_e : exists (g g1 g2 : @world XR G) (n1 n2 : nat) (c : Z),
  (g_heap g = heap_e /\ walker_on g 10 1 /\ walker_to g 10 2 /\ walker_on g 20 4 /\
   exists s, ulookup 2%Z (g_sites g) = Some s /\ Permutation (s_neigh s) [(1, 1); (3, 2)]%Z /\ s_cluster s = unassignedId) /\
  valid_reach clk (1 / 100) 101 calls_e g [10; 20]%Z /\ sys_hop clk n1 0 10 g = Ret tt g1 /\ ~ is_cluster g c /\
  is_cluster g1 c /\ (forall j, listed g1 c j <-> In j [1; 2]%Z) /\ (forall x, is_cluster g1 x -> x = c) /\ (forall n, beside g1 c n <-> n = 3%Z) /\
  sys_hop clk n2 1 20 g1 = Ret tt g2 /\ valid_reach clk (1 / 100) 101 (calls_e ++ [KHop 10; KHop 20])%Z g2 [10; 20]%Z /\
  (forall j, In j [1; 2; 3]%Z -> listed g2 c j) /\
  (exists k n, walker_on g2 10 k /\ walker_to g2 10 n /\ In k [1; 2; 3]%Z /\ In n [1; 2; 3]%Z) /\
  (forall i j x, rate_between (g_heap g2) (g_sites g2) i j x <->
    (i, j) = (1, 2)%Z /\ x = 100 \/ (i, j) = (2, 1)%Z /\ x = 100 \/ (i, j) = (2, 3)%Z /\ x = 1 \/ (i, j) = (3, 2)%Z /\ x = 50 \/ (i, j) = (3, 4)%Z /\ x = 1 / 100 \/ (i, j) = (4, 3)%Z /\ x = 1).
Proof.
  destruct starts_e as (g & Vr & Eh & Er & Et & Em & H1 & H2 & On1 & On4).
  assert (H2' : forall i s, ulookup i (g_sites g) = Some s -> exists r, In (i, r) rates_e) by (intros i s Es; apply (H2 i s Es)).
  pose proof (valid_inv clk _ _ _ _ _ Vr) as V. pose proof (h_nds _ _ _ (v_shape _ _ V)) as ND. pose proof (rate_e (g_sites g) ND H1 H2') as Rg. rewrite <- Eh in Rg.
  assert (Hops : hops (N := XR) calls_e = 0%Z) by reflexivity.
  assert (F0 : few_hops (1 / 100) 101 (hops (N := XR) calls_e)) by (rewrite Hops; apply few_e; lia).
  assert (F1 : few_hops (1 / 100) 101 (hops (N := XR) calls_e + 1)) by (rewrite Hops; apply few_e; lia).
  assert (None_ : forall x j, ~ listed g x j).
  { intros x j X. destruct (listed_marked g _ x j V X) as (s & Es & Nu). apply Nu, (H2 j s Es). }
  assert (Toof : forall p k n, In p [10; 20]%Z -> walker_on g p k -> walker_to g p n -> exists r, rate_between (g_heap g) (g_sites g) k n r).
  { intros p k n Hp Ok Tn. destruct (valid_aim clk _ _ HD bounds_e _ _ _ _ _ _ Vr F0 Hp Ok Tn) as [X|(x & i & X & _)]; [exact X|]. destruct (None_ _ _ X). }
  assert (In10 : In 10%Z [10; 20]%Z) by (left; reflexivity). assert (In20 : In 20%Z [10; 20]%Z) by (right; left; reflexivity).
  assert (To10 : walker_to g 10 2).
  { destruct (i_aims _ _ _ _ _ (valid_living clk _ _ HD bounds_e _ _ _ Vr F0) 10%Z In10) as (w & Ew & _).
    destruct (Toof 10%Z 1%Z (w_pot w) In10 On1 (ex_intro _ w (conj Ew eq_refl))) as [r X]. apply Rg in X. exists w. split; [exact Ew|]. 
    destruct X as [[E _]|[[E _]|[[E _]|[[E _]|[[E _]|[E _]]]]]]; inversion E; reflexivity. }
  assert (To20 : walker_to g 20 3).
  { destruct (i_aims _ _ _ _ _ (valid_living clk _ _ HD bounds_e _ _ _ Vr F0) 20%Z In20) as (w & Ew & _).
    destruct (Toof 20%Z 4%Z (w_pot w) In20 On4 (ex_intro _ w (conj Ew eq_refl))) as [r X]. apply Rg in X. exists w. split; [exact Ew|].
    destruct X as [[E _]|[[E _]|[[E _]|[[E _]|[[E _]|[E _]]]]]]; inversion E; reflexivity. }
  destruct (valid_hop clk _ _ HD bounds_e _ _ _ 0%Z _ Vr F1 In10) as (g1 & n1 & E1). specialize (E1 n1 (le_n n1)).
  assert (Un : forall k r, In (k, r) rates_e -> cluster_of g k unassignedId).
  { intros k r Hr. apply cluster_of_iff. destruct (H1 k r Hr) as (s & Es & _). exists s. split; [exact Es|apply (H2 k s Es)]. }
  assert (Off : fastest_off_of g 2 100).
  { left. split; [apply (Un 2%Z [(1, 1); (3, 2)]%Z); cbn; auto|]. right. split; [exists 1%Z; apply Rg; auto|].
    intros x (j & Hj). apply Rg in Hj. destruct Hj as [[E ->]|[[E ->]|[[E ->]|[[E ->]|[[E ->]|[E ->]]]]]]; inversion E; lra. }
  destruct (zero_due clk _ _ _ (proj1 Vr) Em) as [D1 D2].
  destruct (hop_due_more clk _ _ _ _ _ _ _ _ _ _ _ (proj1 Vr) (proj1 (proj2 Vr)) In10 E1 To10 D1 D2 Off Er Et) as (B & Bs & Sub & Due).
  rewrite Eh in Bs, Due. apply (basin_two _ ND H1 H2') in Bs. rewrite (leaving_two _ H1 B Bs) in Due.
  destruct (Due _ (crossing_two _ ND H1 H2' B Bs)) as [c Hc]; try lra. clear Due.
  pose proof (hop_reach clk _ _ _ _ _ _ _ _ _ Vr In10 E1) as Vr1. pose proof (valid_inv clk _ _ _ _ _ Vr1) as V1.
  assert (H1c : listed g1 c 1) by (apply Hc, Bs; cbn; auto). assert (H2c : listed g1 c 2) by (apply Hc, Bs; cbn; auto).
  assert (Lc : forall x j, listed g1 x j -> In j [1; 2]%Z).
  { intros x j X. destruct (Sub x j X) as [Y|[y Y]]; [apply Bs, Y|destruct (None_ _ _ Y)]. }
  assert (Only : forall x, is_cluster g1 x -> x = c).
  { intros x X. destruct (listed_two g1 _ x V1 X) as (i & j & _ & Hi & _). pose proof (Lc _ _ Hi) as Ii. 
    assert (Hi' : listed g1 c i) by (destruct Ii as [<-|[<-|[]]]; assumption).
    pose proof (h_ndc _ _ _ (v_shape _ _ V1)) as N1. apply (proj1 (listed_holds g1 _ _ N1)) in Hi, Hi'. destruct Hi as [m Hm], Hi' as [m' Hm'].
    apply (h_disj _ _ _ (v_shape _ _ V1) _ _ _ _ _ Hm Hm'). }
  assert (Ic : is_cluster g1 c). { destruct H1c as (l & El & _). exists l. exact El. }
  assert (Nc : ~ is_cluster g c). { intros X. destruct (listed_two g _ c V X) as (i & _ & _ & Hi & _). exact (None_ _ _ Hi). }
  assert (L1 : forall j, listed g1 c j <-> In j [1; 2]%Z) by (intros j; split; [apply Lc|intros [<-|[<-|[]]]; assumption]).
  destruct (hop_net clk _ _ _ _ _ _ V In10 E1 H1 H2') as [K1 K2].
  assert (Eh1 : g_heap g1 = heap_e).
  { destruct (step_settings clk _ _ _ _ _ V (st_hop clk _ _ _ _ _ _ In10 E1)) as ([X|X] & _); [discriminate|congruence]. }
  pose proof (h_nds _ _ _ (v_shape _ _ V1)) as ND1. pose proof (rate_e (g_sites g1) ND1 K1 K2) as Rg1. rewrite <- Eh1 in Rg1.
  assert (Bc : forall n, beside g1 c n <-> n = 3%Z).
  { intros n. unfold beside. split.
    - intros (X & k & r & Lk & Hr). rewrite L1 in X, Lk. apply (rate_site g1 _ _ _ _ V1) in Hr. apply Rg1 in Hr.
      destruct Hr as [[E _]|[[E _]|[[E _]|[[E _]|[[E _]|[E _]]]]]]; inversion E; subst; cbn in X, Lk; try reflexivity; exfalso; intuition lia.
    - intros ->. split; [rewrite L1; cbn; lia|]. exists 2%Z, 1. split; [exact H2c|]. apply (rate_site g1 _ _ _ _ V1), Rg1. auto 7. }
  assert (Hops1 : hops (N := XR) (calls_e ++ [KHop 10]) = 1%Z) by reflexivity.
  assert (G0 : few_hops (1 / 100) 101 (hops (N := XR) (calls_e ++ [KHop 10]))) by (rewrite Hops1; apply few_e; lia).
  assert (G1 : few_hops (1 / 100) 101 (hops (N := XR) (calls_e ++ [KHop 10]) + 1)) by (rewrite Hops1; apply few_e; lia).
  destruct (valid_hop clk _ _ HD bounds_e _ _ _ 1%Z _ Vr1 G1 In20) as (g2 & n2 & E2). specialize (E2 n2 (le_n n2)).
  destruct (other_step clk _ _ _ _ _ 20%Z V In20 (st_hop clk _ _ _ _ _ _ In10 E1)) as [_ Ew20]; [intros [X|X]; discriminate|].
  assert (To20' : walker_to g1 20 3) by (destruct To20 as (w & Ew & X); exists w; rewrite Ew20; auto).
  pose proof (a_solid _ _ _ _ (i_alive _ _ _ _ _ (valid_living clk _ _ HD bounds_e _ _ _ Vr1 G0))) as So1.
  assert (Off1 : fastest_off_of g1 3 50).
  { left. split.
    - destruct (K1 3%Z [(2, 3); (4, 4)]%Z) as (s & Es & _); [cbn; auto|]. apply (unlisted_unmarked g1 _ 3%Z s V1 So1 Es).
      intros x X. apply Lc in X. cbn in X. lia.
    - right. split; [exists 2%Z; apply Rg1; auto 7|].
      intros x (j & Hj). apply Rg1 in Hj. destruct Hj as [[E ->]|[[E ->]|[[E ->]|[[E ->]|[[E ->]|[E ->]]]]]]; inversion E; lra. }
  destruct (zero_due clk _ _ _ (proj1 Vr1) eq_refl) as [D1' D2'].
  destruct (hop_due_more clk _ _ _ _ _ _ _ _ _ _ _ (proj1 Vr1) (proj1 (proj2 Vr1)) In20 E2 To20' D1' D2' Off1 eq_refl eq_refl) as (B2 & Bs2 & _ & Due).
  rewrite Eh1 in Bs2, Due. apply (basin_three _ ND1 K1 K2) in Bs2. rewrite (leaving_three _ K1 B2 Bs2) in Due.
  destruct (Due _ (crossing_three _ ND1 K1 K2 B2 Bs2)) as [c2 Hc2]; try lra. clear Due.
  pose proof (hop_reach clk _ _ _ _ _ _ _ _ _ Vr1 In20 E2) as Vr2. pose proof (valid_inv clk _ _ _ _ _ Vr2) as V2. rewrite <- app_assoc in Vr2. cbn [app] in Vr2.
  pose proof (st_hop clk _ _ _ _ _ _ In20 E2) as St2. pose proof (step_carried clk _ _ _ _ _ V1 St2) as Ca.
  pose proof (h_ndc _ _ _ (v_shape _ _ V1)) as N1. pose proof (h_ndc _ _ _ (v_shape _ _ V2)) as N2.
  assert (c2 = c).
  { destruct (y_smaller _ _ Ca c c2 1%Z) as [X|[X Y]]; [apply (listed_holds g1 _ _ N1), H1c|apply (listed_holds g2 _ _ N2), Hc2, Bs2; cbn; auto|exact X|].
    apply (is_cluster_known g1 c2 N1), Only in Y. lia. }
  subst c2.
  assert (L2 : forall j, In j [1; 2; 3]%Z -> listed g2 c j) by (intros j Hj; apply Hc2, Bs2, Hj).
  destruct (other_step clk _ _ _ _ _ 10%Z V1 In10 St2) as [_ Ew10]; [intros [X|X]; discriminate|].
  destruct (hop_net clk _ _ _ _ _ _ V1 In20 E2 K1 K2) as [M1 M2].
  assert (Eh2 : g_heap g2 = heap_e) by (destruct (step_settings clk _ _ _ _ _ V1 St2) as ([X|X] & _); [discriminate|congruence]).
  pose proof (h_nds _ _ _ (v_shape _ _ V2)) as ND2. pose proof (rate_e (g_sites g2) ND2 M1 M2) as Rg2. rewrite <- Eh2 in Rg2.
  exists g, g1, g2, n1, n2, c. split.
  { split; [exact Eh|]. split; [exact On1|]. split; [exact To10|]. split; [exact On4|].
    destruct (H1 2%Z [(1, 1); (3, 2)]%Z) as (s & Es & P); [cbn; auto|]. exists s. split; [exact Es|]. split; [exact P|apply (H2 _ _ Es)]. }
  split; [exact Vr|]. split; [exact E1|]. split; [exact Nc|]. split; [exact Ic|]. split; [exact L1|]. split; [exact Only|]. split; [exact Bc|].
  split; [exact E2|]. split; [exact Vr2|]. split; [exact L2|]. split; [|exact Rg2].
  destruct (i_aims _ _ _ _ _ (valid_living clk _ _ HD bounds_e _ _ _ Vr1 G0) 10%Z In10) as (w & Ew & _).
  assert (On12 : In (w_cur w) [1; 2]%Z).
  { destruct (hop_place _ _ _ _ _ _ _ _ _ V In10 E1 On1 To10 (ex_intro _ w (conj Ew eq_refl))) as [-> | ->]; cbn; auto. }
  assert (To123 : In (w_pot w) [1; 2; 3]%Z).
  { assert (Z1 : forall i n r, In i [1; 2]%Z -> rate_between (g_heap g1) (g_sites g1) i n r -> In n [1; 2; 3]%Z).
    { intros i n r Hi Hr. apply Rg1 in Hr. destruct Hr as [[E _]|[[E _]|[[E _]|[[E _]|[[E _]|[E _]]]]]]; inversion E; subst; cbn; auto; cbn in Hi; intuition lia. }
    destruct (valid_aim clk _ _ HD bounds_e _ _ _ 10%Z (w_cur w) (w_pot w) Vr1 G0 In10 (ex_intro _ w (conj Ew eq_refl)) (ex_intro _ w (conj Ew eq_refl))) as [[r X]|(x & i & X & Y & [->|[r Z]])].
    - exact (Z1 _ _ _ On12 X).
    - apply Lc in Y. cbn in *. intuition.
    - exact (Z1 _ _ _ (Lc _ _ Y) Z). }
  exists (w_cur w), (w_pot w). rewrite <- Ew10 in Ew. split; [exists w; auto|]. split; [exists w; auto|]. split; [|exact To123]. cbn in On12 |- *. intuition.
Qed.
End Witness.
