(** * The order in which rates are listed (C83): proofs *)
From Coq Require Import ZArith List Bool Reals Lra Lia Permutation.
From Verif Require Import Base BaseProofs Num RSum WalkerModel SiteModel SiteSpec SiteProofs ClusterModel BasinModel
  SystemModel SystemSpec ValidSpec KmcSpec SystemKmc.
Import ListNotations.
Open Scope Z_scope.

Section Order.
Context {G : @Rng XR}.
#[local] Existing Instance XR.

Definition named (h : @heap XR) (e : Z * Z) : Z * R := (fst e, realv (h (snd e))).
Lemma named_perm h (r r' : umap Z) : good_rates h r -> good_rates h r' -> (forall j x, user_rate h r j x <-> user_rate h r' j x) ->
  Permutation (map (named h) r) (map (named h) r').
Proof.
  assert (H : forall r r', good_rates h r -> (forall j x, user_rate h r j x -> user_rate h r' j x) ->
            NoDup (map (named h) r) /\ incl (map (named h) r) (map (named h) r')).
  { clear. intros r r' (_ & ND & Hp) H. split.
    - apply (NoDup_map_inv fst). rewrite map_map. exact ND.
    - intros x Hx. apply in_map_iff in Hx. destruct Hx as ([n a] & <- & Ha). destruct (Hp n a Ha) as (v & Ev & _).
      destruct (H n v) as (a' & Ha' & Ev'); [exists a; auto|]. apply in_map_iff. exists (n, a'). split; [|exact Ha'].
      unfold named. cbn [fst snd]. rewrite Ev, Ev'. reflexivity. }
  intros Hg Hg' E. destruct (H r r' Hg (fun j x => proj1 (E j x))) as [N1 I1]. destruct (H r' r Hg' (fun j x => proj2 (E j x))) as [N2 I2].
  apply NoDup_Permutation; auto. intros x. split; [apply I1|apply I2].
Qed.
Lemma named_total h r : total_rate h r = Rsum snd (map (named h) r).
Proof. rewrite Rsum_map. reflexivity. Qed.
Lemma named_below h r j : below h r j = (Rsum (fun e => if fst e <? j then snd e else 0%R) (map (named h) r) / total_rate h r)%R.
Proof. rewrite Rsum_map. reflexivity. Qed.

Section Runs.
Variable h : @heap XR.
Variables rates rates' : umap (umap Z).
Hypothesis (HN : network h rates) (HN' : network h rates').
Hypothesis Same : forall k j x, user_rate h (away rates k) j x <-> user_rate h (away rates' k) j x.

Lemma away_in (m : umap (umap Z)) k : network h m -> In k (ukeys m) -> In (k, away m k) m.
Proof.
  intros (ND & _) Hk. unfold ukeys in Hk. apply in_map_iff in Hk. destruct Hk as ([k' r] & X & Hin). cbn [fst] in X. subst k'.
  unfold away. rewrite (In_ulookup _ _ _ ND Hin). exact Hin.
Qed.
Lemma away_good (m : umap (umap Z)) k : network h m -> In k (ukeys m) -> good_rates h (away m k).
Proof. intros Hn Hk. pose proof (away_in m k Hn Hk) as Hin. destruct Hn as (_ & _ & Hr). apply (Hr _ _ Hin). Qed.
Lemma away_keys (m : umap (umap Z)) k : network h m -> (In k (ukeys m) <-> exists j x, user_rate h (away m k) j x).
Proof.
  intros Hn. split.
  - intros Hk. destruct (away_good m k Hn Hk) as (Ne & _ & Hp). destruct (away m k) as [|[j a] r]; [congruence|].
    destruct (Hp j a (or_introl eq_refl)) as (x & Ex & _). exists j, x, a. split; [left; reflexivity|exact Ex].
  - intros (j & x & a & Ha & _). unfold away in Ha. destruct (ulookup k m) as [r|] eqn:E; [|destruct Ha].
    apply ulookup_In, (in_map fst) in E. exact E.
Qed.
Lemma keys_same k : In k (ukeys rates) <-> In k (ukeys rates').
Proof.
  rewrite (away_keys rates k HN), (away_keys rates' k HN').
  split; intros (j & x & H); exists j, x; apply (Same k j x); exact H.
Qed.
Lemma names_same k : In k (ukeys rates) -> Permutation (map (named h) (away rates k)) (map (named h) (away rates' k)).
Proof.
  intros Hk. apply named_perm; [apply away_good; assumption|apply away_good; [assumption|apply keys_same; exact Hk]|apply Same].
Qed.
Lemma total_same k : In k (ukeys rates) -> total_rate h (away rates k) = total_rate h (away rates' k).
Proof. intros Hk. rewrite !named_total. apply Rsum_perm, names_same, Hk. Qed.
Lemma below_same k j : In k (ukeys rates) -> below h (away rates k) j = below h (away rates' k) j.
Proof. intros Hk. rewrite !named_below, (total_same k Hk). f_equal. apply Rsum_perm, names_same, Hk. Qed.

Lemma fair_same choose : fair h rates choose -> fair h rates' choose.
Proof.
  intros F k Hk. apply keys_same in Hk. destruct (F k Hk) as [A B]. split.
  - intros u Hu. specialize (A u Hu). destruct (away_good rates k HN Hk) as (_ & _ & Hp).
    unfold ukeys in A. apply in_map_iff in A. destruct A as ([n a] & En & Ha). cbn [fst] in En. destruct (Hp n a Ha) as (x & Ex & _).
    destruct (proj1 (Same k n x)) as (a' & Ha' & _); [exists a; auto|]. rewrite <- En. apply (in_map fst) in Ha'. exact Ha'.
  - intros j r Hr u Hu. rewrite <- (below_same k j Hk), <- (total_same k Hk). apply B; [apply (Same k), Hr|exact Hu].
Qed.
(** the intervals leave no freedom *)
Lemma fair_unique choose choose' k u : fair h rates choose -> fair h rates choose' -> In k (ukeys rates) -> (0 <= u < 1)%R ->
  choose k u = choose' k u.
Proof.
  intros F F' Hk Hu. destruct (F k Hk) as [A B]. destruct (F' k Hk) as [A' B'].
  specialize (A u Hu). destruct (away_good rates k HN Hk) as (_ & _ & Hp).
  unfold ukeys in A. apply in_map_iff in A. destruct A as ([n a] & En & Ha). cbn [fst] in En. destruct (Hp n a Ha) as (x & Ex & _).
  assert (Ur : user_rate h (away rates k) n x) by (exists a; auto).
  rewrite <- En. symmetry. apply (B' n x Ur u Hu). apply (B n x Ur u Hu). congruence.
Qed.

Definition inside (X : @kmc G) : Prop := forall p w, In (p, w) (walkers X) -> In (on w) (ukeys rates) /\ In (aim w) (ukeys rates).
Definition alike (X Y : @kmc G) : Prop :=
  walkers X = walkers Y /\ arrivals X = arrivals Y /\ forall k, In k (ukeys rates) -> stream X k = stream Y k.

Variables choose choose' : Z -> R -> Z.
Hypothesis (F : fair h rates choose) (F' : fair h rates' choose') (HD : open_draws G).

Lemma choose_same k u : In k (ukeys rates) -> (0 <= u < 1)%R -> choose k u = choose' k u /\ In (choose k u) (ukeys rates).
Proof.
  intros Hk Hu. split.
  - apply fair_unique; auto. intros j Hj. pose proof (proj1 (keys_same j) Hj) as Hj'. destruct (F' j Hj') as [A B]. split.
    + intros v Hv. specialize (A v Hv). destruct (away_good rates' j HN' Hj') as (_ & _ & Hp).
      unfold ukeys in A. apply in_map_iff in A. destruct A as ([n a] & En & Ha). cbn [fst] in En. destruct (Hp n a Ha) as (x & Ex & _).
      destruct (proj2 (Same j n x)) as (a' & Ha' & _); [exists a; auto|]. rewrite <- En. apply (in_map fst) in Ha'. exact Ha'.
    + intros i r Hr v Hv. rewrite (below_same j i Hj), (total_same j Hj). apply B; [apply (Same j), Hr|exact Hv].
  - destruct HN as (_ & _ & Hr). apply (proj2 (Hr _ _ (away_in rates k HN Hk))). apply (F k Hk). exact Hu.
Qed.

Lemma settle_same k X Y w X' : alike X Y -> In k (ukeys rates) -> settle h rates choose k X = (w, X') ->
  exists Y', settle h rates' choose' k Y = (w, Y') /\ walkers X' = walkers X /\ walkers Y' = walkers Y /\ alike X' Y' /\ In (on w) (ukeys rates) /\ In (aim w) (ukeys rates).
Proof.
  intros (A1 & A2 & A3) Hk E. unfold settle in *. rewrite <- (A3 k Hk).
  destruct (edraw (stream X k)) as [u e] eqn:Eu. destruct (HD e) as (v & e' & Ev & Hv). rewrite Ev in *.
  cbn [realv] in *. destruct (choose_same k v Hk ltac:(lra)) as [Ec Hc].
  injection E as <- <-. eexists. split; [rewrite Ec, (total_same k Hk); reflexivity|]. cbn [walkers arrivals stream on aim].
  split; [reflexivity|]. split; [reflexivity|]. split; [|auto].
  split; [exact A1|]. split; [cbn [arrivals]; rewrite A2; reflexivity|]. intros j Hj. cbn [stream]. unfold set. rewrite (A3 j Hj). reflexivity.
Qed.

Lemma step_same v X Y X' : alike X Y -> inside X -> kmc_step h rates choose v X = Some X' ->
  exists Y', kmc_step h rates' choose' v Y = Some Y' /\ alike X' Y' /\ inside X'.
Proof.
  intros A Hin E. pose proof A as (A1 & A2 & A3). destruct v as [id p k|id p|id p]; cbn [kmc_step] in *; rewrite <- A1.
  - destruct (seek p (walkers X)); [discriminate|].
    destruct (someone k (walkers X)) eqn:So; [discriminate|]. cbn [orb] in *.
    destruct (existsb (Z.eqb k) (ukeys rates)) eqn:Ex; [|discriminate]. cbn [negb] in *.
    assert (Hk : In k (ukeys rates)). { apply existsb_exists in Ex. destruct Ex as (k' & Hk' & E'). apply Z.eqb_eq in E'. subst; exact Hk'. }
    assert (Ex' : existsb (Z.eqb k) (ukeys rates') = true). { apply existsb_exists. exists k. split; [apply keys_same, Hk|apply Z.eqb_refl]. }
    rewrite Ex'. cbn [negb]. destruct (settle h rates choose k X) as [w X1] eqn:Es.
    destruct (settle_same k X Y w X1 A Hk Es) as (Y1 & Es' & W1 & W2 & (B1 & B2 & B3) & Ho & Ha). rewrite Es'.
    injection E as <-. eexists. split; [reflexivity|]. split.
    + split; [reflexivity|]. split; [exact B2|exact B3].
    + intros p' w' [X0|Hp]; [injection X0 as <- <-; auto|eapply Hin; exact Hp].
  - destruct (seek p (walkers X)) as [w|] eqn:Sk; [|discriminate].
    assert (Hw : exists p', In (p', w) (walkers X)).
    { unfold seek in Sk. destruct (find _ _) as [e|] eqn:Ef; [|discriminate]. injection Sk as <-. apply find_some in Ef. exists (fst e). destruct e; apply Ef. }
    destruct Hw as (p' & Hw). destruct (Hin _ _ Hw) as [Ho Ha].
    set (k := if someone (aim w) (walkers X) then on w else aim w) in *.
    assert (Hk : In k (ukeys rates)) by (unfold k; destruct (someone _ _); assumption).
    destruct (settle h rates choose k X) as [w1 X1] eqn:Es.
    destruct (settle_same k X Y w1 X1 A Hk Es) as (Y1 & Es' & W1 & W2 & (B1 & B2 & B3) & Ho1 & Ha1). rewrite Es'.
    injection E as <-. eexists. split; [reflexivity|]. split.
    + split; [reflexivity|]. split; [exact B2|exact B3].
    + intros q x Hx. cbn [walkers] in Hx. apply in_map_iff in Hx. destruct Hx as ([q0 x0] & E0 & Hx). cbn [fst] in E0.
      destruct (q0 =? p); injection E0 as <- <-; [auto|eapply Hin; exact Hx].
  - destruct (seek p (walkers X)) as [w|]; [|discriminate]. injection E as <-. eexists. split; [reflexivity|]. split.
    + split; [reflexivity|]. split; [exact A2|exact A3].
    + intros q x Hx. cbn [walkers] in Hx. apply filter_In in Hx. eapply Hin. apply Hx.
Qed.
Lemma run_same l : forall X Y X', alike X Y -> inside X -> kmc_run h rates choose l X = Some X' ->
  exists Y', kmc_run h rates' choose' l Y = Some Y' /\ alike X' Y'.
Proof.
  induction l as [|v l IH]; intros X Y X' A Hin E; cbn [kmc_run] in *.
  - injection E as <-. exists Y. auto.
  - destruct (kmc_step h rates choose v X) as [X1|] eqn:Ev; [|discriminate].
    destruct (step_same v X Y X1 A Hin Ev) as (Y1 & Ev' & A' & Hin'). rewrite Ev'. eapply IH; eauto.
Qed.
End Runs.

(** two listings, two libraries: one process, each with the streams of its own order *)
Lemma orders (I I' : Impl) (U U' : @Ugly XR) (clk clk' : Z -> Z) rates rates' ws h count tick thr t s :
  NoDup (ukeys ws) -> 0 <= count -> (0 < t)%R -> network h rates -> network h rates' -> open_draws G -> 0 <= s < 2 ^ 64 ->
  (forall k j x, user_rate h (away rates k) j x <-> user_rate h (away rates' k) j x) ->
  exists choose, fair h rates choose /\
    forall streams streams' : Z -> @eng XR G,
      (forall i k, nth_error (ukeys rates) i = Some k -> streams k = eseed ((s + Z.of_nat i) mod 2 ^ 64)) ->
      (forall i k, nth_error (ukeys rates') i = Some k -> streams' k = eseed ((s + Z.of_nat i) mod 2 ^ 64)) ->
      forall fuel l K, hop_events l <= INT_MAX -> hop_events l <= search_after thr ->
        (kmc_run h rates choose l (empty streams) = Some K ->
         exists g, (@prologue I G rates clk thr (Fin t) (Some s) ;; mfor l (@drive I G U clk fuel)) (world_new ws h count tick) = Ret tt g /\ @shows I G rates g K) /\
        (kmc_run h rates choose l (empty streams') = Some K ->
         exists g, (@prologue I' G rates' clk' thr (Fin t) (Some s) ;; mfor l (@drive I' G U' clk' fuel)) (world_new ws h count tick) = Ret tt g /\ @shows I' G rates g K).
Proof.
  intros NDw Hc Ht HN HN' HD Hs Same.
  destruct (@plain I G U clk rates ws h count tick thr t (Some s) NDw Hc Ht HN HD) as (ch & st & F & St & Run).
  destruct (@plain I' G U' clk' rates' ws h count tick thr t (Some s) NDw Hc Ht HN' HD) as (ch' & st' & F' & St' & Run').
  exists ch. split; [exact F|]. intros streams streams' H H' fuel l K H1 H2.
  assert (Pos : forall (m : umap (umap Z)) k, In k (ukeys m) -> exists i, nth_error (ukeys m) i = Some k) by (intros m k; apply In_nth_error).
  split; intros E.
  - destruct (run_same h rates rates HN HN ltac:(tauto) ch ch F F HD l (empty streams) (empty st) K) as (Y & EY & (A1 & A2 & _)); [|intros ? ? []|exact E|].
    { split; [reflexivity|]. split; [reflexivity|]. intros k Hk. destruct (Pos _ _ Hk) as [i Hi]. cbn [stream empty]. rewrite (H i k Hi). symmetry. apply (St s eq_refl Hs i k Hi). }
    destruct (Run fuel l Y EY H1 H2) as (g & Eg & S1 & S2 & S3). exists g. split; [exact Eg|]. unfold shows. rewrite A1, A2. auto.
  - destruct (run_same h rates rates' HN HN' Same ch ch' F F' HD l (empty streams') (empty st') K) as (Y & EY & (A1 & A2 & _)); [|intros ? ? []|exact E|].
    { split; [reflexivity|]. split; [reflexivity|]. intros k Hk. apply (keys_same h rates rates' HN HN' Same) in Hk. destruct (Pos _ _ Hk) as [i Hi]. cbn [stream empty]. rewrite (H' i k Hi). symmetry. apply (St' s eq_refl Hs i k Hi). }
    destruct (Run' fuel l Y EY H1 H2) as (g & Eg & S1 & S2 & S3). exists g. split; [exact Eg|]. unfold shows. rewrite A1, A2.
    split; [exact S1|]. split; [|exact S3]. intros k Hk. apply S2, (keys_same h rates rates' HN HN' Same), Hk.
Qed.
End Order.
