(** * C84: until clusters are searched the system is kinetic Monte Carlo, in doubles

    As C58, in the double arithmetic the code runs in.  [kmc_run] (FloatKmcSpec.v)
    is kinetic Monte Carlo on the user's network of rates: walkers enter, hop and
    leave; a walker that comes to a site waits for [delay] of u and then goes to
    the site [choose] gives for v, where u and v are the next two numbers of the
    stream of that site; a walker whose target is taken stays and waits again.
    [nearly_fair] and [nearly_exponential] say how far rounding can take [choose]
    and [delay] from the exact ones. *)
From Flocq Require Core BinarySingleNaN.
From Coq Require Import ZArith List Bool Reals Lra Lia Floats.
From Verif Require Import Base BaseProofs Num F64 RSum WalkerModel SiteModel ClusterModel BasinModel
  SystemModel SystemSpec FloatSpec FloatProofs FloatKmcSpec FloatKmc.
Import ListNotations.
Open Scope Z_scope.

(** For every implementation of hash tables, every log of the C library, every
    engine, every network of rates between 2^-400 and 2^400: there are [choose],
    [delay] and streams, the streams seeded one after another, such that every
    simulation of the machine is one of the library, and the user sees the same
    sites, potential sites, dwell times (bit for bit those of [delay]), visits
    and occupations. *)
Theorem C84_plain_kmc_in_doubles :
  forall (lnf : float -> float) (I : Impl) (G : @Rng (F64 lnf)) (U : @Ugly (F64 lnf)) (clk : Z -> Z) (rates : umap (umap Z))
         (ws : umap (@walker (F64 lnf))) (h : Z -> float) (count tick : Z) (thr : option Z) (t : float) (seed : option Z),
    NoDup (ukeys ws) -> 0 <= count -> PrimFloat.leb t 0 = false -> network64 h rates ->
    exists (choose : Z -> float -> Z) (delay : Z -> float -> float) (streams : Z -> @eng (F64 lnf) G),
      nearly_fair (G := G) h rates choose /\ nearly_exponential (G := G) h rates delay /\
      (forall s, seed = Some s -> 0 <= s < 2 ^ 64 ->
         forall i k, nth_error (ukeys rates) i = Some k -> streams k = eseed ((s + Z.of_nat i) mod 2 ^ 64)) /\
      forall fuel l K, kmc_run (N := F64 lnf) rates choose delay l (empty streams) = Some K ->
        hop_events l <= INT_MAX -> hop_events l <= search_after thr ->
        exists g, (prologue (N := F64 lnf) rates clk thr t seed ;; mfor l (drive clk fuel)) (world_new ws h count tick) = Ret tt g /\
          shows rates g K.
Proof. intros lnf I G U clk rates ws h. exact (plain64 lnf clk rates ws h). Qed.
Print Assumptions C84_plain_kmc_in_doubles.

(** The machine stops only where a number within the margin at 1 was drawn: with
    an engine that draws none, a new walker can enter at every free site and
    every walker can hop and leave, at any time. *)
Definition possible {N : Num} {G : Rng} (rates : umap (umap Z)) (v : event) (K : kmc) : Prop :=
  match v with
  | Enter _ p k => seek p (walkers K) = None /\ someone k (walkers K) = false /\ In k (ukeys rates)
  | Hop _ p | Leave _ p => seek p (walkers K) <> None
  end.
Definition below_margins {lnf} (G : @Rng (F64 lnf)) (rates : umap (umap Z)) : Prop :=
  forall e : @eng (F64 lnf) G, exists d e', edraw e = (d, e') /\ fin d /\ (0 <= fval d)%R /\
    forall k r, In (k, r) rates -> (fval d < 1 - INR (3 * length r + 1) * (2 * uround))%R.
Section Stuck.
Context {lnf : float -> float} {G : @Rng (F64 lnf)}.
Variables (h : Z -> float) (rates : umap (umap Z)) (choose : Z -> float -> Z) (delay : Z -> float -> float).
Hypotheses (Hn : network64 h rates) (Hf : nearly_fair (G := G) h rates choose) (Hm : below_margins G rates).
Let stands (K : @kmc (F64 lnf) G) : Prop := forall p w, seek p (walkers K) = Some w -> In (on w) (ukeys rates) /\ In (aim w) (ukeys rates).
Local Lemma settles k (K : @kmc (F64 lnf) G) : In k (ukeys rates) ->
  exists w K', settle (N := F64 lnf) rates choose delay k K = Some (w, K') /\ on w = k /\ In (aim w) (ukeys rates) /\ walkers K' = walkers K.
Proof.
  intros Hk. apply in_map_iff in Hk. destruct Hk as ([k' r] & Ek & Hin). cbn [fst] in Ek. subst k'.
  unfold settle. destruct (edraw (stream K k)) as [u e] eqn:Eu. destruct (Hm e) as (v & e' & Ev & Fv & Pv & Mv). rewrite Ev.
  assert (A : In (choose k v) (ukeys rates)).
  { destruct (proj2 (proj2 Hn) k r Hin) as [_ C]. apply C. apply (Hf k r Hin); [|exact (Mv k r Hin)].
    exists e, e'. split; [exact Ev|]. split; [exact Fv|]. split; [exact Pv|]. pose proof (Mv k r Hin).
    assert (0 <= INR (3 * length r + 1) * (2 * uround))%R; [|lra]. apply Rmult_le_pos; [apply pos_INR|].
    assert (0 < uround)%R; [|lra]. unfold uround. apply Rinv_0_lt_compat, IZR_lt. reflexivity. }
  assert (B : a_site rates (choose k v) = true) by (unfold a_site; apply existsb_exists; exists (choose k v); split; [exact A|apply Z.eqb_refl]).
  rewrite B. do 2 eexists. split; [reflexivity|]. cbn. auto.
Qed.
Local Lemma seek_map p p' (w w' : @hopper (F64 lnf)) l : seek p (map (fun e => if fst e =? p' then (p', w') else e) l) = Some w -> w = w' \/ seek p l = Some w.
Proof.
  unfold seek. induction l as [|[q x] l IH]; [discriminate|]. cbn [map find fst].
  destruct (Z.eqb_spec q p') as [->|Hq]; cbn [fst].
  - destruct (p' =? p); [|exact IH]. cbn [snd]. intros E. injection E as <-. auto.
  - destruct (q =? p); [cbn [snd]; auto|exact IH].
Qed.
Local Lemma seek_filter p p' (w : @hopper (F64 lnf)) l : seek p (filter (fun e => negb (fst e =? p')) l) = Some w -> seek p l = Some w.
Proof.
  unfold seek. induction l as [|[q x] l IH]; [discriminate|]. cbn [filter find fst].
  destruct (Z.eqb_spec q p') as [->|Hq]; cbn [negb find fst]; [|destruct (Z.eqb_spec q p); auto].
  destruct (Z.eqb_spec p' p) as [->|]; [|exact IH]. intros E. exfalso. clear IH.
  induction l as [|[q y] l IH]; [discriminate|]. cbn [filter fst] in E. destruct (Z.eqb_spec q p); cbn [negb find fst] in E; [auto|].
  destruct (Z.eqb_spec q p); [congruence|auto].
Qed.
Local Lemma a_step v K : stands K -> possible rates v K -> exists K', kmc_step (N := F64 lnf) rates choose delay v K = Some K' /\ stands K'.
Proof.
  intros S P. destruct v as [id p k|id p|id p]; cbn [possible kmc_step] in *.
  - destruct P as (P1 & P2 & P3). rewrite P1, P2.
    assert (B : a_site rates k = true) by (unfold a_site; apply existsb_exists; exists k; split; [exact P3|apply Z.eqb_refl]). rewrite B. cbn [orb negb].
    destruct (settles k K P3) as (w & K' & -> & W1 & W2 & W3). eexists. split; [reflexivity|]. intros q x. cbn [walkers]. unfold seek. cbn [find fst].
    destruct (p =? q); [cbn [snd]; intros E; injection E as <-; rewrite W1; auto|apply S].
  - destruct (seek p (walkers K)) as [w|] eqn:E; [|congruence]. destruct (S p w E) as [S1 S2].
    destruct (settles (if someone (aim w) (walkers K) then on w else aim w) K) as (w' & K' & -> & W1 & W2 & W3).
    { destruct (someone (aim w) (walkers K)); assumption. }
    eexists. split; [reflexivity|]. intros q x Hq. cbn [walkers] in Hq. apply seek_map in Hq. destruct Hq as [->|Hq]; [|exact (S q x Hq)].
    rewrite W1. split; [|exact W2]. destruct (someone (aim w) (walkers K)); assumption.
  - destruct (seek p (walkers K)); [|congruence]. eexists. split; [reflexivity|]. intros q x Hq. cbn [walkers] in Hq. apply seek_filter in Hq. exact (S q x Hq).
Qed.
Local Lemma runs_stand l K K' : stands K -> kmc_run (N := F64 lnf) rates choose delay l K = Some K' -> stands K'.
Proof.
  revert K. induction l as [|v l IH]; intros K S E; [injection E as <-; exact S|]. cbn [kmc_run] in E.
  destruct (kmc_step (N := F64 lnf) rates choose delay v K) as [K1|] eqn:E1; [|discriminate]. refine (IH K1 _ E).
  destruct (a_step v K S) as (K2 & E2 & S2); [|assert (K12 : Some K1 = Some K2) by (rewrite <- E1; exact E2); injection K12 as ->; exact S2].
  destruct v as [id p k|id p|id p]; cbn [possible kmc_step] in *.
  - destruct (seek p (walkers K)); [discriminate|]. destruct (someone k (walkers K)); [discriminate|]. destruct (a_site rates k) eqn:A; [|discriminate].
    split; [reflexivity|]. split; [reflexivity|]. unfold a_site in A. apply existsb_exists in A. destruct A as (y & Hy & Ey). apply Z.eqb_eq in Ey. subst y. exact Hy.
  - destruct (seek p (walkers K)); [discriminate|discriminate].
  - destruct (seek p (walkers K)); [discriminate|discriminate].
Qed.
Local Lemma goes_on streams l K v : kmc_run (N := F64 lnf) rates choose delay l (empty streams) = Some K -> possible rates v K ->
  exists K', kmc_run (N := F64 lnf) rates choose delay (l ++ [v]) (empty streams) = Some K'.
Proof.
  intros E P. assert (S : stands K) by (apply (runs_stand l (empty streams)); [intros p w X; discriminate|exact E]).
  destruct (a_step v K S P) as (K' & E' & _). exists K'. revert E. generalize (empty streams).
  induction l as [|a l IH]; intros K0 E; cbn [kmc_run app] in *; [injection E as ->; rewrite E'; reflexivity|].
  destruct (kmc_step (N := F64 lnf) rates choose delay a K0); [apply IH; exact E|discriminate].
Qed.
End Stuck.

Theorem C84_no_event_is_refused :
  forall (lnf : float -> float) (G : @Rng (F64 lnf)) (rates : umap (umap Z)) (h : Z -> float) (choose : Z -> float -> Z) (delay : Z -> float -> float)
         (streams : Z -> @eng (F64 lnf) G) l K v,
    network64 h rates -> nearly_fair (G := G) h rates choose -> below_margins G rates ->
    kmc_run (N := F64 lnf) rates choose delay l (empty streams) = Some K -> possible rates v K ->
    exists K', kmc_run (N := F64 lnf) rates choose delay (l ++ [v]) (empty streams) = Some K'.
Proof. intros lnf G rates h choose delay streams l K v Hn Hf Hm. exact (goes_on h rates choose delay Hn Hf Hm streams l K v). Qed.
Print Assumptions C84_no_event_is_refused.

(** two walkers on the chain 3 - 1 - 2 - 4 with rates 1 and 4 and an engine that
    draws 1/2; the second is in the way of the first, whose first hop leaves it
    on site 3 *)
Local Definition hk : Z -> float := fun a => if Z.eqb a 11 then 4%float else 1%float.
Local Definition rk : umap (umap Z) := [(1, [(2, 11); (3, 10)]); (2, [(1, 11); (4, 10)]); (3, [(1, 10)]); (4, [(2, 10)])]%Z.
Local Definition lk : float -> float := fun x => (x - 1)%float.
Local Definition gk : @Rng (F64 lk) := {| eng := unit; eseed := fun _ => tt; edraw := fun _ => ((0.5%float : @num (F64 lk)), tt) |}.
Local Lemma v1 : fval 1%float = 1%R. Proof. apply fval_1. Qed.
Local Lemma v4 : fval 4%float = 4%R.
Proof. unfold fval. change (Prim2SF 4%float) with (S754_finite false 4503599627370496 (-50)).
  unfold BinarySingleNaN.SF2R, Defs.F2R. simpl. lra. Qed.
Local Lemma vh : fval 0.5%float = (1 / 2)%R.
Proof. unfold fval. change (Prim2SF 0.5%float) with (S754_finite false 4503599627370496 (-53)).
  unfold BinarySingleNaN.SF2R, Defs.F2R. simpl. lra. Qed.
Local Lemma nk : network64 hk rk.
Proof.
  assert (B : (8 <= IZR (2 ^ 400))%R) by (apply IZR_le; vm_compute; discriminate).
  assert (B' : (/ IZR (2 ^ 400) <= / 8)%R) by (apply Rinv_le_contravar; lra).
  assert (V : forall a, fin (hk a) /\ (/ IZR (2 ^ 400) <= fval (hk a) <= IZR (2 ^ 400))%R).
  { intros a. unfold hk. destruct (Z.eqb a 11); (split; [reflexivity|]); rewrite ?v1, ?v4; lra. }
  split; [repeat constructor; cbn; intuition lia|]. split; [vm_compute; intuition lia|].
  intros k r Hin. cbn in Hin. destruct Hin as [E|[E|[E|[E|[]]]]]; injection E as <- <-; (split; [|cbn; intuition]).
  all: split; [discriminate|]; split; [repeat constructor; cbn; intuition lia|]; split; [vm_compute; discriminate|]; intros n a _; apply V.
Qed.
Local Lemma mk : below_margins gk rk.
Proof.
  intros e. exists 0.5%float, tt. split; [reflexivity|]. split; [reflexivity|]. rewrite vh. split; [lra|]. intros k r Hin.
  assert (L : (INR (3 * length r + 1) <= 7)%R).
  { replace 7%R with (INR 7) by (cbn; lra). apply le_INR. cbn in Hin. destruct Hin as [E|[E|[E|[E|[]]]]]; injection E as <- <-; cbn; lia. }
  assert (U : (0 < uround <= / 64)%R).
  { unfold uround. split; [apply Rinv_0_lt_compat, IZR_lt; reflexivity|]. apply Rinv_le_contravar; [lra|]. apply IZR_le. vm_compute. discriminate. }
  assert (0 <= INR (3 * length r + 1))%R by apply pos_INR. nra.
Qed.
Example C84_nonvacuous :
  NoDup (ukeys ([] : umap (@walker (F64 lk)))) /\ PrimFloat.leb 1 0 = false /\ network64 hk rk /\ below_margins gk rk /\
  drawn (G := gk) 0.5%float /\
  let l := [Enter 0 10 3; Enter 1 20 1; Hop 0 10] in
  hop_events (l ++ [Hop 1 20; Hop 0 10; Leave 1 20]) <= search_after (Some inf_iterations) /\ hop_events (l ++ [Hop 1 20; Hop 0 10; Leave 1 20]) <= search_after None /\
  forall choose delay streams, nearly_fair (G := gk) hk rk choose ->
    (exists K w, kmc_run (N := F64 lk) (G := gk) rk choose delay l (empty streams) = Some K /\ seek 10 (walkers K) = Some w /\ on w = 3 /\ arrivals K 3 = 2) /\
    (exists K, kmc_run (N := F64 lk) (G := gk) rk choose delay (l ++ [Hop 1 20; Hop 0 10; Leave 1 20]) (empty streams) = Some K /\ length (walkers K) = 1%nat).
Proof.
  split; [constructor|]. split; [reflexivity|]. split; [exact nk|]. split; [exact mk|].
  assert (D : drawn (G := gk) 0.5%float) by (exists tt, tt; split; [reflexivity|]; split; [reflexivity|]; rewrite vh; lra).
  split; [exact D|]. cbv zeta. split; [vm_compute; discriminate|]. split; [vm_compute; discriminate|]. intros choose delay streams Hf.
  destruct (mk tt) as (d & e & Ed & _ & _ & Md). cbn in Ed. injection Ed as <- _.
  assert (H3 : choose 3 0.5%float = 1).
  { destruct (Hf 3 [(1, 10)]) as [X _]; [cbn; auto|]. specialize (X _ D (Md 3 [(1, 10)] ltac:(cbn; auto))). destruct X as [X|[]]. exact (eq_sym X). }
  assert (H1 : choose 1 0.5%float = 2 \/ choose 1 0.5%float = 3).
  { destruct (Hf 1 [(2, 11); (3, 10)]) as [X _]; [cbn; auto|]. specialize (X _ D (Md 1 [(2, 11); (3, 10)] ltac:(cbn; auto))). destruct X as [X|[X|[]]]; auto. }
  assert (H2 : choose 2 0.5%float = 1 \/ choose 2 0.5%float = 4).
  { destruct (Hf 2 [(1, 11); (4, 10)]) as [X _]; [cbn; auto|]. specialize (X _ D (Md 2 [(1, 11); (4, 10)] ltac:(cbn; auto))). destruct X as [X|[X|[]]]; auto. }
  split.
  - destruct H1 as [H1|H1]; do 2 eexists; cbn; rewrite H3; cbn; rewrite H1; cbn; rewrite H3; cbn; (split; [reflexivity|]); (split; [reflexivity|]); split; reflexivity.
  - destruct H1 as [H1|H1]; destruct H2 as [H2|H2]; eexists; cbn; repeat first [rewrite H3; cbn|rewrite H1; cbn|rewrite H2; cbn]; split; reflexivity.
Qed.
