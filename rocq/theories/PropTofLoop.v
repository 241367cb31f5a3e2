(** * C61-C63: the loop of the time of flight example

    [tof_main] (TofLoop.v) is main of the example after [n] steps of its two nested
    loops.  The hypotheses on the input are those of every use: walkers and rates
    are maps with distinct keys, and the holes start on distinct sites of the
    first plane of a lattice with at least two planes ([released]). *)
From Coq Require Import ZArith List Bool Lia Reals Lra Floats Permutation.
From Verif Require Import Base BaseProofs Num RSum QueueModel QueueProofs WalkerModel SiteModel SiteSpec ClusterModel ContainerModel BasinModel SystemModel SystemSpec
  SystemFacts SystemRuns SystemControl ValidSpec SystemEquil SystemTotal SystemStart SystemChain KmcSpec SystemKmc PropValid MarcusModel LatticeModel LatticeSpec LatticeProofs TofModel TofSpec TofProofs PropTof
  TofLoop TofLoopSpec TofLoopProofs TofLoopCharge TofLoopValid TofLoopRun.
Import ListNotations.
Open Scope Z_scope.

(** ** C61: bookkeeping, for every kind of numbers *)

(** A hole waits in the queue, once, exactly as long as it has not reached the last
    plane; charges_remain counts these holes. *)
Theorem C61_bookkeeping :
  forall (I : Impl) (N : Num) (G : Rng) (U : Ugly) (clk : Z -> Z) la lits holes fuel rates walkers h count tick n b (s : tof),
    NoDup (ukeys walkers) -> 0 <= count -> map_of_maps rates -> released la holes walkers -> 2 <= l_len la ->
    tof_main clk la lits holes fuel rates n (world_new walkers h count tick) = Ret b s ->
    charges_remain s = Z.of_nat (length (q_list (f_queue s))) /\ NoDup (map fst (q_list (f_queue s))) /\
    (forall i, waits s i -> exists p, is_hole holes i p) /\
    forall i p, is_hole holes i p -> exists x, in_plane la holes s i x /\ (waits s i <-> x < l_len la - 1).
Proof.
  intros I N G U clk la lits holes fuel rates walkers h count tick n b s H1 H2 H3 H4 H5 E.
  destruct (book_main clk la lits holes fuel (proj1 H4) rates walkers h count tick n b s H1 H2 H3 H4 H5 E) as (cs & ws & [B1 B2 B3 B4 B5 B6 B7 B8 B9 B10]).
  auto.
Qed.
Print Assumptions C61_bookkeeping.

(** The calls of the system are in order: the walkers in the system are exactly the
    waiting holes, and there was one hop for every entry taken from the queue. *)
Theorem C61_in_system :
  forall (I : Impl) (N : Num) (G : Rng) (U : Ugly) (clk : Z -> Z) la lits holes fuel rates walkers h count tick n b (s : tof),
    NoDup (ukeys walkers) -> 0 <= count -> map_of_maps rates -> released la holes walkers -> 2 <= l_len la ->
    tof_main clk la lits holes fuel rates n (world_new walkers h count tick) = Ret b s ->
    exists tr ws, reach_by clk tr (f_world s) ws /\ hops tr = Z.of_nat (length (hopped s)) /\
      forall p, In p ws <-> exists i, is_hole holes i p /\ waits s i.
Proof.
  intros I N G U clk la lits holes fuel rates walkers h count tick n b s H1 H2 H3 H4 H5 E.
  destruct (book_main clk la lits holes fuel (proj1 H4) rates walkers h count tick n b s H1 H2 H3 H4 H5 E) as (cs & ws & [B1 B2 B3 B4 B5 B6 B7 B8 B9 B10]).
  exists (start_calls lits holes rates ++ cs), ws. split; [exact B1|]. split; [|exact B5].
  rewrite hops_app. unfold hops. rewrite B3. reflexivity.
Qed.
Print Assumptions C61_in_system.

(** The recorded numbers of remaining charges never increase and there is one for
    every sample of the current. *)
Theorem C61_charges_left :
  forall (I : Impl) (N : Num) (G : Rng) (U : Ugly) (clk : Z -> Z) la lits holes fuel rates walkers h count tick n b (s : tof),
    NoDup (ukeys walkers) -> 0 <= count -> map_of_maps rates -> released la holes walkers -> 2 <= l_len la ->
    tof_main clk la lits holes fuel rates n (world_new walkers h count tick) = Ret b s ->
    length (transient_current s) = length (charges_left s) /\
    exists vs, charges_left s = map nofZ vs /\ falling vs /\ forall v, In v vs -> charges_remain s <= v <= Z.of_nat (length holes).
Proof.
  intros I N G U clk la lits holes fuel rates walkers h count tick n b s H1 H2 H3 H4 H5 E.
  destruct (book_main clk la lits holes fuel (proj1 H4) rates walkers h count tick n b s H1 H2 H3 H4 H5 E) as (cs & ws & [B1 B2 B3 B4 B5 B6 B7 B8 B9 B10]).
  auto.
Qed.
Print Assumptions C61_charges_left.

(** two rows of three sites with a hole at the begin of each, in floating point *)
Definition la_z : @lattice fz := @mkLat fz 3 2 1 6 1%float Fixed Periodic Periodic.
Definition rates_z : umap (umap Z) := [(0, [(1, 0)]); (1, [(0, 0); (2, 1)]); (2, [(1, 0)]); (3, [(4, 2)]); (4, [(3, 2); (5, 0)]); (5, [(4, 2)])].
Definition heap_z : @heap fz := fun a => if a =? 0 then 1%float else if a =? 1 then 3%float else 0.5%float.
Definition lits_z : @literals fz := @mkLiterals fz 0.5%float 0.25%float 100%float 0.75%float 7.
Definition walkers_z : umap (@walker fz) := [(10, wz 0); (20, wz 3)].
Definition holes_z : list (Z * Z) := [(0, 10); (1, 20)].
Definition main_z (n : nat) := @tof_main impl0 fz (rz 0.5) uz cz la_z lits_z holes_z 50 rates_z n (world_new walkers_z heap_z 0 0).
Definition is_nan (x : @num fz) : bool := negb (PrimFloat.eqb x x).
Lemma released_z : @released fz la_z holes_z walkers_z.
Proof.
  split; [repeat constructor; cbn; intuition lia|]. split.
  - intros p [<-|[<-|[]]]; eexists; (split; [reflexivity|]); reflexivity.
  - intros p q w w' [<-|[<-|[]]] [<-|[<-|[]]] E E'; cbn in E, E'; inversion E; inversion E'; subst; cbn; intros; congruence.
Qed.
Lemma maps_z : map_of_maps rates_z.
Proof.
  split; [repeat constructor; cbn; intuition lia|].
  intros k r [E|[E|[E|[E|[E|[E|[]]]]]]]; inversion E; subst; repeat constructor; cbn; intuition lia.
Qed.
Lemma returned {S} (o : outcome S bool) b (f : S -> bool) :
  match o with Ret c s => Bool.eqb c b && f s | _ => false end = true -> exists s, o = Ret b s /\ f s = true.
Proof. destruct o as [c s| |]; try discriminate. intros E. apply andb_prop in E. destruct E as [E1 E2]. apply eqb_prop in E1. subst c. eauto. Qed.
(** after five steps one hole has left and a sample has been taken *)
Example C61_nonvacuous :
  NoDup (ukeys walkers_z) /\ map_of_maps rates_z /\ @released fz la_z holes_z walkers_z /\ 2 <= l_len la_z /\
  exists s, main_z 5 = Ret true s /\ charges_remain s = 1 /\ length (hopped s) = 2%nat /\ length (charges_left s) = 1%nat.
Proof.
  split; [repeat constructor; cbn; intuition lia|]. split; [exact maps_z|]. split; [exact released_z|]. split; [cbn; lia|].
  destruct (returned (main_z 5) true (fun s => (charges_remain s =? 1) && Nat.eqb (length (hopped s)) 2 && Nat.eqb (length (charges_left s)) 1)) as (s & Em & E);
    [vm_compute; reflexivity|].
  exists s. apply andb_prop in E. destruct E as [E E3]. apply andb_prop in E. destruct E as [E1 E2].
  split; [exact Em|]. split; [lia|]. split; apply Nat.eqb_eq; assumption.
Qed.

(** ** C62: with valid rates the example runs, in the order of time *)

(** Either the run goes on as long as the counters do not overflow, or no hole would
    hop before the cutoff time and the assertion in createQueue fails. *)
Theorem C62_runs :
  forall (I : Impl) (G : @Rng XR) (U : @Ugly XR) (clk : Z -> Z) la lits holes walkers (h : @heap XR) rates lo hi inc count tick n,
    tof_valid (G := G) la lits holes walkers h rates lo hi inc -> 0 <= count -> few_hops lo hi (Z.of_nat n) ->
    (exists b s F, forall fuel, (F <= fuel)%nat -> tof_main clk la lits holes fuel rates n (world_new walkers h count tick) = Ret b s) \/
    (forall fuel, tof_main clk la lits holes fuel rates n (world_new walkers h count tick) = Halt AssertFailed) /\
    exists tr g, reach_by clk tr g (map snd holes) /\ hops tr = 0 /\
      forall p, In p (map snd holes) -> exists w d c, ulookup p (g_walkers g) = Some w /\ w_dwell w = Fin d /\ cutoff_time lits = Fin c /\ (c <= d)%R.
Proof.
  intros I G U clk la lits holes walkers h rates lo hi inc count tick n TV Hc Fe.
  destruct (main_total clk la lits holes walkers h rates lo hi inc count tick TV Hc n Fe) as [X|[X (g & R & L)]]; [left; exact X|right].
  split; [exact X|]. exists (start_calls lits holes rates), g. split; [exact R|]. split; [reflexivity|exact L].
Qed.
Print Assumptions C62_runs.

(** Hops are made in the order of time, and none is waiting that should have been
    made. *)
Theorem C62_in_order :
  forall (I : Impl) (G : @Rng XR) (U : @Ugly XR) (clk : Z -> Z) la lits holes walkers (h : @heap XR) rates lo hi inc count tick fuel n b s,
    tof_valid (G := G) la lits holes walkers h rates lo hi inc -> 0 <= count -> few_hops lo hi (Z.of_nat n) ->
    tof_main clk la lits holes fuel rates n (world_new walkers h count tick) = Ret b s ->
    exists ts, map snd (hopped s) = map (Fin : R -> @num XR) ts /\ rising ts /\ (forall t, In t ts -> (0 < t)%R) /\
      forall e, In e (q_list (f_queue s)) -> exists u, snd e = Fin u /\ (0 < u)%R /\ forall t, In t ts -> (t <= u)%R.
Proof.
  intros I G U clk la lits holes walkers h rates lo hi inc count tick fuel n b s TV Hc Fe E.
  destruct (main_run clk la lits holes walkers h rates lo hi inc count tick TV Hc fuel n b s Fe E) as (cs & ws & Rn).
  destruct (n_past _ _ _ _ _ _ _ _ _ _ Rn) as (ts & E1 & E2 & E3 & E4). exists ts. split; [exact E1|]. split; [exact E2|].
  split; [intros t Ht; apply (E3 t Ht)|]. intros e He. destruct (n_time _ _ _ _ _ _ _ _ _ _ Rn e He) as (u & Eu & _). exists u. split; [exact Eu|].
  split; [apply (n_pos _ _ _ _ _ _ _ _ _ _ Rn e u He Eu)|]. intros t Ht. apply (E4 e u t He Eu Ht).
Qed.
Print Assumptions C62_in_order.

(** Sample k is about the time from (k-1) to k times the increment: between samples
    every hop made is before, and every hop to come is after, the end of the last
    sample. *)
Theorem C62_sampling :
  forall (I : Impl) (G : @Rng XR) (U : @Ugly XR) (clk : Z -> Z) la lits holes walkers (h : @heap XR) rates lo hi inc count tick fuel n b s,
    tof_valid (G := G) la lits holes walkers h rates lo hi inc -> 0 <= count -> few_hops lo hi (Z.of_nat n) ->
    tof_main clk la lits holes fuel rates n (world_new walkers h count tick) = Ret b s ->
    (forall e, In e (q_list (f_queue s)) -> exists t, snd e = Fin t /\ (samples s * inc <= t)%R) /\
    (forall e, In e (hopped s) -> exists t, snd e = Fin t /\ (t < (samples s + if in_sample s then 1 else 0) * inc)%R).
Proof.
  intros I G U clk la lits holes walkers h rates lo hi inc count tick fuel n b s TV Hc Fe E.
  destruct (main_run clk la lits holes walkers h rates lo hi inc count tick TV Hc fuel n b s Fe E) as (cs & ws & Rn).
  split; [exact (n_time _ _ _ _ _ _ _ _ _ _ Rn)|]. destruct (n_past _ _ _ _ _ _ _ _ _ _ Rn) as (ts & E1 & _ & E3 & _).
  intros e He. apply (in_map snd) in He. assert (X : In (snd e) (map (Fin : R -> @num XR) ts)) by (rewrite <- E1; exact He).
  apply in_map_iff in X. destruct X as (t & Et & Ht). exists t. split; [symmetry; exact Et|apply (E3 t Ht)].
Qed.
Print Assumptions C62_sampling.

(** The k-th number recorded (from 0) counts the holes that have not left by the time
    k+1 increments. *)
Theorem C62_charges_left :
  forall (I : Impl) (G : @Rng XR) (U : @Ugly XR) (clk : Z -> Z) la lits holes walkers (h : @heap XR) rates lo hi inc count tick fuel n b s k v,
    tof_valid (G := G) la lits holes walkers h rates lo hi inc -> 0 <= count -> few_hops lo hi (Z.of_nat n) ->
    tof_main clk la lits holes fuel rates n (world_new walkers h count tick) = Ret b s ->
    nth_error (charges_left s) k = Some v -> exists m, v = Fin (IZR m) /\ remaining holes s ((INR k + 1) * inc) m.
Proof.
  intros I G U clk la lits holes walkers h rates lo hi inc count tick fuel n b s k v TV Hc Fe E.
  destruct (main_run clk la lits holes walkers h rates lo hi inc count tick TV Hc fuel n b s Fe E) as (cs & ws & Rn).
  exact (n_left _ _ _ _ _ _ _ _ _ _ Rn k v).
Qed.
Print Assumptions C62_charges_left.

(** one hole on a chain of three sites: one hop, one sample *)
Example C62_nonvacuous :
  tof_valid (G := rng_c) la_t lits_t holes_t walkers_t heap_t rates_t 1 2 inc_t /\ few_hops 1 2 3 /\
  exists s, @tof_main impl0 XR rng_c ugly_c clk_c la_t lits_t holes_t 9 rates_t 3 (world_new walkers_t heap_t 0 0) = Ret true s /\
    length (hopped s) = 1%nat /\ length (q_list (f_queue s)) = 1%nat /\ nth_error (charges_left s) 0 = Some (Fin 1 : @num XR).
Proof.
  split; [exact valid_t|]. split; [split; [lra|lia]|]. destruct run_t as (s & Em & _ & Eq & _ & El & _ & Eh). exists s.
  split; [exact Em|]. rewrite Eq, El, Eh. auto.
Qed.

(** The rates that the example computes (C59) are of this kind. *)
Theorem C62_example_rates :
  forall (I : Impl) (G : @Rng XR) (P : recipe) (la : @lattice XR) (sp : R) (energies : list R) computed (h : @heap XR) rates
    (lits : @literals XR) holes walkers lo hi inc c,
    tof_input P la sp energies -> (0 < t_temp P)%R -> (t_coupling P <> 0)%R -> (sp <= t_cutoff P)%R -> 2 <= l_len la ->
    tof_rates P la energies = Ok computed -> stored h rates computed ->
    (forall i r, In (i, r) rates -> (forall j a, In (j, a) r -> (lo <= realv (h a))%R) /\ (total_rate h r <= hi)%R) -> rate_bounds lo hi ->
    open_draws G -> increment lits = Fin inc -> (0 < inc)%R -> cutoff_time lits = Fin c ->
    NoDup (ukeys walkers) -> holes <> [] -> released la holes walkers ->
    (forall p w, In p (map snd holes) -> ulookup p walkers = Some w -> 0 <= w_cur w < l_len la * l_wid la * l_hei la) ->
    tof_valid (G := G) la lits holes walkers h rates lo hi inc.
Proof.
  intros I G P la sp energies computed h rates lits holes walkers lo hi inc c TI HT HA Hsc HL Em St Bd RB HO Ei Ip Ec NDw Nh Rel Hr.
  destruct (C59_valid_rates I P la sp energies computed h rates TI HT HA Em St) as (Mm & (NDr & Nu & _) & Ns).
  destruct (C59_recipe I P la sp energies TI) as (ds & m & _ & Em' & _ & Hrow & Hlist). assert (m = computed) by congruence. subst m.
  destruct TI as (B & TI). pose proof B as (L1 & L2 & L3 & L4 & _).
  assert (Lst : forall k r j a, In (k, r) rates -> In (j, a) r -> exists x, h a = Fin x /\ lists computed k j x).
  { intros k r j a Hk Hj. destruct (Mm k r Hk) as [(_ & _ & G3) _]. destruct (G3 j a Hj) as (x & Ex & _). exists x. split; [exact Ex|].
    unfold stored in St. rewrite <- St. exists (map (fun b => (fst b, h (snd b))) r). split.
    - apply in_map_iff. exists (k, r). auto.
    - apply in_map_iff. exists (j, a). cbn. rewrite Ex. auto. }
  assert (Key : forall k, In k (ukeys rates) -> 0 <= k < l_len la * l_wid la * l_hei la).
  { intros k Hk. apply in_map_iff in Hk. destruct Hk as ([k' r] & Ek & Hin). cbn in Ek. subst k'. destruct (Mm k r Hin) as [(Ne & _) _].
    destruct r as [|[j a] r]; [congruence|]. destruct (Lst k _ j a Hin (or_introl eq_refl)) as (x & _ & Lx).
    apply Hlist in Lx. destruct Lx as (d & x1 & y1 & z1 & x2 & y2 & z2 & _ & Pk & _). apply (at_pos_range la B _ _ _ _ Pk). }
  constructor; auto.
  - eauto.
  - split; [exact Mm|]. intros i r Hin. destruct (Bd i r Hin) as [B1 B2]. split; [|split; [apply (Ns i r Hin)|auto]].
    intros ->. apply Nu. apply (in_map fst) in Hin. exact Hin.
  - intros p w Hp Ew. specialize (Hr p w Hp Ew). destruct (C59_every_site I P la sp energies computed (w_cur w) (conj B TI) Em Hsc ltac:(nia) Hr) as (j & x & row & Hin & _).
    unfold stored in St. rewrite <- St in Hin. apply in_map_iff in Hin. destruct Hin as ([k r] & Ek & Hin). inversion Ek; subst. apply (in_map fst) in Hin. exact Hin.
Qed.
Print Assumptions C62_example_rates.

(** ** C63: the transient current *)

(** Between two samples, as long as a charge remains: every sample is a number, and
    their sum times volume and increment is the charge times the length that all
    holes together have moved along x (they start at 0). *)
Theorem C63_charge_balance :
  forall (I : Impl) (G : @Rng XR) (U : @Ugly XR) (clk : Z -> Z) (la : @lattice XR) (lits : @literals XR) holes fuel rates walkers h count tick n b s nm q inc,
    nm_to_cm lits = Fin nm -> q_e lits = Fin q -> increment lits = Fin inc -> (0 < nm)%R -> (0 < inc)%R -> built la ->
    NoDup (ukeys walkers) -> 0 <= count -> map_of_maps rates -> released la holes walkers -> 2 <= l_len la ->
    tof_main clk la lits holes fuel rates n (world_new walkers h count tick) = Ret b s -> in_sample s = false -> q_list (f_queue s) <> [] ->
    exists js X, transient_current s = map (Fin : R -> @num XR) js /\ total_x la holes s X /\
      (fold_right Rplus 0 js * (IZR (l_len la * l_wid la * l_hei la) * nm ^ 3 * inc) = q * nm * IZR X)%R.
Proof.
  intros I G U clk la lits holes fuel rates walkers h count tick n b s nm q inc L1 L2 L3 P1 P2 B H1 H2 H3 H4 H5 E Ei Eq.
  destruct (account_main clk la lits holes fuel nm q inc (conj L1 (conj L2 L3)) (conj P1 P2) B (proj1 H4) rates walkers h count tick n b s H1 H2 H3 H4 H5 E)
    as [? ? ? X|js X _ _ Et Tx Ej|? _ X]; [congruence| |congruence].
  exists js, X. split; [exact Et|]. split; [exact Tx|]. rewrite <- Ej. unfold rsum, vol. simpl. ring.
Qed.
Print Assumptions C63_charge_balance.

Example C63_nonvacuous :
  built la_t /\ map_of_maps rates_t /\ @released XR la_t holes_t walkers_t /\
  exists s, @tof_main impl0 XR rng_c ugly_c clk_c la_t lits_t holes_t 9 rates_t 3 (world_new walkers_t heap_t 0 0) = Ret true s /\
    in_sample s = false /\ q_list (f_queue s) <> [] /\ length (transient_current s) = 1%nat /\ total_x la_t holes_t s 1.
Proof.
  destruct valid_t as [[B _] _ _ _ ND [Mm _] _ _ [_ Rl] _]. split; [exact B|]. split; [split; [exact ND|intros k r Hin; apply (Mm k r Hin)]|]. split; [exact Rl|].
  destruct run_t as (s & Em & Ei & Eq & Et & _ & Pl & _). exists s. split; [exact Em|]. split; [exact Ei|]. split; [rewrite Eq; discriminate|]. split; [exact Et|].
  exists [1]. split; [reflexivity|]. split; [reflexivity|]. intros [|i] x E; [inversion E; subst; exact Pl|destruct i; discriminate].
Qed.

(** Hence one sample is the charge times the length moved since the last, per volume
    and increment. *)
Theorem C63_one_sample :
  forall (I : Impl) (G : @Rng XR) (U : @Ugly XR) (clk : Z -> Z) (la : @lattice XR) (lits : @literals XR) holes fuel rates walkers h count tick n b s n' b' s' v nm q inc X X',
    nm_to_cm lits = Fin nm -> q_e lits = Fin q -> increment lits = Fin inc -> (0 < nm)%R -> (0 < inc)%R -> built la ->
    NoDup (ukeys walkers) -> 0 <= count -> map_of_maps rates -> released la holes walkers -> 2 <= l_len la ->
    tof_main clk la lits holes fuel rates n (world_new walkers h count tick) = Ret b s -> in_sample s = false -> q_list (f_queue s) <> [] ->
    tof_main clk la lits holes fuel rates n' (world_new walkers h count tick) = Ret b' s' -> in_sample s' = false -> q_list (f_queue s') <> [] ->
    transient_current s' = transient_current s ++ [v] -> total_x la holes s X -> total_x la holes s' X' ->
    v = Fin (q * (nm * IZR (X' - X)) / (IZR (l_len la * l_wid la * l_hei la) * nm ^ 3 * inc)).
Proof.
  intros I G U clk la lits holes fuel rates walkers h count tick n b s n' b' s' v nm q inc X X' L1 L2 L3 P1 P2 B H1 H2 H3 H4 H5 E Ei Eq E' Ei' Eq' Et T1 T2.
  destruct (C63_charge_balance I G U clk la lits holes fuel rates walkers h count tick n b s nm q inc L1 L2 L3 P1 P2 B H1 H2 H3 H4 H5 E Ei Eq) as (js & Y & A1 & A2 & A3).
  destruct (C63_charge_balance I G U clk la lits holes fuel rates walkers h count tick n' b' s' nm q inc L1 L2 L3 P1 P2 B H1 H2 H3 H4 H5 E' Ei' Eq') as (js' & Y' & B1 & B2 & B3).
  assert (Y = X) by (eapply total_fun; eauto). assert (Y' = X') by (eapply total_fun; eauto). subst Y Y'.
  rewrite Et, A1 in B1.
  assert (J : exists j, v = Fin j /\ js' = js ++ [j]).
  { clear - B1. revert js' B1. induction js as [|a js IH]; intros [|a' js'] Ej; cbn in Ej; try discriminate.
    - destruct js'; [|discriminate]. inversion Ej; subst. exists a'. auto.
    - inversion Ej; subst a'. destruct (IH js') as (j & E1 & E2); [assumption|]. exists j. subst. auto. }
  destruct J as (j & -> & ->). f_equal.
  assert (F : forall l, (fold_right Rplus 0 (l ++ [j]) = fold_right Rplus 0 l + j)%R) by (induction l as [|a l IH]; cbn; [ring|rewrite IH; ring]).
  rewrite F in B3. assert (V : (0 < IZR (l_len la * l_wid la * l_hei la) * nm ^ 3 * inc)%R).
  { destruct B as (Q1 & Q2 & Q3 & _). assert (0 < l_len la * l_wid la * l_hei la) by (apply Z.mul_pos_pos; [apply Z.mul_pos_pos; assumption|assumption]).
    apply Rmult_lt_0_compat; [|exact P2]. apply Rmult_lt_0_compat; [apply IZR_lt; assumption|apply pow_lt; exact P1]. }
  apply (Rmult_eq_reg_r (IZR (l_len la * l_wid la * l_hei la) * nm ^ 3 * inc)); [|lra].
  set (D := (IZR (l_len la * l_wid la * l_hei la) * nm ^ 3 * inc)%R) in *.
  replace (q * (nm * IZR (X' - X)) / D * D)%R with (q * (nm * IZR (X' - X)))%R by (field; lra). rewrite minus_IZR. lra.
Qed.
Print Assumptions C63_one_sample.

(** When no charge remains, the last sample is not a number (0/0): what the holes
    moved during it is lost. *)
Theorem C63_last_sample :
  forall (I : Impl) (G : @Rng XR) (U : @Ugly XR) (clk : Z -> Z) (la : @lattice XR) (lits : @literals XR) holes fuel rates walkers h count tick n b s nm q inc,
    nm_to_cm lits = Fin nm -> q_e lits = Fin q -> increment lits = Fin inc -> (0 < nm)%R -> (0 < inc)%R -> built la ->
    NoDup (ukeys walkers) -> 0 <= count -> map_of_maps rates -> released la holes walkers -> 2 <= l_len la ->
    tof_main clk la lits holes fuel rates n (world_new walkers h count tick) = Ret b s -> in_sample s = false -> q_list (f_queue s) = [] ->
    exists js, transient_current s = map (Fin : R -> @num XR) js ++ [XNaN : @num XR].
Proof.
  intros I G U clk la lits holes fuel rates walkers h count tick n b s nm q inc L1 L2 L3 P1 P2 B H1 H2 H3 H4 H5 E Ei Eq.
  destruct (account_main clk la lits holes fuel nm q inc (conj L1 (conj L2 L3)) (conj P1 P2) B (proj1 H4) rates walkers h count tick n b s H1 H2 H3 H4 H5 E)
    as [? ? ? X|? ? _ X|js _ _ Et]; [congruence|congruence|]. eauto.
Qed.
Print Assumptions C63_last_sample.

(** That every recorded sample is a number is false, in floating point too: the run of
    C61 ends, all charges are collected, and the second of its two samples is NaN. *)
Theorem C63_every_sample_refuted :
  exists n s, NoDup (ukeys walkers_z) /\ map_of_maps rates_z /\ @released fz la_z holes_z walkers_z /\ 2 <= l_len la_z /\
    main_z n = Ret false s /\ charges_remain s = 0 /\ map is_nan (transient_current s) = [false; true].
Proof.
  destruct (returned (main_z 20) false (fun s => (charges_remain s =? 0) && match map is_nan (transient_current s) with [false; true] => true | _ => false end)) as (s & Em & E);
    [vm_compute; reflexivity|].
  apply andb_prop in E. destruct E as [E1 E2]. exists 20%nat, s.
  split; [repeat constructor; cbn; intuition lia|]. split; [exact maps_z|]. split; [exact released_z|]. split; [cbn; lia|]. split; [exact Em|]. split; [lia|].
  destruct (map is_nan (transient_current s)) as [|[] [|[] [|? ?]]]; try discriminate E2. reflexivity.
Qed.
Print Assumptions C63_every_sample_refuted.
