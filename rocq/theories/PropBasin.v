(** * C42, C43: the basin search *)
From Coq Require Import ZArith List Bool Reals Lra Lia Relations.
From Verif Require Import Base BaseProofs Num RSum SiteModel ClusterModel ContainerModel BasinModel BasinSpec BasinProofs.
Import ListNotations.
Open Scope R_scope.

(** the explorers a program can own, with the threshold and the largest number
    of sites set last; a negative number becomes a huge size_t *)
Inductive configured {N : Num} : num -> Z -> explorer -> Prop :=
| cf_new : configured (nlit 95 100) 5 explorer_new
| cf_threshold t most t' b b' : configured t most b -> b_setThreshold t' b = Ret tt b' -> configured t' most b'
| cf_max t most c b b' : configured t most b -> (- 2 ^ 31 <= c < 2 ^ 31)%Z -> b_setMax c b = Ret tt b' ->
    configured t (if (c <? 0)%Z then 2 ^ 64 + c else c)%Z b'.
Lemma configured_eq {N : Num} {t most b} : configured t most b -> b = mkExplorer t most.
Proof.
  induction 1 as [|t most t' b b' H IH E|t most c b b' H IH Hc E]; [reflexivity| |]; injection E as <-; subst b; cbn [b_threshold b_max].
  - reflexivity.
  - f_equal. destruct (c <? 0)%Z eqn:X.
    + apply Z.ltb_lt in X. symmetry. apply (Z.mod_unique _ _ (-1)); lia.
    + apply Z.ltb_ge in X. apply Z.mod_small. lia.
Qed.

(** C42, bookkeeping, for every arithmetic, every rate (even NaN), every
    threshold and every tie-breaking: the search stops; its result is empty or a
    duplicate-free list of at most [most] sites that contains the start and is
    connected inside.  ([n] bounds the number of explored sites; any larger fuel
    gives the same result.) *)
Theorem C42_basin_search_any :
  forall (I : Impl) (N : Num) (G : Rng) (U : Ugly) (h : heap) (sites : umap site) (clusters : umap cluster)
         (b : explorer) (t : num) (most : Z) (k : Z) (s : site) (nonce : Z),
    configured t most b ->
    NoDup (ukeys sites) -> In (k, s) sites ->
    ((0 <= s_cluster s)%Z -> exists c, ulookup (s_cluster s) clusters = Some c) ->
    (1 <= most)%Z ->
    exists n L, (forall fuel, (n <= fuel)%nat -> find_basin fuel nonce h b sites clusters k = Ok L) /\
      (L = [] \/ (NoDup L /\ In k L /\ (Z.of_nat (length L) <= most)%Z /\
                  forall j, In j L -> clos_refl_trans Z (hop_in sites L) k j)).
Proof.
  intros I N G U h sites clusters b t most k s nonce Hf ND Hs Hc Hb. rewrite (configured_eq Hf).
  destruct (search_any h sites k ND clusters s (mkExplorer t most) nonce Hs Hc) as (n & L & HL & Run).
  exists n, L. split; [exact Run|]. destruct HL as [X|(A & B & C & D)]; [left; exact X|right].
  split; [exact A|]. split; [exact B|]. split; [|exact D]. destruct C as [C| ->]; [exact C|simpl; lia].
Qed.
Print Assumptions C42_basin_search_any.

(** C42, values, exact arithmetic, thresholds >= 0: the basin is held together by
    rates at least .9999^m times the reference rate, [m] the number of pairs of
    its sites; no rate of .9999 of the reference or more leaves it; and the
    result is empty only if more than [most] sites are held together. *)
Theorem C42_basin_rates :
  forall (I : Impl) (G : @Rng XR) (U : @Ugly XR) (h : @heap XR) (sites : umap (@site XR G)) (clusters : umap (@cluster XR G))
         (b : explorer) (k : Z) (ref t : R) (most nonce : Z),
    configured (Fin t : @num XR) most b -> good_sites h sites -> NoDup (ukeys clusters) -> reference h sites clusters k ref -> 0 <= t ->
    exists n L, (forall fuel, (n <= fuel)%nat -> find_basin fuel nonce h b sites clusters k = Ok L) /\
      basin_is h sites k ref most L.
Proof.
  intros I G U h sites clusters b k ref t most nonce Hf Hg Hn Hr Ht. rewrite (configured_eq Hf).
  destruct (search_ok h sites clusters k ref nonce most Hg Hn Hr) as (n & L & HL & Run).
  exists n, L. split; [intros fuel Hl; exact (Run fuel t Hl Ht)|exact HL].
Qed.
Print Assumptions C42_basin_rates.

(** C43 fails: with positive rates the threshold has no effect at all, because
    the ratio compared with it is never positive. *)
Theorem C43_threshold_refuted :
  forall (I : Impl) (G : @Rng XR) (U : @Ugly XR) (h : @heap XR) (sites : umap (@site XR G)) (clusters : umap (@cluster XR G))
         (k : Z) (ref : R) (most nonce : Z),
    good_sites h sites -> NoDup (ukeys clusters) -> reference h sites clusters k ref ->
    exists n L, forall fuel t b, (n <= fuel)%nat -> 0 <= t -> configured (Fin t : @num XR) most b ->
      find_basin fuel nonce h b sites clusters k = Ok L.
Proof.
  intros I G U h sites clusters k ref most nonce Hg Hn Hr.
  destruct (search_ok h sites clusters k ref nonce most Hg Hn Hr) as (n & L & _ & Run).
  exists n, L. intros fuel t b Hl Ht Hf. rewrite (configured_eq Hf). exact (Run fuel t Hl Ht).
Qed.
Print Assumptions C43_threshold_refuted.

(** ** A network that meets the hypotheses: 0 and 1 exchange walkers fast (100),
    1 and 2 slowly (1); 2 is part of the cluster 7 = {2, 3} *)
Section Ex.
Context {I : Impl} {G : @Rng XR}.
Let hx : @heap XR := fun a => Fin (if (a =? 0)%Z then 100 else 1).
Let mk (c : Z) (n : umap Z) : @site XR G := s_with_cluster c (s_with_neigh n (site_new 0)).
Let s0 := mk unassignedId [(1, 0)]%Z.
Let s1 := mk unassignedId [(0, 0); (2, 1)]%Z.
Let s2 := mk 7 [(1, 1); (3, 0)]%Z.
Let s3 := mk 7 [(2, 0)]%Z.
Let net : umap (@site XR G) := [(0, s0); (1, s1); (2, s2); (3, s3)]%Z.
Let cl : @cluster XR G := c_with_sites [(2, s2); (3, s3)]%Z (cluster_new 7 0).

Lemma ex_good (m : umap (@site XR G)) : incl m net -> NoDup (ukeys m) -> good_sites hx m.
Proof.
  intros Hin ND. split; [exact ND|]. intros k s Hs. apply Hin in Hs.
  assert (P : forall n a, In (n, a) (s_neigh s) -> exists r, hx a = Fin r /\ 0 < r).
  { intros n a _. eexists. split; [reflexivity|]. destruct (a =? 0)%Z; lra. }
  split; [|exact P].
  destruct Hs as [E|[E|[E|[E|[]]]]]; injection E as <- <-; cbn; repeat constructor; cbn; intuition lia.
Qed.

Example C42_basin_nonvacuous :
  good_sites hx net /\ NoDup (ukeys [(7%Z, cl)]) /\ reference hx net [(7%Z, cl)] 0 100 /\ reference hx net [(7%Z, cl)] 2 1 /\
  exists b : @explorer XR, configured (Fin 2 : @num XR) 3 b.
Proof.
  split; [apply ex_good; [apply incl_refl|cbn; repeat constructor; cbn; intuition lia]|].
  split; [cbn; repeat constructor; intros []|].
  split; [|split; [|eexists; eapply cf_max with (c := 3%Z); [eapply cf_threshold; [apply cf_new|reflexivity]|lia|reflexivity]]].
  - exists s0. split; [left; reflexivity|]. cbn. right. split.
    + exists 1%Z, s0, 0%Z. split; [left; reflexivity|]. split; [left; reflexivity|reflexivity].
    + intros x (j & s & a & Hs & Ha & E). injection E as <-. destruct (a =? 0)%Z; lra.
  - exists s2. split; [right; right; left; reflexivity|]. cbn [s2 mk s_with_cluster s_cluster Z.ltb Z.compare].
    exists cl. split; [left; reflexivity|]. split.
    { apply ex_good; [intros e He; right; right; exact He|cbn; repeat constructor; cbn; intuition lia]. }
    right. split.
    + exists 2%Z, 1%Z. split; [exists s2, 1%Z; split; [left; reflexivity|split; [left; reflexivity|reflexivity]]|].
      cbn. intuition lia.
    + intros x (i & j & (s & a & Hs & Ha & E) & Hj). injection E as <-.
      destruct Hs as [X|[X|[]]]; injection X as <- <-; cbn in Ha.
      * destruct Ha as [Y|[Y|[]]]; injection Y as <- <-; [cbn; lra|exfalso; apply Hj; cbn; auto].
      * destruct Ha as [Y|[]]; injection Y as <- <-; exfalso; apply Hj; cbn; auto.
Qed.
End Ex.
