(** * C17 to C20: sites *)
From Coq Require Import ZArith List Bool Reals Lra Lia Permutation Floats.
From Verif Require Import Base BaseProofs Num F64 RSum SiteModel SiteSpec SiteProofs.
Import ListNotations.
Open Scope R_scope.

Local Definition fn : Num := F64 (fun x => x).

(** two neighbours, rates 1 and 3, at addresses 10 and 11 *)
Local Definition h1 : @heap XR := fun a => if Z.eqb a 10 then Fin 1 else Fin 3.
Local Definition r1 : umap Z := [(5, 10); (7, 11)]%Z.
Example rates_good : good_rates h1 r1.
Proof.
  split; [discriminate|]. split.
  - repeat constructor; simpl; intuition discriminate.
  - intros n a [E|[E|[]]]; inversion E; subst; simpl.
    + exists 1; split; [reflexivity | lra].
    + exists 3; split; [reflexivity | lra].
Qed.
(** the generator that always yields [x] *)
Local Definition const_rng {N : Num} (x : num) : Rng := {| eng := unit; eseed := fun _ => tt; edraw := fun _ => (x, tt) |}.
Example fresh_site : s_neighIds (site_new (G := const_rng (N := XR) (Fin (1 / 2))) 0) = [] /\
  edraw (s_rng (site_new (G := const_rng (N := XR) (Fin (1 / 2))) 0)) = (Fin (1 / 2), tt) /\
  0 < 1 / 2 < 1.
Proof. split; [reflexivity|]. split; [reflexivity | lra]. Qed.
Example user_rate_holds : user_rate h1 r1 7 3 /\ total_rate h1 r1 = 4.
Proof. split; [exists 11%Z; simpl; auto|]. unfold total_rate, r1, h1; simpl; lra. Qed.

(** ** C17 *)
(** Each neighbour is listed once with rate / total, the entries are positive,
    sum to 1, agree with the per-neighbour query, and the time constant is
    1 / total. *)
Theorem C17_probabilities :
  forall (I : Impl) (G : @Rng XR) (h : heap) (rates : umap Z) (s0 : site),
    s_neighIds s0 = [] -> good_rates h rates ->
    exists s, s_setRates h rates s0 = Ret tt s /\
      (forall n p, In (n, p) (s_getProbs s) <->
         exists r, user_rate h rates n r /\ p = Fin (r / total_rate h rates)) /\
      NoDup (map fst (s_getProbs s)) /\
      (forall n p, In (n, p) (s_getProbs s) -> exists q, p = Fin q /\ 0 < q) /\
      Rsum (fun e => realv (snd e)) (s_getProbs s) = 1 /\
      (forall n p, s_probTo s n = Ok p <-> In (n, p) (s_getProbs s)) /\
      s_getTimeConstant s = Fin (1 / total_rate h rates) /\
      (forall n, In n (s_neighIds s) <-> In n (ukeys rates)).
Proof. exact @setRates_reads. Qed.
Print Assumptions C17_probabilities.

(** The same neighbours and rates in any iteration order, under any two
    hash-table implementations, give the same table and time constant. *)
Theorem C17_order_independent :
  forall (I1 I2 : Impl) (G : @Rng XR) (h : heap) (rates1 rates2 : umap Z) (s1 s2 : site),
    s_neighIds s1 = [] -> s_neighIds s2 = [] -> good_rates h rates1 -> Permutation rates1 rates2 ->
    exists t1 t2,
      @s_setRates I1 XR G h rates1 s1 = Ret tt t1 /\ @s_setRates I2 XR G h rates2 s2 = Ret tt t2 /\
      s_getProbs t1 = s_getProbs t2 /\ s_getTimeConstant t1 = s_getTimeConstant t2.
Proof. exact @order_independent. Qed.
Print Assumptions C17_order_independent.

(** addNeighRate extends the distribution by the new neighbour. *)
Theorem C17_add_neighbour :
  forall (I : Impl) (G : @Rng XR) (h : heap) (s : site) (n a : Z),
    ~ In n (s_neighIds s) -> good_rates h ((n, a) :: s_neigh s) ->
    exists s', s_addNeighRate h n a s = Ret tt s' /\ reads h ((n, a) :: s_neigh s) s'.
Proof. exact @addNeigh_reads. Qed.
Print Assumptions C17_add_neighbour.
Example C17_nonvacuous : good_rates h1 r1 /\ Permutation r1 [(7, 11); (5, 10)]%Z /\
  ~ In 5%Z (s_neighIds (s_with_neigh [(7, 11)%Z] (site_new (G := const_rng (N := XR) (Fin 0)) 0))).
Proof.
  split; [exact rates_good|]. split; [apply perm_swap|]. simpl. intuition discriminate.
Qed.

(** ** C18 *)
(** Full statement: for every u in [0,1) pickNewSiteId returns a neighbour, and
    neighbour j for u in an interval of length rate_j / total.  Proved in exact
    arithmetic; missing: IEEE doubles, where it fails (next theorem). *)
Theorem C18_pick_interval_partial :
  forall (I : Impl) (G : @Rng XR) (h : heap) (rates : umap Z) (s0 : site),
    s_neighIds s0 = [] -> good_rates h rates ->
    exists s, s_setRates h rates s0 = Ret tt s /\
      (forall s1 u e, s_getProbs s1 = s_getProbs s -> edraw (s_rng s1) = (Fin u, e) -> 0 <= u < 1 ->
         exists j s2, s_pick s1 = Ret j s2 /\ In j (ukeys rates)) /\
      (forall j r, user_rate h rates j r ->
         exists lo, 0 <= lo /\ lo + r / total_rate h rates <= 1 /\
           forall s1 u e, s_getProbs s1 = s_getProbs s -> 0 <= u < 1 -> edraw (s_rng s1) = (Fin u, e) ->
             forall k s2, s_pick s1 = Ret k s2 -> (k = j <-> lo <= u < lo + r / total_rate h rates)).
Proof. exact @pick_all. Qed.
Print Assumptions C18_pick_interval_partial.

Local Definition h_pick : @heap fn := fun a => if Z.eqb a 2 then 4%float else 1%float.
Local Definition u_pick : @num fn := 0x1.fffffffffffffp-1%float.
Local Definition st_pick : @site fn (const_rng (N := fn) u_pick) :=
  match s_setRates (I := impl0) h_pick [(1, 1); (2, 2); (3, 1)]%Z (site_new 0) with
  | Ret _ s => s | _ => site_new 0 end.
(** In binary64 with rates 1, 4, 1 the cumulative sum ends below 1; the largest
    double below 1 makes pickNewSiteId return -1, which is no neighbour. *)
Theorem C18_pick_minus_one_refuted :
  exists (h : @heap fn) (u : float) (s s' : @site fn (const_rng (N := fn) u)),
    s_setRates (I := impl0) h [(1, 1); (2, 2); (3, 1)]%Z (site_new 0) = Ret tt s /\
    PrimFloat.ltb u 1 = true /\ PrimFloat.leb 0 u = true /\
    s_pick s = Ret (-1)%Z s' /\ ~ In (-1)%Z (s_neighIds s).
Proof.
  exists h_pick, u_pick, st_pick, st_pick.
  split; [reflexivity|]. split; [reflexivity|]. split; [reflexivity|]. split; [reflexivity|].
  vm_compute. intuition discriminate.
Qed.
Print Assumptions C18_pick_minus_one_refuted.

Example C18_nonvacuous : good_rates h1 r1 /\ user_rate h1 r1 7 3 /\ 0 <= 1 / 2 < 1.
Proof. split; [exact rates_good|]. split; [apply user_rate_holds | lra]. Qed.

(** ** C19 *)
Theorem C19_dwell_time :
  forall (I : Impl) (G : @Rng XR) (h : heap) (rates : umap Z) (s0 : site),
    s_neighIds s0 = [] -> good_rates h rates ->
    exists s, s_setRates h rates s0 = Ret tt s /\
      forall s1 u e, s_getTimeConstant s1 = s_getTimeConstant s ->
        edraw (s_rng s1) = (Fin u, e) -> 0 < u < 1 ->
        exists s2, s_getDwellTime s1 = Ret (Fin (- ln u / total_rate h rates)) s2 /\
          0 < - ln u / total_rate h rates /\
          (* larger draws give shorter times *)
          (forall v, u < v -> - ln v / total_rate h rates < - ln u / total_rate h rates).
Proof. exact @dwell_all. Qed.
Print Assumptions C19_dwell_time.

(** all rates times c: dwell times divided by c *)
Theorem C19_dwell_scales :
  forall (I : Impl) (G : @Rng XR) (h h' : heap) (rates : umap Z) (c : R) (s0 : site),
    s_neighIds s0 = [] -> good_rates h rates -> 0 < c ->
    (forall n r, user_rate h rates n r -> user_rate h' rates n (c * r)) ->
    exists s s', s_setRates h rates s0 = Ret tt s /\ s_setRates h' rates s0 = Ret tt s' /\
      forall u e, edraw (s_rng s0) = (Fin u, e) -> 0 < u < 1 ->
        exists t t2 t3, s_getDwellTime s = Ret (Fin t) t2 /\ s_getDwellTime s' = Ret (Fin (t / c)) t3.
Proof. exact @dwell_scales. Qed.
Print Assumptions C19_dwell_scales.

Example C19_nonvacuous : forall n r, user_rate h1 r1 n r -> user_rate (fun a => Fin (2 * realv (h1 a))) r1 n (2 * r).
Proof. intros n r (a & Ha & E). exists a. split; [exact Ha|]. rewrite E. reflexivity. Qed.

(** ** C20 *)
(** Full statement: after the user changes a rate in the map, both the rate
    query and the hop probabilities and dwell times follow.  Proved: the rate
    query follows.  Missing: probabilities and dwell times, which do not. *)
Theorem C20_rate_query_follows_partial :
  forall (I : Impl) (G : @Rng XR) (h h' : heap) (rates : umap Z) (s0 : site) (n : Z) (r : R),
    s_neighIds s0 = [] -> good_rates h rates -> user_rate h' rates n r ->
    exists s, s_setRates h rates s0 = Ret tt s /\ s_getRateTo h' s n = Ok (Fin r).
Proof. exact @rate_query_follows. Qed.
Print Assumptions C20_rate_query_follows_partial.

(** resetNeighRate rereads every rate, so it repairs the table. *)
Theorem C20_reset_rereads_partial :
  forall (I : Impl) (G : @Rng XR) (h' : heap) (s : site) (n a : Z),
    NoDup (s_neighIds s) -> good_rates h' (uset (s_neigh s) n a) ->
    exists s', s_resetNeighRate h' n a s = Ret tt s' /\ reads h' (s_neigh s') s' /\
      (forall m, ulookup m (s_neigh s') = if Z.eqb m n then Some a else ulookup m (s_neigh s)).
Proof. exact @resetNeigh_reads. Qed.
Print Assumptions C20_reset_rereads_partial.

(** After the rate to 7 drops from 3 to 1 the probability of 7 is still 3/4. *)
Theorem C20_probabilities_frozen_refuted :
  forall (I : Impl) (G : @Rng XR) (clock : Z),
  exists (h h' : heap) (rates : umap Z) (s : site) (n : Z) (r p : R),
    s_setRates h rates (site_new clock) = Ret tt s /\ good_rates h' rates /\
    user_rate h' rates n r /\ s_getRateTo h' s n = Ok (Fin r) /\
    s_probTo s n = Ok (Fin p) /\ p <> r / total_rate h' rates /\
    s_getTimeConstant s <> Fin (1 / total_rate h' rates).
Proof. exact @frozen. Qed.
Print Assumptions C20_probabilities_frozen_refuted.
Example C20_nonvacuous : good_rates h1 (@uset impl0 Z (s_neigh (s_with_neigh r1 (site_new (G := const_rng (N := XR) (Fin 0)) 0))) 7 10)%Z.
Proof.
  split; [discriminate|]. split.
  - repeat constructor; simpl; intuition discriminate.
  - intros n a Ha. exists (realv (h1 a)). unfold h1. destruct (Z.eqb a 10); simpl; split; auto; lra.
Qed.
