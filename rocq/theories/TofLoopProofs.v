(** * Proofs about the loop of the time of flight example *)
From Coq Require Import ZArith List Bool Lia Permutation.
From Verif Require Import Base Num BaseProofs OrdLaws QueueModel QueueProofs WalkerModel SiteModel ClusterModel ContainerModel BasinModel SystemModel SystemSpec SystemShape SystemHop SystemProofs SystemCoarse SystemFacts SystemInit SystemStart LatticeModel LatticeProofs TofLoop TofLoopSpec.
Import ListNotations.
Open Scope Z_scope.

Section Loop.
Context {I : Impl} {N : Num} {G : Rng} {U : Ugly}.
Variable clk : Z -> Z.
Variable la : lattice.
Variable lits : literals.
Variable holes : list (Z * Z).
Variable fuel : nat.

(** ** Inversion *)
Lemma in_world_ret {A} (m : M world A) s a s' : in_world m s = Ret a s' ->
  exists g, m (f_world s) = Ret a g /\ s' = f_with_world g s.
Proof. unfold in_world, zoom. destruct (m (f_world s)); intros E; inversion E; eauto. Qed.
Lemma in_queue_ret {A} (m : M queue A) s a s' : in_queue m s = Ret a s' ->
  exists q, m (f_queue s) = Ret a q /\ s' = f_with_queue q s.
Proof. unfold in_queue, zoom. destruct (m (f_queue s)); intros E; inversion E; eauto. Qed.
Lemma eta_world s : f_with_world (f_world s) s = s.
Proof. destruct s; reflexivity. Qed.
Lemma eta_queue s : f_with_queue (f_queue s) s = s.
Proof. destruct s; reflexivity. Qed.
Lemma hole_at_ok i p : hole_at holes i = Ok p <-> is_hole holes i p.
Proof.
  unfold hole_at, is_hole. destruct (Z.ltb_spec i 0); [split; [discriminate|intros [? _]; lia]|].
  destruct (nth_error holes (Z.to_nat i)) as [[id q]|]; split.
  - intros E; inversion E; subst. split; [assumption|]. eexists; reflexivity.
  - intros [_ [id' E]]. inversion E; subst. reflexivity.
  - discriminate.
  - intros [_ [? ?]]. discriminate.
Qed.
Lemma is_hole_fun i p q : is_hole holes i p -> is_hole holes i q -> p = q.
Proof. intros [_ [a E]] [_ [b F]]. congruence. Qed.
Lemma is_hole_in i p : is_hole holes i p -> In p (map snd holes).
Proof. intros [_ [a E]]. apply nth_error_In in E. apply (in_map snd) in E. exact E. Qed.
Lemma in_is_hole p : In p (map snd holes) -> exists i, is_hole holes i p.
Proof.
  intros H. apply in_map_iff in H. destruct H as ([id q] & E & H). cbn in E; subst q. apply In_nth_error in H. destruct H as [n E].
  exists (Z.of_nat n). split; [lia|]. rewrite Nat2Z.id. eauto.
Qed.
Lemma is_hole_inj i j p : NoDup (map snd holes) -> is_hole holes i p -> is_hole holes j p -> i = j.
Proof.
  intros ND [Hi [a E]] [Hj [b F]]. assert (X : Z.to_nat i = Z.to_nat j); [|lia].
  rewrite NoDup_nth_error in ND. apply ND; [rewrite map_length; apply nth_error_Some; congruence|].
  rewrite (map_nth_error snd _ _ E), (map_nth_error snd _ _ F). reflexivity.
Qed.
Lemma is_hole_range i p : is_hole holes i p -> 0 <= i < Z.of_nat (length holes).
Proof. intros [H [a E]]. assert (Z.to_nat i < length holes)%nat by (apply nth_error_Some; congruence). lia. Qed.
Lemma hole_in_range i : 0 <= i < Z.of_nat (length holes) -> exists p, is_hole holes i p.
Proof.
  intros H. destruct (nth_error holes (Z.to_nat i)) as [[id p]|] eqn:E; [exists p; split; [lia|eauto]|].
  apply nth_error_None in E. lia.
Qed.
Lemma getDwell_ret p g d g' : in_walker p w_getDwellTime g = Ret d g' ->
  g' = g /\ exists w, ulookup p (g_walkers g) = Some w /\ w_dwell w = d.
Proof.
  intros E. apply in_walker_ret in E. destruct E as (w & w' & E1 & E2 & ->). inversion E2; subst.
  rewrite ureplace_id by exact E1. rewrite eta_walkers. eauto.
Qed.

(** one turn of the inner loop *)
Record turn (s s' : tof) (e : entry) (l : list entry) (p x0 x1 : Z) (w1 : walker) (g1 : world) : Prop := mkTurn {
  u_queue : q_list (f_queue s) = e :: l;
  u_hole : is_hole holes (fst e) p;
  u_old : exists k, walker_on (f_world s) p k /\ k <> unassignedId /\ l_getX la k = Ok x0;
  u_hop : sys_hop clk fuel (fst e) p (f_world s) = Ret tt g1;
  u_walker : ulookup p (g_walkers g1) = Some w1;
  u_new : l_getX la (w_cur w1) = Ok x1;
  u_int : in_int (x1 - x0) = true;
  u_hopped : hopped s' = hopped s ++ [e];
  u_delta : deltaX s' = nadd (deltaX s) (nofZ (x1 - x0));
  u_same : sample_time s' = sample_time s /\ transient_current s' = transient_current s /\ charges_left s' = charges_left s /\ in_sample s' = in_sample s;
  u_end : (x1 < l_len la - 1 /\ f_world s' = g1 /\ charges_remain s' = charges_remain s /\
             f_queue s' = mkQueue (insert_before_larger (fst e, nadd (snd e) (w_dwell w1)) l) (q_sorted (f_queue s)))
       \/ (l_len la - 1 <= x1 /\ sys_removeWalker clk (fst e) p g1 = Ret tt (f_world s') /\ charges_remain s' = charges_remain s - 1 /\
             f_queue s' = mkQueue l (q_sorted (f_queue s))) }.

Lemma tof_hop_inv s s' : tof_hop clk la holes fuel s = Ret tt s' -> exists e l p x0 x1 w1 g1, turn s s' e l p x0 x1 w1 g1.
Proof.
  unfold tof_hop. intros E.
  apply bind_ret_inv in E. destruct E as (e & s1 & E1 & E). apply in_queue_ret in E1. destruct E1 as (q1 & E1 & ->).
  unfold q_pop in E1. destruct (q_list (f_queue s)) as [|e' l] eqn:El; [discriminate|]. inversion E1; subst e' q1; clear E1.
  apply bind_ret_inv in E. destruct E as ([] & s1 & E1 & E). inversion E1; subst s1; clear E1.
  apply bind_ret_inv in E. destruct E as (p & s1 & E1 & E). apply lift_ret in E1. destruct E1 as [Ep ->]. apply hole_at_ok in Ep.
  apply bind_ret_inv in E. destruct E as (k & s1 & E1 & E). apply in_world_ret in E1. destruct E1 as (g & E1 & ->).
  apply getSite_ret in E1. destruct E1 as (-> & Nk & w & Ew & Ek). rewrite eta_world in E. cbn [f_world f_with_hopped f_with_queue] in Ew.
  apply bind_ret_inv in E. destruct E as (x0 & s1 & E1 & E). apply lift_ret in E1. destruct E1 as [Ex0 ->].
  apply bind_ret_inv in E. destruct E as ([] & s1 & E1 & E). apply in_world_ret in E1. destruct E1 as (g1 & Eh & ->).
  cbn [f_world f_with_hopped f_with_queue] in Eh.
  apply bind_ret_inv in E. destruct E as (k' & s1 & E1 & E). apply in_world_ret in E1. destruct E1 as (g & E1 & ->).
  apply getSite_ret in E1. destruct E1 as (-> & Nk' & w1 & Ew1 & Ek'). rewrite eta_world in E. cbn [f_world f_with_world] in Ew1.
  apply bind_ret_inv in E. destruct E as (x1 & s1 & E1 & E). apply lift_ret in E1. destruct E1 as [Ex1 ->].
  apply bind_ret_inv in E. destruct E as (dx & s1 & E1 & E). apply lift_ret in E1. destruct E1 as [Edx ->].
  unfold chk in Edx. destruct (in_int (x1 - x0)) eqn:Ei; [|discriminate]. inversion Edx; subst dx; clear Edx.
  apply bind_ret_inv in E. destruct E as ([] & s1 & E1 & E). inversion E1; subst s1; clear E1.
  apply bind_ret_inv in E. destruct E as (d & s1 & E1 & E). apply in_world_ret in E1. destruct E1 as (g & E1 & ->).
  apply getDwell_ret in E1. destruct E1 as (-> & w2 & Ew2 & Ed). rewrite eta_world in E. cbn [f_world f_with_world f_with_delta] in Ew2.
  assert (w2 = w1) by congruence. subst w2.
  exists e, l, p, x0, x1, w1, g1.
  destruct (Z.ltb_spec x1 (l_len la - 1)).
  - apply in_queue_ret in E. destruct E as (q & E & ->). inversion E; subst q; clear E. constructor; cbn; auto; try congruence.
    + exists k. split; [exists w; auto|auto].
    + left. split; [assumption|]. split; [reflexivity|]. split; [reflexivity|]. subst d. reflexivity.
  - apply bind_ret_inv in E. destruct E as ([] & s1 & E1 & E). apply in_world_ret in E1. destruct E1 as (g2 & Er & ->).
    inversion E; subst s'; clear E. constructor; cbn; auto; try congruence.
    exists k. split; [exists w; auto|auto].
Qed.

(** one step of the loops *)
Definition due (s : tof) (t : num) : Prop := exists e l, q_list (f_queue s) = e :: l /\ nltb (snd e) t = true.
Lemma next_before_ret t s c s' : next_before t s = Ret c s' -> s' = s /\ (c = true <-> due s t).
Proof.
  unfold next_before. intros E. apply bind_ret_inv in E. destruct E as (n & s1 & E1 & E).
  apply in_queue_ret in E1. destruct E1 as (q & E1 & ->). inversion E1; subst n q; clear E1. rewrite eta_queue in E.
  unfold due. destruct (q_list (f_queue s)) as [|e l] eqn:El.
  - inversion E; subst. split; [reflexivity|]. split; [discriminate|]. intros (? & ? & ? & _). discriminate.
  - cbn [length] in E. destruct (Z.eqb_spec (Z.of_nat (S (length l))) 0); [lia|].
    apply bind_ret_inv in E. destruct E as (e' & s1 & E1 & E). apply in_queue_ret in E1. destruct E1 as (q & E1 & ->).
    unfold q_at in E1. rewrite El in E1. cbn in E1. inversion E1; subst e' q; clear E1. rewrite eta_queue in E. inversion E; subst.
    split; [reflexivity|]. split; [intros; eauto|]. intros (e1 & l1 & E1 & H). inversion E1; subst. exact H.
Qed.
Lemma next_before_run t s : exists c, next_before t s = Ret c s.
Proof.
  unfold next_before, bind, in_queue, zoom, q_size, gets. rewrite eta_queue.
  destruct (q_list (f_queue s)) as [|e l] eqn:El; cbn [length]; [exists false; reflexivity|].
  destruct (Z.eqb_spec (Z.of_nat (S (length l))) 0); [lia|].
  unfold q_at. rewrite El. cbn. rewrite eta_queue. eexists; reflexivity.
Qed.

Inductive event (s : tof) : bool -> tof -> Prop :=
| ev_hop s' : in_sample s = true -> due s (sample_time s) -> tof_hop clk la holes fuel s = Ret tt s' -> event s true s'
| ev_record : in_sample s = true -> ~ due s (sample_time s) ->
    event s true (mkTof (f_world s) (f_queue s) (nadd (sample_time s) (increment lits)) (deltaX s) (charges_remain s)
      (transient_current s ++ [current_of la lits (deltaX s) (Z.of_nat (length (q_list (f_queue s))))])
      (charges_left s ++ [nofZ (charges_remain s)]) false (hopped s))
| ev_begin : in_sample s = false -> due s (cutoff_time lits) -> event s true (f_with_in true (f_with_delta n0 s))
| ev_end : in_sample s = false -> ~ due s (cutoff_time lits) -> event s false s.
Lemma tof_step_inv s b s' : tof_step clk la lits holes fuel s = Ret b s' -> event s b s'.
Proof.
  unfold tof_step. intros E. apply bind_ret_inv in E. destruct E as (i & s1 & E1 & E). inversion E1; subst i s1; clear E1.
  destruct (in_sample s) eqn:Ei.
  - apply bind_ret_inv in E. destruct E as (t & s1 & E1 & E). inversion E1; subst t s1; clear E1.
    apply bind_ret_inv in E. destruct E as (c & s1 & E1 & E). apply next_before_ret in E1. destruct E1 as [-> Hc].
    destruct c.
    + apply bind_ret_inv in E. destruct E as ([] & s1 & E1 & E). inversion E; subst. apply ev_hop; tauto.
    + apply bind_ret_inv in E. destruct E as ([] & s1 & E1 & E).
      unfold tof_record in E1. apply bind_ret_inv in E1. destruct E1 as (n & s2 & E2 & E1). apply in_queue_ret in E2.
      destruct E2 as (q & E2 & ->). inversion E2; subst n q; clear E2. rewrite eta_queue in E1. inversion E1; subst s1; clear E1.
      apply bind_ret_inv in E. destruct E as ([] & s1 & E1 & E). inversion E1; subst s1; clear E1. inversion E; subst.
      apply ev_record; [exact Ei|]. intros X. apply Hc in X. discriminate.
  - apply bind_ret_inv in E. destruct E as (c & s1 & E1 & E). apply next_before_ret in E1. destruct E1 as [-> Hc].
    destruct c.
    + apply bind_ret_inv in E. destruct E as ([] & s1 & E1 & E). inversion E1; subst s1; clear E1. inversion E; subst. apply ev_begin; tauto.
    + inversion E; subst. apply ev_end; [exact Ei|]. intros X. apply Hc in X. discriminate.
Qed.

(** ** The books *)
Definition start_calls (rates : umap (umap Z)) : list call := [KSeed (the_seed lits); KRes (increment lits); KInit rates; KEnter holes].
Definition goes (c : call) : Prop := exists p, c = KHop p \/ c = KLeave p.
Record book (rates : umap (umap Z)) (s : tof) (cs : list call) (ws : list Z) : Prop := mkBook {
  b_reach : reach_by clk (start_calls rates ++ cs) (f_world s) ws;
  b_calls : Forall goes cs;
  b_hops : length (filter is_hop cs) = length (hopped s);
  b_once : NoDup (map fst (q_list (f_queue s)));
  b_ws : forall p, In p ws <-> exists i, is_hole holes i p /\ waits s i;
  b_range : forall i, waits s i -> exists p, is_hole holes i p;
  b_plane : forall i p, is_hole holes i p -> exists x, in_plane la holes s i x /\ (waits s i <-> x < l_len la - 1);
  b_remain : charges_remain s = Z.of_nat (length (q_list (f_queue s)));
  b_left : exists vs, charges_left s = map nofZ vs /\ falling vs /\ forall v, In v vs -> charges_remain s <= v <= Z.of_nat (length holes);
  b_len : length (transient_current s) = length (charges_left s) }.

Lemma reach_step tr g ws c g' ws' : reach_by clk tr g ws -> step clk g ws c g' ws' -> reach_by clk (tr ++ [c]) g' ws'.
Proof. intros (m & h & n & t & H1 & H2 & S) St. exists m, h, n, t. split; [exact H1|]. split; [exact H2|]. eapply sts_step; eauto. Qed.

Lemma reached_inv tr g ws : reach_by clk tr g ws -> inv g ws.
Proof. intros R. apply (reach_inv clk). exists tr. exact R. Qed.

Hypothesis HD : NoDup (map snd holes).

Lemma book_turn rates s cs ws s' e l p x0 x1 w1 g1 : book rates s cs ws -> turn s s' e l p x0 x1 w1 g1 ->
  exists cs' ws', book rates s' (cs ++ cs') ws' /\ reach_by clk (start_calls rates ++ cs ++ [KHop p]) g1 ws.
Proof.
  intros B T. destruct B as [Br Bc Bh Bo Bw Bg Bp Bm Bl Bn]. destruct T as [Tq Th To Tj Tw Tn Ti Thp Td Ts Te].
  destruct Ts as (Ts1 & Ts2 & Ts3 & Ts4).
  assert (Wp : waits s (fst e)) by (unfold waits; rewrite Tq; left; reflexivity).
  assert (Hp : In p ws) by (apply Bw; exists (fst e); auto).
  pose proof (reach_step _ _ _ _ _ _ Br (st_hop clk _ _ fuel (fst e) p g1 Hp Tj)) as R1. rewrite <- app_assoc in R1.
  pose proof (reached_inv _ _ _ Br) as V0. pose proof (reached_inv _ _ _ R1) as V1.
  pose proof (hop_others clk _ _ _ _ _ _ V0 Hp Tj) as Oth.
  assert (Ne : forall i q, is_hole holes i q -> i <> fst e -> q <> p).
  { intros i q Hq Ni ->. apply Ni, (is_hole_inj i (fst e) p HD Hq Th). }
  rewrite Tq in Bo. cbn [map] in Bo. inversion Bo as [|? ? No Bo']; subst.
  destruct Te as [(Hx & Ew & Er & Eq)|(Hx & Ew & Er & Eq)].
  - assert (Wt : forall i, waits s' i <-> waits s i).
    { intros i. unfold waits. rewrite Eq, Tq. cbn [q_list]. split; intros H.
      - apply (Permutation_in i (Permutation_map fst (insert_perm _ _))) in H. exact H.
      - apply (Permutation_in i (Permutation_sym (Permutation_map fst (insert_perm _ _)))). exact H. }
    assert (Ln : length (q_list (f_queue s')) = length (q_list (f_queue s))).
    { rewrite Eq, Tq. cbn [q_list]. rewrite (Permutation_length (insert_perm _ _)). reflexivity. }
    exists [KHop p], ws. split; [|exact R1]. constructor.
    + rewrite Ew. exact R1.
    + apply Forall_app. split; [exact Bc|]. constructor; [exists p; auto|constructor].
    + rewrite filter_app, app_length, Thp, app_length, Bh. reflexivity.
    + rewrite Eq. cbn [q_list]. eapply Permutation_NoDup; [apply Permutation_sym, Permutation_map, insert_perm|]. cbn. constructor; assumption.
    + intros q. rewrite Bw. split; intros (i & Hi & Wi); exists i; (split; [exact Hi|apply Wt, Wi]).
    + intros i Hi. apply Bg, Wt, Hi.
    + intros i q Hq. destruct (Z.eq_dec i (fst e)) as [->|Ni].
      * exists x1. assert (q = p) by (eapply is_hole_fun; eauto). subst q. split.
        { exists p, (w_cur w1). split; [exact Hq|]. rewrite Ew. split; [exists w1; auto|exact Tn]. }
        { rewrite Wt. tauto. }
      * destruct (Bp i q Hq) as (x & (q' & k & Hq' & (w & Ek & Ck) & Ex) & Hi). exists x. rewrite Wt. split; [|exact Hi].
        exists q', k. split; [exact Hq'|]. split; [|exact Ex]. exists w. rewrite Ew, Oth; [auto|]. eapply Ne; eauto.
    + rewrite Er, Ln. exact Bm.
    + rewrite Ts3, Er. exact Bl.
    + rewrite Ts2, Ts3. exact Bn.
  - assert (Wt : forall i, waits s' i <-> waits s i /\ i <> fst e).
    { intros i. unfold waits. rewrite Eq, Tq. cbn [q_list map]. split.
      - intros H. split; [right; exact H|]. intros ->. contradiction.
      - intros [[<-|H] Ni]; [congruence|exact H]. }
    pose proof (reach_step _ _ _ _ _ _ R1 (st_leave clk _ _ (fst e) p (f_world s') Hp Ew)) as R2. rewrite <- !app_assoc in R2.
    destruct (leave_step clk _ _ _ _ _ V1 Hp Ew) as (_ & C). assert (Ww : g_walkers (f_world s') = g_walkers g1) by apply C.
    exists [KHop p; KLeave p], (remove Z.eq_dec p ws). split; [|exact R1]. constructor.
    + exact R2.
    + apply Forall_app. split; [exact Bc|]. constructor; [exists p; auto|]. constructor; [exists p; auto|constructor].
    + rewrite filter_app, app_length, Thp, app_length, Bh. reflexivity.
    + rewrite Eq. exact Bo'.
    + intros q. split.
      * intros H. apply in_remove in H. destruct H as [H Nq]. apply Bw in H. destruct H as (i & Hi & Wi). exists i. split; [exact Hi|].
        apply Wt. split; [exact Wi|]. intros ->. apply Nq. eapply is_hole_fun; eauto.
      * intros (i & Hi & Wi). apply Wt in Wi. destruct Wi as [Wi Ni]. apply in_in_remove; [eapply Ne; eauto|]. apply Bw. eauto.
    + intros i Hi. apply Wt in Hi. apply Bg, Hi.
    + intros i q Hq. destruct (Z.eq_dec i (fst e)) as [->|Ni].
      * exists x1. assert (q = p) by (eapply is_hole_fun; eauto). subst q. split.
        { exists p, (w_cur w1). split; [exact Hq|]. split; [exists w1; rewrite Ww; auto|exact Tn]. }
        { rewrite Wt. split; [tauto|lia]. }
      * destruct (Bp i q Hq) as (x & (q' & k & Hq' & (w & Ek & Ck) & Ex) & Hi). exists x. rewrite Wt. split; [|tauto].
        exists q', k. split; [exact Hq'|]. split; [|exact Ex]. exists w. rewrite Ww, Oth; [auto|]. eapply Ne; eauto.
    + rewrite Er, Eq, Bm, Tq. cbn [q_list length]. lia.
    + rewrite Ts3, Er. destruct Bl as (vs & E1 & E2 & E3). exists vs. split; [exact E1|]. split; [exact E2|]. intros v Hv. specialize (E3 v Hv). lia.
    + rewrite Ts2, Ts3. exact Bn.
Qed.

(** ** Where the holes are *)
Lemma in_plane_fun s i x y : in_plane la holes s i x -> in_plane la holes s i y -> x = y.
Proof.
  intros (p & k & Hp & (w & Ew & Ek) & Ex) (q & j & Hq & (v & Ev & Ej) & Ey). assert (p = q) by (eapply is_hole_fun; eauto). subst q. congruence.
Qed.
Lemma turn_planes rates s cs ws s' e l p x0 x1 w1 g1 : book rates s cs ws -> turn s s' e l p x0 x1 w1 g1 ->
  in_plane la holes s (fst e) x0 /\ in_plane la holes s' (fst e) x1 /\
  forall i x, i <> fst e -> in_plane la holes s i x -> in_plane la holes s' i x.
Proof.
  intros B T. destruct (book_turn _ _ _ _ _ _ _ _ _ _ _ _ B T) as (_ & _ & _ & R1).
  destruct B as [Br Bc Bh Bo Bw Bg Bp Bm Bl Bn]. destruct T as [Tq Th To Tj Tw Tn Ti Thp Td Ts Te].
  assert (Wp : waits s (fst e)) by (unfold waits; rewrite Tq; left; reflexivity).
  assert (Hp : In p ws) by (apply Bw; exists (fst e); auto).
  pose proof (reached_inv _ _ _ Br) as V0. pose proof (reached_inv _ _ _ R1) as V1.
  pose proof (hop_others clk _ _ _ _ _ _ V0 Hp Tj) as Oth.
  assert (Ww : g_walkers (f_world s') = g_walkers g1).
  { destruct Te as [(_ & -> & _)|(_ & Ew & _)]; [reflexivity|]. destruct (leave_step clk _ _ _ _ _ V1 Hp Ew) as (_ & C). apply C. }
  split; [|split].
  - destruct To as (k & H1 & _ & H2). exists p, k. auto.
  - exists p, (w_cur w1). split; [exact Th|]. split; [exists w1; rewrite Ww; auto|exact Tn].
  - intros i x Ni (q & k & Hq & (w & Ew & Ek) & Ex). exists q, k. split; [exact Hq|]. split; [|exact Ex].
    exists w. rewrite Ww, Oth; [auto|]. intros ->. apply Ni, (is_hole_inj _ _ p HD Hq Th).
Qed.
Lemma sum_app (a b : list Z) : fold_right Z.add 0 (a ++ b) = fold_right Z.add 0 a + fold_right Z.add 0 b.
Proof. induction a as [|x a IH]; cbn; [reflexivity|]. rewrite IH. lia. Qed.
Lemma total_turn rates s cs ws s' e l p x0 x1 w1 g1 X : book rates s cs ws -> turn s s' e l p x0 x1 w1 g1 ->
  total_x la holes s X -> total_x la holes s' (X + (x1 - x0)).
Proof.
  intros B T (xs & Len & -> & Hx). destruct (turn_planes _ _ _ _ _ _ _ _ _ _ _ _ B T) as (P0 & P1 & Po).
  pose proof (is_hole_range _ _ (u_hole _ _ _ _ _ _ _ _ _ T)) as Rg.
  destruct (nth_error xs (Z.to_nat (fst e))) as [y|] eqn:Ey; [|apply nth_error_None in Ey; lia].
  assert (y = x0) by (apply (in_plane_fun s (fst e)); [|exact P0]; rewrite <- (Z2Nat.id (fst e)) by lia; apply Hx, Ey). subst y.
  apply nth_error_split in Ey. destruct Ey as (a & b & -> & La).
  exists (a ++ x1 :: b). split; [rewrite app_length in *; cbn in *; exact Len|]. split; [rewrite !sum_app; cbn; lia|].
  intros i x Ei. destruct (Nat.eq_dec i (Z.to_nat (fst e))) as [->|Ni].
  - rewrite nth_error_app2 in Ei by lia. rewrite La, Nat.sub_diag in Ei. cbn in Ei. inversion Ei; subst. rewrite Z2Nat.id by lia. exact P1.
  - apply Po; [lia|]. apply Hx. destruct (Nat.lt_ge_cases i (length a)).
    + rewrite nth_error_app1 in * by assumption. exact Ei.
    + rewrite nth_error_app2 in * by assumption. destruct (i - length a)%nat eqn:D; [lia|exact Ei].
Qed.
Lemma total_same s s' X : f_world s' = f_world s -> total_x la holes s X -> total_x la holes s' X.
Proof.
  intros E (xs & A & B & C). exists xs. split; [exact A|]. split; [exact B|]. intros i x Hx. destruct (C i x Hx) as (p & k & H). exists p, k. rewrite E. exact H.
Qed.
Lemma total_start s : (forall i p, is_hole holes i p -> in_plane la holes s i 0) -> total_x la holes s 0.
Proof.
  intros H. exists (repeat 0 (length holes)). split; [apply repeat_length|]. split; [induction (length holes); cbn; auto|].
  intros i x Hx. assert (Li : (i < length holes)%nat) by (rewrite <- (repeat_length 0 (length holes)); apply nth_error_Some; congruence).
  destruct (hole_in_range (Z.of_nat i)) as [p Hp]; [lia|]. apply nth_error_In, repeat_spec in Hx. subst x. eapply H; eauto.
Qed.
Lemma same_entries (l : list Z) : forall l', (forall i, nth_error l i = nth_error l' i) -> l = l'.
Proof.
  induction l as [|a l IH]; intros [|b l'] H; [reflexivity|discriminate (H O)|discriminate (H O)|].
  pose proof (H O) as H0. cbn in H0. inversion H0. f_equal. apply IH. intros i. apply (H (S i)).
Qed.
Lemma total_fun s X Y : total_x la holes s X -> total_x la holes s Y -> X = Y.
Proof.
  intros (xs & A & -> & B) (ys & A' & -> & B'). f_equal. apply same_entries. intros i.
  destruct (nth_error xs i) as [x|] eqn:Ex, (nth_error ys i) as [y|] eqn:Ey; try reflexivity.
  - f_equal. eapply in_plane_fun; eauto.
  - apply nth_error_None in Ey. assert (i < length xs)%nat by (apply nth_error_Some; congruence). lia.
  - apply nth_error_None in Ex. assert (i < length ys)%nat by (apply nth_error_Some; congruence). lia.
Qed.

Lemma falling_snoc l n : falling l -> (forall v, In v l -> n <= v) -> falling (l ++ [n]).
Proof.
  induction l as [|a l IH]; cbn; intros F H; [split; [intros ? []|exact Logic.I]|]. destruct F as [F1 F2]. split.
  - intros b Hb. apply in_app_iff in Hb. destruct Hb as [Hb|[<-|[]]]; [apply F1, Hb|]. apply H. auto.
  - apply IH; [exact F2|]. intros v Hv. apply H. auto.
Qed.
Lemma zseq_length n : forall lo, length (zseq lo n) = n.
Proof. induction n as [|n IH]; intros lo; cbn; [reflexivity|]. rewrite IH. reflexivity. Qed.
Lemma hole_count s : NoDup (map fst (q_list (f_queue s))) -> (forall i, waits s i -> exists p, is_hole holes i p) ->
  (length (q_list (f_queue s)) <= length holes)%nat.
Proof.
  intros ND R.
  assert (X : (length (map fst (q_list (f_queue s))) <= length (zrange 0 (Z.of_nat (length holes) - 1)))%nat).
  { apply NoDup_incl_length; [exact ND|]. intros i Hi. apply zrange_In. destruct (R i Hi) as [p Hp]. apply is_hole_range in Hp. lia. }
  rewrite map_length in X. unfold zrange in X. rewrite zseq_length in X. replace (Z.to_nat _) with (length holes) in X by lia. exact X.
Qed.
Lemma book_event rates s cs ws b s' : book rates s cs ws -> event s b s' -> exists cs' ws', book rates s' (cs ++ cs') ws'.
Proof.
  intros B E. destruct E as [s' _ _ E|_ _|_ _|_ _].
  - apply tof_hop_inv in E. destruct E as (e & l & p & x0 & x1 & w1 & g1 & T). destruct (book_turn _ _ _ _ _ _ _ _ _ _ _ _ B T) as (cs' & ws' & B' & _). eauto.
  - exists [], ws. rewrite app_nil_r. destruct B as [Br Bc Bh Bo Bw Bg Bp Bm Bl Bn]. constructor; cbn; auto.
    + destruct Bl as (vs & E1 & E2 & E3). exists (vs ++ [charges_remain s]). rewrite map_app, E1. split; [reflexivity|]. split.
      * apply falling_snoc; [exact E2|]. intros v Hv. specialize (E3 v Hv). lia.
      * intros v Hv. apply in_app_iff in Hv. destruct Hv as [Hv|[<-|[]]]; [auto|]. pose proof (hole_count s Bo Bg). lia.
    + rewrite !app_length, Bn. reflexivity.
  - exists [], ws. rewrite app_nil_r. destruct B. constructor; auto.
  - exists [], ws. rewrite app_nil_r. exact B.
Qed.
Lemma book_steps rates n : forall s cs ws b s', book rates s cs ws -> tof_steps clk la lits holes fuel n s = Ret b s' ->
  exists cs' ws', book rates s' (cs ++ cs') ws'.
Proof.
  induction n as [|n IH]; intros s cs ws b s' B E; cbn [tof_steps] in E; [inversion E; subst; exists [], ws; rewrite app_nil_r; exact B|].
  apply bind_ret_inv in E. destruct E as (c & s1 & E1 & E). apply tof_step_inv in E1.
  destruct (book_event _ _ _ _ _ _ B E1) as (cs1 & ws1 & B1). destruct c.
  - destruct (IH _ _ _ _ _ B1 E) as (cs2 & ws2 & B2). exists (cs1 ++ cs2), ws2. rewrite app_assoc. exact B2.
  - inversion E; subst. eauto.
Qed.

(** ** Setting up *)
Lemma sort_perm q u q' : q_sort q = Ret u q' -> q_sorted q' = true /\ Permutation (q_list q') (q_list q).
Proof.
  unfold q_sort. destruct (q_sorted q) eqn:S; [intros E; inversion E; subst; auto|].
  destruct (_ || _); [|discriminate]. intros E; inversion E; subst. split; [reflexivity|]. apply psort_perm.
Qed.
Lemma fill_each l : forall s s', 
  mfor l (fun i => p <- lift (hole_at holes i) ;; d <- in_world (in_walker p w_getDwellTime) ;; in_queue (q_add (i, d))) s = Ret tt s' ->
  exists es, s' = f_with_queue (f_queue s') s /\ q_list (f_queue s') = q_list (f_queue s) ++ es /\ map fst es = l /\
    (l <> [] -> q_sorted (f_queue s') = false) /\
    forall e, In e es -> exists p w, is_hole holes (fst e) p /\ ulookup p (g_walkers (f_world s)) = Some w /\ w_dwell w = snd e.
Proof.
  induction l as [|i l IH]; intros s s' E; cbn [mfor] in E.
  - inversion E; subst. exists []. rewrite eta_queue, app_nil_r. repeat split; [congruence|]. intros ? [].
  - apply bind_ret_inv in E. destruct E as ([] & s1 & E1 & E).
    apply bind_ret_inv in E1. destruct E1 as (p & s2 & E2 & E1). apply lift_ret in E2. destruct E2 as [Ep ->]. apply hole_at_ok in Ep.
    apply bind_ret_inv in E1. destruct E1 as (d & s2 & E2 & E1). apply in_world_ret in E2. destruct E2 as (g & E2 & ->).
    apply getDwell_ret in E2. destruct E2 as (-> & w & Ew & Ed). rewrite eta_world in E1.
    apply in_queue_ret in E1. destruct E1 as (q & E1 & ->). inversion E1; subst q; clear E1.
    destruct (IH _ _ E) as (es & Es & El & Em & Ef & Ei). cbn [f_queue f_with_queue q_list f_world] in *.
    exists ((i, d) :: es). split; [exact Es|]. split; [rewrite El, <- app_assoc; reflexivity|]. split; [cbn; congruence|]. split.
    + intros _. destruct l as [|j l]; [|apply Ef; discriminate]. cbn [mfor] in E. inversion E; subst. reflexivity.
    + intros e [<-|He]; [exists p, w; auto|auto].
Qed.
Lemma put_walkers l : forall g g', mfor l (fun w => init_walker (fst w) (snd w)) g = Ret tt g' ->
  put g g' /\ forall p, In p (map snd l) -> exists w, ulookup p (g_walkers g) = Some w /\ w_cur w <> unassignedId /\ umem (w_cur w) (g_feats g) = true.
Proof.
  induction l as [|[id p] l IH]; intros g g' E; cbn [mfor fst snd map] in *; [inversion E; subst; split; [split; reflexivity|intros ? []]|].
  apply bind_ret_inv in E. destruct E as ([] & g1 & E1 & E). apply init_walker_put in E1. destruct E1 as [P1 W1].
  destruct (IH _ _ E) as [P2 W2]. split; [eapply put_trans; eauto|]. intros q [<-|Hq]; [exact W1|].
  destruct (W2 q Hq) as (w & Ew & Nw & Uw). destruct P1 as [F1 P1]. specialize (P1 q). rewrite Ew in P1.
  destruct (ulookup q (g_walkers g)) as [w0|]; [|discriminate]. cbn in P1. inversion P1 as [E0]. exists w0. rewrite <- E0, <- F1. auto.
Qed.

Lemma tof_setup_inv rates walkers h count tick s : NoDup (ukeys walkers) -> 0 <= count -> map_of_maps rates -> released la holes walkers ->
  2 <= l_len la -> tof_setup clk lits holes rates (tof_new lits holes (world_new walkers h count tick)) = Ret tt s ->
  book rates s [] (map snd holes) /\ q_sorted (f_queue s) = true /\ (OrdLaws N -> no_inv time_lt (q_list (f_queue s))) /\ deltaX s = n0 /\ sample_time s = increment lits /\
  hopped s = [] /\ in_sample s = false /\ transient_current s = [] /\
  due s (cutoff_time lits) /\ (forall i p, is_hole holes i p -> in_plane la holes s i 0) /\
  forall e, In e (q_list (f_queue s)) -> exists p w, is_hole holes (fst e) p /\ ulookup p (g_walkers (f_world s)) = Some w /\ w_dwell w = snd e.
Proof.
  intros NDw Hc [NDr NDrr] (_ & Rel & Dist) HL E. set (g0 := world_new walkers h count tick) in *.
  unfold tof_setup in E.
  apply bind_ret_inv in E. destruct E as ([] & s1 & E1 & E). apply in_world_ret in E1. destruct E1 as (g1 & E1 & ->). cbn [f_world tof_new] in E1.
  apply bind_ret_inv in E. destruct E as ([] & s2 & E2 & E). apply in_world_ret in E2. destruct E2 as (g2 & E2 & ->). cbn [f_world f_with_world] in E2.
  apply bind_ret_inv in E. destruct E as ([] & s3 & E3 & E). apply in_world_ret in E3. destruct E3 as (g3 & E3 & ->). cbn [f_world f_with_world] in E3.
  apply bind_ret_inv in E. destruct E as ([] & s4 & E4 & E). apply in_world_ret in E4. destruct E4 as (g4 & E4 & ->). cbn [f_world f_with_world] in E4.
  assert (R0 : reach_by clk [] g0 []) by (exists walkers, h, count, tick; split; [exact NDw|split; [exact Hc|constructor]]).
  assert (R1 := reach_step _ _ _ _ _ _ R0 (st_seed clk _ _ _ _ E1)).
  assert (R2 := reach_step _ _ _ _ _ _ R1 (st_res clk _ _ _ _ E2)).
  assert (R3 := reach_step _ _ _ _ _ _ R2 (st_init clk _ _ rates _ NDr NDrr E3)).
  assert (W2 : g_walkers g2 = walkers).
  { unfold sys_setRandomSeed in E1. apply bind_ret_inv in E1. destruct E1 as (f & ga & Ea & E1). inversion Ea; subst f ga; clear Ea.
    destruct (g_feats g0) eqn:Ef; [|discriminate]. inversion E1; subst g1; clear E1.
    unfold sys_setTimeResolution in E2. destruct (nleb _ _); [discriminate|]. inversion E2; subst g2. reflexivity. }
  pose proof (reached_inv _ _ _ R2) as V2.
  destruct (init_all clk _ _ _ _ V2 NDr E3) as (Zs & _). assert (W3 : g_walkers g3 = walkers) by (rewrite (z_walkers _ _ Zs); exact W2).
  destruct (registers clk rates g2 [] g3 V2 NDr E3) as (Kn & Kb & _).
  assert (Un : forall k, knows g3 k -> cluster_of g3 k unassignedId).
  { intros k Hk. apply Kn in Hk. destruct Hk as [Hk|Hk]; [|apply Kb, Hk]. exfalso.
    destruct Hk as [c Hk]. apply cluster_of_iff in Hk. destruct Hk as (t & Et & _). rewrite (no_sites clk _ _ _ R2 eq_refl) in Et. discriminate. }
  unfold sys_initializeWalkers in E4. pose proof E4 as E4'. apply bind_ret_inv in E4. destruct E4 as (f & ga & Ea & E4). inversion Ea; subst f ga; clear Ea.
  destruct (g_feats g3) as [|ft fts] eqn:Ef; [discriminate|].
  destruct (put_walkers _ _ _ E4) as [[_ P] Hf].
  pose proof (reached_inv _ _ _ R3) as V3.
  assert (R4 : reach_by clk (start_calls rates) g4 (map snd holes ++ [])).
  { eapply (reach_step _ _ _ _ _ _ R3). apply st_enter.
    - exact HD.
    - intros ? _ [].
    - intros p q k Hp Hq (w & Ew & Ek) (w' & Ew' & Ek'). rewrite W3 in Ew, Ew'. apply (Dist p q w w' Hp Hq Ew Ew'). congruence.
    - intros ? ? ? _ [].
    - intros p k Hp (w & Ew & Ek). apply Un. destruct (Hf p Hp) as (w' & Ew' & _ & Uw). assert (w' = w) by congruence. subst w'. rewrite Ek in Uw.
      apply (known_site g3 [] k V3). unfold umem in Uw. rewrite (h_feat _ _ _ (v_shape _ _ V3) k) in Uw.
      destruct (ulookup k (g_sites g3)); [eauto|discriminate].
    - exact E4'. }
  rewrite app_nil_r in R4.
  unfold fill_queue in E.
  apply bind_ret_inv in E. destruct E as ([] & s5 & E5 & E). destruct (fill_each _ _ _ E5) as (es & S5 & L5 & M5 & F5 & I5).
  cbn [f_queue f_with_world tof_new q_init q_list f_world app] in L5, I5.
  apply bind_ret_inv in E. destruct E as ([] & s6 & E6 & E). apply in_queue_ret in E6. destruct E6 as (q6 & E6 & ->).
  assert (Q5 : q_sorted (f_queue s5) = true -> no_inv time_lt (q_list (f_queue s5))).
  { intros Hs. destruct (zrange 0 (Z.of_nat (length holes) - 1)) eqn:Er.
    - destruct es; [|discriminate]. rewrite L5. cbn. exact Logic.I.
    - rewrite F5 in Hs; [discriminate|congruence]. }
  assert (Qi : OrdLaws N -> no_inv time_lt (q_list q6)) by (intros OL; destruct (sort_spec _ _ _ E6) as (Srt & _ & Qi); apply (Qi Q5 Srt)).
  destruct (sort_perm _ _ _ E6) as (Srt & Prm).
  apply bind_ret_inv in E. destruct E as (e & s7 & E7 & E). apply in_queue_ret in E7. destruct E7 as (q7 & E7 & ->).
  cbn [f_queue f_with_queue] in E7. apply at_entry in E7. destruct E7 as (_ & E7 & ->). apply assert_ret in E. destruct E as [Ea ->].
  set (t := mkTof g4 q6 (increment lits) n0 (Z.of_nat (length holes)) [] [] false []).
  match goal with |- context [book rates ?x] => replace x with t by (rewrite S5; reflexivity) end. rename t into s.
  assert (Wt : forall i, waits s i <-> exists p, is_hole holes i p).
  { intros i. unfold waits, s; cbn [f_queue]. assert (X : In i (map fst (q_list q6)) <-> In i (map fst (q_list (f_queue s5)))).
    { split; intros H; [apply (Permutation_in i (Permutation_map fst Prm)) in H; exact H|].
      apply (Permutation_in i (Permutation_sym (Permutation_map fst Prm))); exact H. }
    rewrite X, L5, M5, zrange_In. split.
    - intros H. apply hole_in_range. lia.
    - intros [p Hp]. apply is_hole_range in Hp. lia. }
  assert (Pl : forall i p, is_hole holes i p -> in_plane la holes s i 0).
  { intros i p Hp. destruct (Rel p (is_hole_in _ _ Hp)) as (w & Ew & Ex). specialize (P p). rewrite W3, Ew in P.
    destruct (ulookup p (g_walkers g4)) as [w'|] eqn:Ew'; [|discriminate]. cbn in P. inversion P as [Ec].
    exists p, (w_cur w). split; [exact Hp|]. split; [exists w'; auto|exact Ex]. }
  split; [constructor|].
  - rewrite app_nil_r. exact R4.
  - constructor.
  - reflexivity.
  - unfold s; cbn [f_queue]. eapply Permutation_NoDup; [apply Permutation_sym, Permutation_map, Prm|]. rewrite L5, M5. apply zrange_NoDup.
  - intros p. split.
    + intros Hp. destruct (in_is_hole p Hp) as [i Hi]. exists i. split; [exact Hi|]. apply Wt. eauto.
    + intros (i & Hi & _). eapply is_hole_in; eauto.
  - intros i Hi. apply Wt, Hi.
  - intros i p Hp. exists 0. split; [eapply Pl; eauto|]. rewrite Wt. split; [lia|eauto].
  - unfold s; cbn [f_queue charges_remain]. rewrite (Permutation_length Prm), L5.
    assert (X := map_length fst es). rewrite M5 in X. unfold zrange in X. rewrite zseq_length in X. unfold entry in *. rewrite <- X. lia.
  - exists []. split; [reflexivity|]. split; [exact Logic.I|]. intros ? [].
  - reflexivity.
  - unfold s. cbn [f_queue deltaX sample_time hopped in_sample transient_current]. repeat split; auto.
    + cbn in E7. destruct (q_list q6) as [|e0 l0] eqn:E0; [discriminate|]. inversion E7; subst e0. exists e, l0. auto.
    + intros e' He. apply (Permutation_in e' Prm) in He. rewrite L5 in He. apply I5, He.
Qed.
Theorem book_main rates walkers h count tick n b s : NoDup (ukeys walkers) -> 0 <= count -> map_of_maps rates -> released la holes walkers ->
  2 <= l_len la -> tof_main clk la lits holes fuel rates n (world_new walkers h count tick) = Ret b s ->
  exists cs ws, book rates s cs ws.
Proof.
  intros H1 H2 H3 H4 H5 E. unfold tof_main in E. apply bind_ret_inv in E. destruct E as ([] & s0 & E0 & E).
  destruct (tof_setup_inv _ _ _ _ _ _ H1 H2 H3 H4 H5 E0) as (B & _). destruct (book_steps _ _ _ _ _ _ _ B E) as (cs & ws & B'). eauto.
Qed.
End Loop.
