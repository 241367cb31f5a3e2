(** * The time of flight example with valid rates: it runs, in the order of time *)
From Coq Require Import ZArith List Bool Reals Lra Lia Permutation.
From Verif Require Import Base Num BaseProofs OrdLaws RSum QueueModel QueueProofs WalkerModel SiteModel SiteSpec ClusterModel ContainerModel BasinModel SystemModel SystemSpec
  SystemShape SystemHop SystemCoarse SystemProofs SystemFacts SystemControl SystemInit SystemEffect SystemEquil ValidSpec SystemTotal SystemStart SystemChain PropValid
  LatticeModel LatticeSpec LatticeProofs TofProofs TofLoop TofLoopSpec TofLoopProofs.
Import ListNotations.
Open Scope R_scope.

Section Valid.
Context {I : Impl} {G : @Rng XR} {U : @Ugly XR}.
Variable clk : Z -> Z.
Variable la : @lattice XR.
Variable lits : @literals XR.
Variable holes : list (Z * Z).
Variables (walkers : umap (@walker XR)) (h : @heap XR) (rates : umap (umap Z)) (lo hi inc : R) (count tick : Z).
Hypothesis TV : tof_valid (G := G) la lits holes walkers h rates lo hi inc.
Hypothesis Hcount : (0 <= count)%Z.

Local Notation T := (l_len la * l_wid la * l_hei la)%Z.
Let HD : NoDup (map snd holes) := proj1 (proj2 (tv_holes _ _ _ _ _ _ _ _ _ TV)).

Lemma bind_run {S A B} (m : M S A) (f : A -> M S B) s a s1 : m s = Ret a s1 -> bind m f s = f a s1.
Proof. intros E. unfold bind. rewrite E. reflexivity. Qed.
Lemma in_world_run {A} (m : M world A) (s : @tof XR G) a g : m (f_world s) = Ret a g -> in_world m s = Ret a (f_with_world g s).
Proof. intros E. unfold in_world, zoom. rewrite E. reflexivity. Qed.
Lemma getDwell_run p (g : @world XR G) w : ulookup p (g_walkers g) = Some w -> in_walker p w_getDwellTime g = Ret (w_dwell w) g.
Proof. intros Ew. unfold in_walker, zoom, at_key. rewrite Ew. cbn. rewrite ureplace_id by exact Ew. rewrite eta_walkers. reflexivity. Qed.
Lemma getSite_here p (g : @world XR G) w : ulookup p (g_walkers g) = Some w -> w_cur w <> unassignedId -> in_walker p w_getSite g = Ret (w_cur w) g.
Proof.
  intros Ew Ec. unfold in_walker, zoom, at_key. rewrite Ew. unfold w_getSite, bind, gets.
  apply Z.eqb_neq in Ec. rewrite Ec. cbn. rewrite (ureplace_id _ _ _ Ew), eta_walkers. reflexivity.
Qed.

Definition hop_done (s : @tof XR G) (e : entry) (l : list entry) (g1 : @world XR G) (x0 x1 : Z) : @tof XR G :=
  f_with_delta (nadd (deltaX s) (nofZ (x1 - x0))) (f_with_world g1 (f_with_hopped (hopped s ++ [e]) (f_with_queue (mkQueue l (q_sorted (f_queue s))) s))).
Lemma hop_run fuel (s : @tof XR G) e l p w0 x0 g1 w1 x1 : q_list (f_queue s) = e :: l -> is_hole holes (fst e) p ->
  ulookup p (g_walkers (f_world s)) = Some w0 -> w_cur w0 <> unassignedId -> l_getX la (w_cur w0) = Ok x0 -> sys_hop clk fuel (fst e) p (f_world s) = Ret tt g1 ->
  ulookup p (g_walkers g1) = Some w1 -> w_cur w1 <> unassignedId -> l_getX la (w_cur w1) = Ok x1 -> chk (x1 - x0) = Ok (x1 - x0)%Z ->
  tof_hop clk la holes fuel s =
    (if (x1 <? l_len la - 1)%Z then in_queue (q_sortedAdd (fst e, nadd (snd e) (w_dwell w1)))
     else in_world (sys_removeWalker clk (fst e) p) ;; modify (fun s => f_with_remain (charges_remain s - 1) s)) (hop_done s e l g1 x0 x1).
Proof.
  intros Eq Th Ew0 N0 Ex0 Ehop Ew1 N1 Ex1 Ck1. set (s1 := f_with_hopped (hopped s ++ [e]) (f_with_queue (mkQueue l (q_sorted (f_queue s))) s)).
  unfold tof_hop. rewrite (bind_run _ _ s e (f_with_queue (mkQueue l (q_sorted (f_queue s))) s)) by (unfold in_queue, zoom, q_pop; rewrite Eq; reflexivity).
  rewrite (bind_run _ _ _ tt s1) by reflexivity.
  rewrite (bind_run _ _ _ p s1) by (unfold lift; rewrite (proj2 (hole_at_ok holes _ _) Th); reflexivity).
  rewrite (bind_run _ _ _ (w_cur w0) s1) by (erewrite in_world_run by (apply getSite_here; [exact Ew0|exact N0]); rewrite eta_world; reflexivity).
  rewrite (bind_run _ _ _ x0 s1) by (unfold lift; rewrite Ex0; reflexivity).
  rewrite (bind_run _ _ _ tt (f_with_world g1 s1)) by (apply in_world_run, Ehop).
  rewrite (bind_run _ _ _ (w_cur w1) (f_with_world g1 s1)) by (erewrite in_world_run by (apply getSite_here; [exact Ew1|exact N1]); rewrite eta_world; reflexivity).
  rewrite (bind_run _ _ _ x1 (f_with_world g1 s1)) by (unfold lift; rewrite Ex1; reflexivity).
  rewrite (bind_run _ _ _ (x1 - x0)%Z (f_with_world g1 s1)) by (unfold lift; rewrite Ck1; reflexivity).
  fold (hop_done s e l g1 x0 x1). rewrite (bind_run _ _ _ tt (hop_done s e l g1 x0 x1)) by reflexivity.
  rewrite (bind_run _ _ _ (w_dwell w1) (hop_done s e l g1 x0 x1)) by (erewrite in_world_run by (apply getDwell_run; exact Ew1); rewrite eta_world; reflexivity).
  reflexivity.
Qed.

(** ** Sites *)
Lemma sites_given tr g ws : reach_by clk tr g ws -> forall k, In k (ukeys (g_sites g)) -> exists r, In (KInit r) tr /\ mentioned r k.
Proof.
  intros (m & hp & c & t & H1 & H2 & S).
  assert (V0 : inv (world_new m hp c t : @world XR G) []) by (apply (reach_inv clk); exists [], m, hp, c, t; split; [exact H1|split; [exact H2|constructor]]).
  induction S as [|tr g1 ws1 a g2 ws2 S IH St]; intros k Hk; [destruct Hk|].
  assert (V1 : inv g1 ws1) by (apply (reach_inv clk); exists tr, m, hp, c, t; auto).
  destruct (is_init a) eqn:Ei.
  - destruct a as [| | | |r| | | | | | |]; try discriminate. inversion St as [| | | |r' g' ND NDr E| | | | | | |]; subst.
    destruct (init_all clk _ _ _ _ V1 ND E) as (_ & _ & _ & C).
    assert (Dm : mentioned r k \/ ~ mentioned r k).
    { destruct (drains_in clk r) as [_ Hd]. destruct (in_dec Z.eq_dec k (ukeys r)) as [X|Ni]; [left; left; exact X|].
      destruct (in_dec Z.eq_dec k (ukeys (drains r))) as [X|Nd]; [left; right; apply Hd in X; apply X|].
      right. intros [X|X]; [contradiction|]. apply Nd, Hd. auto. }
    destruct Dm as [Hm|Nm]; [exists r; split; [apply in_app_iff; right; left; reflexivity|exact Hm]|].
    apply ukeys_In in Hk. destruct Hk as [s Es]. rewrite (C k Nm) in Es. apply ulookup_In_key in Es.
    destruct (IH k Es) as (r' & Hr & Mr). exists r'. split; [apply in_app_iff; auto|exact Mr].
  - rewrite (step_sites clk _ _ _ _ _ V1 St Ei) in Hk. destruct (IH k Hk) as (r' & Hr & Mr). exists r'. split; [apply in_app_iff; auto|exact Mr].
Qed.
Lemma book_sites s cs ws : book clk la lits holes rates s cs ws -> forall k, In k (ukeys (g_sites (f_world s))) -> (0 <= k < T)%Z.
Proof.
  intros B k Hk. destruct (sites_given _ _ _ (b_reach _ _ _ _ _ _ _ _ B) k Hk) as (r & Hr & Mr). apply in_app_iff in Hr. destruct Hr as [Hr|Hr].
  - assert (r = rates) by (destruct Hr as [X|[X|[X|[X|[]]]]]; congruence). subst r.
    destruct (mutual_mentioned _ _ _ (proj1 (tv_rates _ _ _ _ _ _ _ _ _ TV)) Mr) as [r Hin].
    apply (tv_sites _ _ _ _ _ _ _ _ _ TV). apply (in_map fst) in Hin. exact Hin.
  - pose proof (b_calls _ _ _ _ _ _ _ _ B) as F. rewrite Forall_forall in F. destruct (F _ Hr) as (p & [X|X]); discriminate.
Qed.
Lemma getX_in k : (0 <= k < T)%Z -> exists x, l_getX la k = Ok x /\ (0 <= x < l_len la)%Z.
Proof.
  intros Hk. pose proof (proj1 (tv_built _ _ _ _ _ _ _ _ _ TV)) as B. destruct (at_pos_exists la B k Hk) as (x & y & z & Pp).
  exists x. split; [apply (getXYZ_ok la B _ _ _ _ Pp)|apply Pp].
Qed.

(** ** The run so far *)
Lemma rising_snoc l a : rising l -> (forall b, In b l -> b <= a) -> rising (l ++ [a]).
Proof.
  induction l as [|x l IH]; cbn; intros F Hl; [split; [intros ? []|exact Logic.I]|]. destruct F as [F1 F2]. split.
  - intros b Hb. apply in_app_iff in Hb. destruct Hb as [Hb|[<-|[]]]; auto.
  - apply IH; auto.
Qed.
Record run (s : @tof XR G) (cs : list (@call XR)) (ws : list Z) : Prop := mkRun {
  n_book : book clk la lits holes rates s cs ws;
  n_heap : g_heap (f_world s) = h;
  n_sort : no_inv time_lt (q_list (f_queue s));
  n_time : forall e, In e (q_list (f_queue s)) -> exists t, snd e = Fin t /\ samples s * inc <= t;
  n_past : exists ts, map snd (hopped s) = map (Fin : R -> @num XR) ts /\ rising ts /\
    (forall t, In t ts -> 0 < t < (samples s + if in_sample s then 1 else 0) * inc) /\
    forall e t t', In e (q_list (f_queue s)) -> snd e = Fin t -> In t' ts -> t' <= t;
  n_pos : forall e t, In e (q_list (f_queue s)) -> snd e = Fin t -> 0 < t;
  n_clock : sample_time s = Fin ((samples s + 1) * inc);
  n_left : forall k v, nth_error (charges_left s) k = Some v -> exists n, v = Fin (IZR n) /\ remaining holes s ((INR k + 1) * inc) n }.

Lemma inc_pos : 0 < inc.
Proof. apply (tv_lits _ _ _ _ _ _ _ _ _ TV). Qed.
Lemma book_valid s cs ws : book clk la lits holes rates s cs ws -> g_heap (f_world s) = h ->
  valid_reach clk lo hi (start_calls lits holes rates ++ cs) (f_world s) ws.
Proof.
  intros B Eh. split; [apply (b_reach _ _ _ _ _ _ _ _ B)|]. rewrite Eh. destruct (tv_rates _ _ _ _ _ _ _ _ _ TV) as [M P].
  assert (Gs : forall Q : @call XR -> Prop, (forall p, Q (KHop p)) -> (forall p, Q (KLeave p)) -> Forall Q cs).
  { intros Q Q1 Q2. eapply Forall_impl; [|apply (b_calls _ _ _ _ _ _ _ _ B)]. intros c (p & [-> | ->]); auto. }
  destruct (tv_lits _ _ _ _ _ _ _ _ _ TV) as (Ei & _).
  split; apply Forall_app; (split; [|apply Gs; intros; exact Logic.I]).
  - constructor; [exact Logic.I|]. constructor; [exists inc; exact Ei|]. constructor; [exact M|]. constructor; [exact Logic.I|constructor].
  - constructor; [exact Logic.I|]. constructor; [exact Logic.I|]. constructor; [exact P|]. constructor; [exact Logic.I|constructor].
Qed.
Lemma book_hops s cs ws : book clk la lits holes rates s cs ws -> hops (start_calls lits holes rates ++ cs) = Z.of_nat (length (hopped s)).
Proof. intros B. rewrite hops_app. unfold hops. rewrite (b_hops _ _ _ _ _ _ _ _ B). reflexivity. Qed.

Definition enough (s : @tof XR G) : Prop := few_hops lo hi (Z.of_nat (S (length (hopped s)))).

Lemma ltb_fin a b : @nltb XR (Fin a) (Fin b) = true <-> a < b.
Proof. cbn. unfold Rltb. destruct (Rlt_dec a b); split; intros; try discriminate; auto; contradiction. Qed.
Lemma ltb_fin_not a b : @nltb XR (Fin a) (Fin b) = false <-> b <= a.
Proof. cbn. unfold Rltb. destruct (Rlt_dec a b); split; intros; try discriminate; auto; lra. Qed.

Lemma remaining_same (s s' : @tof XR G) t n : (forall i p, is_hole holes i p -> (gone_by s t i <-> gone_by s' t i)) -> remaining holes s t n -> remaining holes s' t n.
Proof.
  intros Same (l & ND & El & Hl). exists l. split; [exact ND|]. split; [exact El|]. intros i. rewrite Hl. split; intros [[p Hp] Ng]; (split; [eauto|]); specialize (Same i p Hp); tauto.
Qed.
Lemma left_before (s : @tof XR G) cs ws k v : book clk la lits holes rates s cs ws -> nth_error (charges_left s) k = Some v -> (INR k + 1) * inc <= samples s * inc.
Proof.
  intros B E. assert (k < length (charges_left s))%nat by (apply nth_error_Some; congruence). rewrite <- (b_len _ _ _ _ _ _ _ _ B) in H.
  apply Rmult_le_compat_r; [pose proof inc_pos; lra|]. unfold samples. rewrite <- S_INR. apply le_INR. lia.
Qed.
Lemma run_turn fuel s cs ws s' e l p x0 x1 w1 g1 : run s cs ws -> enough s -> due s (sample_time s) -> in_sample s = true ->
  turn clk la holes fuel s s' e l p x0 x1 w1 g1 ->
  exists cs' ws', run s' (cs ++ cs') ws' /\ length (hopped s') = S (length (hopped s)).
Proof.
  intros R En Du Is Tn. destruct R as [B Eh So Ti Pa Po Ck Lf].
  destruct (book_turn clk la lits holes fuel HD _ _ _ _ _ _ _ _ _ _ _ _ B Tn) as (cs' & ws' & B' & R1).
  pose proof (book_hops _ _ _ B) as Hh. pose proof (book_valid _ _ _ B Eh) as V. pose proof (book_valid _ _ _ B) as V'.
  destruct Tn as [Tq Th To Tj Tw Tx Tint Thp Td Ts Te]. destruct Ts as (Ts1 & Ts2 & Ts3 & Ts4).
  assert (Wp : waits s (fst e)) by (unfold waits; rewrite Tq; left; reflexivity).
  assert (Hp : In p ws) by (apply (b_ws _ _ _ _ _ _ _ _ B); exists (fst e); auto).
  pose proof (hop_reach clk lo hi _ _ _ _ _ _ _ V Hp Tj) as V1.
  assert (F1 : few_hops lo hi (hops ((start_calls lits holes rates ++ cs) ++ [KHop p]))).
  { rewrite hops_app, Hh. unfold enough in En. rewrite Nat2Z.inj_succ in En. exact En. }
  destruct (valid_timed clk lo hi (tv_draws _ _ _ _ _ _ _ _ _ TV) (tv_bounds _ _ _ _ _ _ _ _ _ TV) _ _ _ p V1 F1 Hp) as (w & d & Ew & Ed & Hd).
  assert (w = w1) by congruence. subst w. unfold w_getDwellTime, gets in Ed. inversion Ed as [Ed']. clear Ed.
  assert (Eh1 : g_heap g1 = h).
  { destruct (step_settings clk _ _ _ _ _ (reached_inv clk _ _ _ (b_reach _ _ _ _ _ _ _ _ B)) (st_hop clk _ _ fuel (fst e) p g1 Hp Tj)) as ([X|X] & _); [discriminate|congruence]. }
  assert (Eh' : g_heap (f_world s') = h).
  { destruct Te as [(_ & -> & _)|(_ & El & _)]; [exact Eh1|].
    destruct (step_settings clk _ _ _ _ _ (reached_inv clk _ _ _ R1) (st_leave clk _ _ (fst e) p _ Hp El)) as ([X|X] & _); [discriminate|congruence]. }
  rewrite Tq in So, Ti, Pa, Po. destruct So as [Sm So]. rewrite Forall_forall in Sm.
  destruct (Ti e (or_introl eq_refl)) as (t & Et & Lt). pose proof (Po e t (or_introl eq_refl) Et) as Pt.
  assert (Le : forall y ty, In y l -> snd y = Fin ty -> t <= ty).
  { intros y ty Hy Ey. specialize (Sm y Hy). unfold time_lt in Sm. rewrite Ey, Et in Sm. apply ltb_fin_not, Sm. }
  assert (Sa : samples s' = samples s) by (unfold samples; rewrite Ts2; reflexivity).
  assert (Qe : forall y, In y (q_list (f_queue s')) -> y = (fst e, Fin (t + d) : @num XR) \/ In y l).
  { intros y Hy. destruct Te as [(_ & _ & _ & Eq)|(_ & _ & _ & Eq)]; rewrite Eq in Hy; cbn [q_list] in Hy; [|right; exact Hy].
    apply (Permutation_in y (insert_perm _ _)) in Hy. destruct Hy as [<-|Hy]; [left; rewrite Et, Ed'; reflexivity|right; exact Hy]. }
  assert (Tmax : t < (samples s + 1) * inc).
  { destruct Du as (e' & l' & El' & Hl'). rewrite Tq in El'. inversion El'; subst e' l'. rewrite Et, Ck in Hl'. apply ltb_fin, Hl'. }
  exists cs', ws'. split; [constructor|].
  - exact B'.
  - exact Eh'.
  - destruct Te as [(_ & _ & _ & Eq)|(_ & _ & _ & Eq)]; rewrite Eq; cbn [q_list]; [apply (@insert_no_inv XR XR_ord), So|exact So].
  - intros y Hy. rewrite Sa. destruct (Qe y Hy) as [->|Hl].
    + exists (t + d). split; [reflexivity|]. lra.
    + apply Ti. right; exact Hl.
  - destruct Pa as (ts & E1 & E2 & E3 & E4). exists (ts ++ [t]). rewrite Thp.
    split; [transitivity (map snd (hopped s) ++ [snd e]); [apply map_app|rewrite E1, map_app; cbn [map]; rewrite Et; reflexivity]|]. split; [|split].
    + apply rising_snoc; [exact E2|]. intros b Hb. apply (E4 e t b (or_introl eq_refl) Et Hb).
    + intros b Hb. rewrite Sa, Ts4. apply in_app_iff in Hb. destruct Hb as [Hb|[<-|[]]]; [apply E3, Hb|]. rewrite Is. lra.
    + intros y ty b Hy Ey Hb. apply in_app_iff in Hb. destruct (Qe y Hy) as [->|Hl].
      * cbn in Ey. inversion Ey; subst ty. destruct Hb as [Hb|[<-|[]]]; [|lra]. pose proof (E4 e t b (or_introl eq_refl) Et Hb). lra.
      * destruct Hb as [Hb|[<-|[]]]; [apply (E4 y ty b (or_intror Hl) Ey Hb)|apply (Le y ty Hl Ey)].
  - intros y ty Hy Ey. destruct (Qe y Hy) as [->|Hl]; [cbn in Ey; inversion Ey; lra|]. apply (Po y ty (or_intror Hl) Ey).
  - rewrite Ts1, Sa. exact Ck.
  - intros k v Ek. rewrite Ts3 in Ek. pose proof (left_before _ _ _ _ _ B Ek) as Lk. destruct (Lf k v Ek) as (n & Ev & Rm). exists n. split; [exact Ev|].
    revert Rm. apply remaining_same. intros i _ _. unfold gone_by. rewrite Thp. destruct (Z.eq_dec i (fst e)) as [->|Ni].
    + split; intros [Nw Hu]; [contradiction|]. specialize (Hu e t ltac:(apply in_app_iff; right; left; reflexivity) eq_refl Et). lra.
    + assert (Ww : waits s i <-> waits s' i).
      { unfold waits. rewrite Tq. destruct Te as [(_ & _ & _ & Eq)|(_ & _ & _ & Eq)]; rewrite Eq; cbn [q_list map In].
        - split; intros H.
          + destruct H as [H|H]; [congruence|]. apply (Permutation_in i (Permutation_sym (Permutation_map fst (insert_perm _ _)))). right. exact H.
          + apply (Permutation_in i (Permutation_map fst (insert_perm _ _))) in H. exact H.
        - split; [intros [H|H]; [congruence|exact H]|auto]. }
      rewrite Ww. split; intros [Nw Hu]; (split; [exact Nw|]); intros e' u He Ef; [|apply Hu; [apply in_app_iff; auto|exact Ef]].
      apply in_app_iff in He. destruct He as [He|[<-|[]]]; [apply Hu; assumption|congruence].
  - rewrite Thp, app_length. cbn. lia.
Qed.
Lemma run_event fuel s cs ws b s' : run s cs ws -> enough s -> event clk la lits holes fuel s b s' ->
  exists cs' ws', run s' (cs ++ cs') ws' /\ (length (hopped s') <= S (length (hopped s)))%nat.
Proof.
  intros R En E. pose proof inc_pos as Ip. destruct (tv_lits _ _ _ _ _ _ _ _ _ TV) as (Einc & _). pose proof E as E0. destruct E as [s' Ei Du E|Ei Nd|Ei Du|Ei Nd].
  - apply tof_hop_inv in E. destruct E as (e & l & p & x0 & x1 & w1 & g1 & Tn).
    destruct (run_turn _ _ _ _ _ _ _ _ _ _ _ _ R En Du Ei Tn) as (cs' & ws' & R' & Len). exists cs', ws'. split; [exact R'|lia].
  - destruct (book_event clk la lits holes fuel HD _ _ _ _ _ _ (n_book _ _ _ R) E0) as (cs' & ws' & B').
    exists cs', ws'. split; [|cbn; lia]. destruct R as [B Eh So Ti Pa Po Ck Lf].
    assert (Sa : forall st dx cr cl ts q g i hp, samples (mkTof g q st dx cr (transient_current s ++ [ts]) cl i hp) = samples s + 1).
    { intros. unfold samples. cbn [transient_current]. rewrite app_length, plus_INR. reflexivity. }
    constructor; cbn [f_queue f_world hopped in_sample sample_time]; rewrite ?Sa; auto.
    + intros e He. destruct (Ti e He) as (t & Et & _). exists t. split; [exact Et|]. 
      destruct (q_list (f_queue s)) as [|e0 l0] eqn:El; [destruct He|]. destruct (Ti e0 (or_introl eq_refl)) as (t0 & Et0 & _).
      assert (L0 : (samples s + 1) * inc <= t0).
      { apply ltb_fin_not. destruct (@nltb XR (Fin t0) (Fin ((samples s + 1) * inc))) eqn:X; [|reflexivity]. exfalso. apply Nd. exists e0, l0. rewrite Et0, Ck. auto. }
      destruct He as [<-|He]; [assert (t0 = t) by congruence; lra|]. destruct So as [Sm _]. rewrite Forall_forall in Sm. specialize (Sm e He).
      unfold time_lt in Sm. rewrite Et, Et0 in Sm. apply ltb_fin_not in Sm. lra.
    + destruct Pa as (ts & E1 & E2 & E3 & E4). exists ts. split; [exact E1|]. split; [exact E2|]. split; [|exact E4].
      intros t Ht. specialize (E3 t Ht). rewrite Ei in E3. lra.
    + rewrite Ck, Einc. cbn. f_equal. ring.
    + intros k v Ek. cbn [charges_left] in Ek. assert (Hk : (k < length (charges_left s))%nat \/ (length (charges_left s) <= k)%nat) by lia. destruct Hk as [Hk|Hk].
      * rewrite nth_error_app1 in Ek by exact Hk. exact (Lf k v Ek).
      * rewrite nth_error_app2 in Ek by exact Hk. destruct (k - length (charges_left s))%nat as [|m] eqn:Em; [|destruct m; discriminate].
        cbn in Ek. inversion Ek; subst v. exists (charges_remain s). split; [reflexivity|].
        assert (Ik : INR k = samples s) by (unfold samples; rewrite (b_len _ _ _ _ _ _ _ _ B); f_equal; lia). rewrite Ik.
        exists (map fst (q_list (f_queue s))). split; [apply (b_once _ _ _ _ _ _ _ _ B)|]. split; [rewrite map_length; apply (b_remain _ _ _ _ _ _ _ _ B)|].
        intros i. split; intros H.
        -- split; [apply (b_range _ _ _ _ _ _ _ _ B i H)|]. intros [Nw _]. exact (Nw H).
        -- destruct H as [_ Ng]. destruct (in_dec Z.eq_dec i (map fst (q_list (f_queue s)))) as [Hi|Hi]; [exact Hi|]. exfalso. apply Ng. split; [exact Hi|].
           intros e u He _ Eu. destruct Pa as (ts & E1 & _ & E3 & _). apply (in_map snd) in He. cbn [hopped] in He. 
           assert (Hin : In (Fin u) (map (Fin : R -> @num XR) ts)) by (rewrite <- E1, <- Eu; exact He).
           apply in_map_iff in Hin. destruct Hin as (u' & Eu' & Hu'). inversion Eu'; subst u'. specialize (E3 u Hu'). rewrite Ei in E3. lra.
  - destruct (book_event clk la lits holes fuel HD _ _ _ _ _ _ (n_book _ _ _ R) E0) as (cs' & ws' & B').
    exists cs', ws'. split; [|cbn; lia]. destruct R as [B Eh So Ti Pa Po Ck Lf].
    assert (Sa : samples (f_with_in true (f_with_delta n0 s)) = samples s) by reflexivity.
    constructor; rewrite ?Sa; cbn [f_queue f_world hopped in_sample sample_time f_with_in f_with_delta]; auto.
    destruct Pa as (ts & E1 & E2 & E3 & E4). exists ts. split; [exact E1|]. split; [exact E2|]. split; [|exact E4].
    intros t Ht. specialize (E3 t Ht). rewrite Ei in E3. lra.
  - exists [], ws. rewrite app_nil_r. split; [exact R|lia].
Qed.

(** ** Every step returns *)
Lemma hop_total s cs ws : run s cs ws -> enough s -> q_list (f_queue s) <> [] ->
  exists s' F, forall fuel, (F <= fuel)%nat -> tof_hop clk la holes fuel s = Ret tt s'.
Proof.
  intros R En Nq. destruct R as [B Eh So Ti Pa Po Ck Lf]. destruct (q_list (f_queue s)) as [|e l] eqn:Eq; [contradiction|]. clear Nq.
  pose proof (book_hops _ _ _ B) as Hh. pose proof (book_valid _ _ _ B Eh) as V.
  assert (Wp : waits s (fst e)) by (unfold waits; rewrite Eq; left; reflexivity).
  destruct (b_range _ _ _ _ _ _ _ _ B _ Wp) as [p Th].
  assert (Hp : In p ws) by (apply (b_ws _ _ _ _ _ _ _ _ B); exists (fst e); auto).
  pose proof (tv_draws _ _ _ _ _ _ _ _ _ TV) as HO. pose proof (tv_bounds _ _ _ _ _ _ _ _ _ TV) as HB.
  unfold enough in En. rewrite Nat2Z.inj_succ in En.
  destruct (valid_hop clk lo hi HO HB _ _ _ (fst e) p V) as (g1 & F & Ehop); [rewrite Hh; exact En|exact Hp|].
  pose proof (hop_reach clk lo hi _ _ _ _ _ _ _ V Hp (Ehop F (le_n F))) as V1.
  assert (Site : forall g tr, reach_by clk tr g ws -> (forall k, In k (ukeys (g_sites g)) -> (0 <= k < T)%Z) ->
    exists w x, ulookup p (g_walkers g) = Some w /\ w_cur w <> unassignedId /\ l_getX la (w_cur w) = Ok x /\ (0 <= x < l_len la)%Z).
  { intros g tr Rg Hs. pose proof (reached_inv clk _ _ _ Rg) as W. destruct (v_on _ _ W p Hp) as (k & (w & Ew & Ek) & Pk). specialize (Hs k Pk).
    destruct (getX_in k Hs) as (x & Ex & Hx). exists w, x. rewrite Ek. split; [exact Ew|]. split; [unfold unassignedId, INT_MIN; lia|auto]. }
  assert (S0 : forall k, In k (ukeys (g_sites (f_world s))) -> (0 <= k < T)%Z) by (apply (book_sites _ _ _ B)).
  assert (S1 : forall k, In k (ukeys (g_sites g1)) -> (0 <= k < T)%Z).
  { intros k. rewrite (step_sites clk _ _ _ _ _ (reached_inv clk _ _ _ (proj1 V)) (st_hop clk _ _ F (fst e) p g1 Hp (Ehop F (le_n F))) eq_refl). apply S0. }
  destruct (Site _ _ (proj1 V) S0) as (w0 & x0 & Ew0 & N0 & Ex0 & Hx0). destruct (Site _ _ (proj1 V1) S1) as (w1 & x1 & Ew1 & N1 & Ex1 & Hx1).
  assert (Ck1 : chk (x1 - x0) = Ok (x1 - x0)%Z).
  { destruct (tv_built _ _ _ _ _ _ _ _ _ TV) as [(L1 & L2 & L3 & L4 & _) _]. unfold chk, in_int, INT_MIN, INT_MAX in *.
    assert (l_len la <= 2147483647)%Z by nia.
    destruct (Z.leb_spec (-2147483648) (x1 - x0)), (Z.leb_spec (x1 - x0) 2147483647); cbn; try reflexivity; lia. }
  assert (Hr : forall fuel, (F <= fuel)%nat -> _) by (intros fuel Hf; exact (hop_run fuel s e l p w0 x0 g1 w1 x1 Eq Th Ew0 N0 Ex0 (Ehop fuel Hf) Ew1 N1 Ex1 Ck1)).
  set (s2 := hop_done s e l g1 x0 x1) in *. destruct (Z.ltb_spec x1 (l_len la - 1)) as [Hx|Hx].
  - eexists _, F. intros fuel Hf. rewrite (Hr fuel Hf). reflexivity.
  - destruct (valid_leave clk lo hi HO HB _ _ _ (fst e) p V1) as [g2 El]; [rewrite hops_app, Hh; exact En|exact Hp|].
    eexists _, F. intros fuel Hf. rewrite (Hr fuel Hf). rewrite (bind_run _ _ _ tt (f_with_world g2 s2)) by (apply in_world_run, El). reflexivity.
Qed.
Lemma step_total s cs ws : run s cs ws -> enough s -> exists b s' F, forall fuel, (F <= fuel)%nat -> tof_step clk la lits holes fuel s = Ret b s'.
Proof.
  intros R En. unfold tof_step. destruct (in_sample s) eqn:Ei.
  - destruct (next_before_run (sample_time s) s) as [c Ec]. destruct c.
    + pose proof Ec as Ec'. apply next_before_ret in Ec'. destruct Ec' as [_ Hc]. destruct (proj1 Hc eq_refl) as (e & l & El & _).
      destruct (hop_total s cs ws R En) as (s' & F & Eh); [congruence|]. exists true, s', F. intros fuel Hf.
      rewrite (bind_run _ _ s true s) by (unfold gets; rewrite Ei; reflexivity). cbv beta iota. rewrite (bind_run _ _ s (sample_time s) s) by reflexivity.
      rewrite (bind_run _ _ s true s Ec). cbv iota. rewrite (bind_run _ _ s tt s' (Eh fuel Hf)). reflexivity.
    + eexists true, _, O. intros fuel _.
      rewrite (bind_run _ _ s true s) by (unfold gets; rewrite Ei; reflexivity). cbv beta iota. rewrite (bind_run _ _ s (sample_time s) s) by reflexivity.
      rewrite (bind_run _ _ s false s Ec). cbv iota. unfold tof_record, bind, in_queue, zoom, q_size, gets. rewrite eta_queue. reflexivity.
  - destruct (next_before_run (cutoff_time lits) s) as [c Ec]. exists c. destruct c; eexists _, O; intros fuel _;
      (rewrite (bind_run _ _ s false s) by (unfold gets; rewrite Ei; reflexivity)); cbv beta iota; rewrite (bind_run _ _ s _ s Ec); reflexivity.
Qed.
Lemma steps_total n : forall s cs ws, run s cs ws -> few_hops lo hi (Z.of_nat (length (hopped s) + n)) ->
  exists b s' F, forall fuel, (F <= fuel)%nat -> tof_steps clk la lits holes fuel n s = Ret b s'.
Proof.
  pose proof (tv_bounds _ _ _ _ _ _ _ _ _ TV) as HB.
  induction n as [|n IH]; intros s cs ws R Fe; [exists true, s, O; reflexivity|].
  assert (En : enough s) by (apply (few_less lo hi HB _ (Z.of_nat (length (hopped s) + S n))); [lia|exact Fe]).
  destruct (step_total s cs ws R En) as (b & s1 & F1 & E1).
  pose proof (tof_step_inv _ _ _ _ _ _ _ _ (E1 F1 (le_n F1))) as Ev.
  destruct (run_event _ _ _ _ _ _ R En Ev) as (cs' & ws' & R' & Len). destruct b.
  - destruct (IH s1 _ _ R') as (b & s' & F2 & E2); [apply (few_less lo hi HB _ (Z.of_nat (length (hopped s) + S n))); [lia|exact Fe]|].
    exists b, s', (F1 + F2)%nat. intros fuel Hf. cbn [tof_steps]. rewrite (bind_run _ _ s true s1 (E1 fuel ltac:(lia))). cbv iota. apply E2. lia.
  - exists false, s1, F1. intros fuel Hf. cbn [tof_steps]. rewrite (bind_run _ _ s false s1 (E1 fuel Hf)). reflexivity.
Qed.
Lemma run_steps fuel n : forall s cs ws b s', run s cs ws -> few_hops lo hi (Z.of_nat (length (hopped s) + n)) ->
  tof_steps clk la lits holes fuel n s = Ret b s' -> exists cs' ws', run s' (cs ++ cs') ws'.
Proof.
  pose proof (tv_bounds _ _ _ _ _ _ _ _ _ TV) as HB.
  induction n as [|n IH]; intros s cs ws b s' R Fe E; cbn [tof_steps] in E; [inversion E; subst; exists [], ws; rewrite app_nil_r; exact R|].
  assert (En : enough s) by (apply (few_less lo hi HB _ (Z.of_nat (length (hopped s) + S n))); [lia|exact Fe]).
  apply bind_ret_inv in E. destruct E as (c & s1 & E1 & E). apply tof_step_inv in E1.
  destruct (run_event _ _ _ _ _ _ R En E1) as (cs1 & ws1 & R1 & Len). destruct c.
  - assert (Fe' : few_hops lo hi (Z.of_nat (length (hopped s1) + n))) by (apply (few_less lo hi HB _ (Z.of_nat (length (hopped s) + S n))); [lia|exact Fe]).
    destruct (IH _ _ _ _ _ R1 Fe' E) as (cs2 & ws2 & R2).
    exists (cs1 ++ cs2), ws2. rewrite app_assoc. exact R2.
  - inversion E; subst. eauto.
Qed.

(** ** Setting up *)
Definition fresh : @tof XR G := tof_new lits holes (world_new walkers h count tick).
Definition begun (g : @world XR G) : Prop :=
  (forall k, (in_world (sys_setRandomSeed (the_seed lits)) ;; in_world (sys_setTimeResolution (increment lits)) ;;
     in_world (sys_initializeSystem clk rates) ;; in_world (sys_initializeWalkers holes) ;; k) fresh = (k : M (@tof XR G) unit) (f_with_world g fresh)) /\
  reach_by clk (start_calls lits holes rates) g (map snd holes) /\ g_heap g = h.
Lemma begins : exists g, begun g.
Proof.
  pose proof TV as TV'. destruct TV' as [[HBt HL] (Einc & Ip & c & Ec) HO HB NDr [Mm Pc] Hs NDw [Nh Rel] St]. destruct Rel as (_ & Rel & Di).
  destruct HB as [[Hlo Hle] Hhi].
  set (g0 := world_new walkers h count tick : @world XR G).
  set (g1 := g_with_seed (Some (the_seed lits)) g0 : @world XR G).
  set (g2 := g_with_res (Some (Fin inc : @num XR)) g1 : @world XR G).
  assert (E1 : sys_setRandomSeed (the_seed lits) g0 = Ret tt g1) by reflexivity.
  assert (E2 : sys_setTimeResolution (increment lits) g1 = Ret tt g2).
  { unfold sys_setTimeResolution. rewrite Einc. replace (nleb (Fin inc : @num XR) n0) with false; [reflexivity|].
    symmetry. unfold nleb, n0; cbn. unfold xleb, xltb, xeqb, Rltb, Reqb. destruct (Rlt_dec inc 0); [lra|]. destruct (Req_EM_T inc 0); [lra|reflexivity]. }
  assert (R0 : reach_by clk [] g0 []) by (exists walkers, h, count, tick; split; [exact NDw|split; [exact Hcount|constructor]]).
  assert (R1 := reach_step clk _ _ _ _ _ _ R0 (st_seed clk _ _ _ _ E1)).
  assert (R2 := reach_step clk _ _ _ _ _ _ R1 (st_res clk _ _ _ _ E2)).
  assert (V2 := reached_inv clk _ _ _ R2).
  assert (Nk : forall k, ~ knows g2 k).
  { intros k [c' Hk]. apply cluster_of_iff in Hk. destruct Hk as (s & Es & _). discriminate. }
  destruct (init_ok clk rates g2 [] V2) as [g3 E3]; [discriminate|exact NDr|intros k r Hin; apply (Mm k r Hin)|auto|].
  assert (NDrr : forall k r, In (k, r) rates -> NoDup (ukeys r)) by (intros k r Hin; apply (Mm k r Hin)).
  assert (R3 := reach_step clk _ _ _ _ _ _ R2 (st_init clk _ _ rates _ NDr NDrr E3)).
  assert (V3 := reached_inv clk _ _ _ R3).
  destruct (init_all clk _ _ _ _ V2 NDr E3) as (Zs & _). destruct (registers clk _ _ _ _ V2 NDr E3) as (_ & B1 & _).
  assert (Eh3 : g_heap g3 = h) by apply (z_heap _ _ Zs). assert (Ew3 : g_walkers g3 = walkers) by apply (z_walkers _ _ Zs).
  assert (Fv : Forall (valid_call (g_heap g3)) ((([] ++ [KSeed (the_seed lits)]) ++ [KRes (increment lits)]) ++ [KInit rates])).
  { rewrite Eh3. cbn [app]. constructor; [exact Logic.I|]. constructor; [exists inc; exact Einc|]. constructor; [exact Mm|]. constructor. }
  assert (Fp : Forall (paced_call (g_heap g3) lo hi) ((([] ++ [KSeed (the_seed lits)]) ++ [KRes (increment lits)]) ++ [KInit rates])).
  { rewrite Eh3. cbn [app]. constructor; [exact Logic.I|]. constructor; [exact Logic.I|]. constructor; [exact Pc|]. constructor. }
  assert (L3 : living lo hi 0 g3 []).
  { apply (living_reach clk lo hi Hlo Hhi HO _ g3 [] R3 Fv Fp); [apply (fits_zero lo hi Hlo Hle)|cbn; lia]. }
  assert (Un : forall p, In p (map snd holes) -> exists k, walker_on g3 p k /\ cluster_of g3 k unassignedId).
  { intros p Hp. destruct (Rel p Hp) as (w & Ew & _). exists (w_cur w). split; [exists w; rewrite Ew3; auto|]. apply B1. left. apply (St p w Hp Ew). }
  destruct (enter_ends clk lo hi Hlo HO 0 holes g3 [] V3 L3 (gain_nonneg lo hi Hlo Hle) Nh HD) as [g4 E4]; [intros p _ []|exact Un|].
  assert (S4 : step clk g3 [] (KEnter holes) g4 (map snd holes ++ [])).
  { apply st_enter; [exact HD|intros p _ []| | | |exact E4].
    - intros p q k Hp Hq (w & Ew & Ek) (w' & Ew' & Ek'). rewrite Ew3 in Ew, Ew'. apply (Di p q w w'); try assumption. congruence.
    - intros p q k _ [].
    - intros p k Hp (w & Ew & <-). destruct (Un p Hp) as (k' & (w' & Ew' & <-) & X). assert (w' = w) by congruence. subst; exact X. }
  assert (R4 := reach_step clk _ _ _ _ _ _ R3 S4). rewrite app_nil_r in R4.
  exists g4. split; [|split; [exact R4|]].
  - intros k. rewrite (bind_run _ _ fresh tt (f_with_world g1 fresh)) by (apply in_world_run; exact E1).
    rewrite (bind_run _ _ _ tt (f_with_world g2 fresh)) by (apply (in_world_run _ (f_with_world g1 fresh)); exact E2).
    rewrite (bind_run _ _ _ tt (f_with_world g3 fresh)) by (apply (in_world_run _ (f_with_world g2 fresh)); exact E3).
    rewrite (bind_run _ _ _ tt (f_with_world g4 fresh)) by (apply (in_world_run _ (f_with_world g3 fresh)); exact E4). reflexivity.
  - destruct (step_settings clk _ _ _ _ _ V3 S4) as ([X|X] & _); [discriminate|congruence].
Qed.
Lemma fill_run l : forall s : @tof XR G, (forall i, In i l -> exists p w, is_hole holes i p /\ ulookup p (g_walkers (f_world s)) = Some w) ->
  exists s', mfor l (fun i => p <- lift (hole_at holes i) ;; d <- in_world (in_walker p w_getDwellTime) ;; in_queue (q_add (i, d))) s = Ret tt s'.
Proof.
  induction l as [|i l IH]; intros s Hl; [exists s; reflexivity|]. destruct (Hl i (or_introl eq_refl)) as (p & w & Hp & Ew). cbn [mfor].
  destruct (IH (f_with_queue (mkQueue (q_list (f_queue s) ++ [(i, w_dwell w)]) false) s)) as [s' Es]; [intros j Hj; apply Hl; right; exact Hj|].
  exists s'. erewrite (bind_run _ _ s tt); [exact Es|].
  rewrite (bind_run _ _ s p s) by (unfold lift; rewrite (proj2 (hole_at_ok holes _ _) Hp); reflexivity).
  rewrite (bind_run _ _ s (w_dwell w) s) by (erewrite in_world_run by (apply getDwell_run; exact Ew); rewrite eta_world; reflexivity). reflexivity.
Qed.
Definition too_late (g : @world XR G) : Prop :=
  reach_by clk (start_calls lits holes rates) g (map snd holes) /\
  forall p, In p (map snd holes) -> exists w d c, ulookup p (g_walkers g) = Some w /\ w_dwell w = Fin d /\ cutoff_time lits = Fin c /\ c <= d.
Lemma setup_total : (exists s, tof_setup clk lits holes rates fresh = Ret tt s) \/
  tof_setup clk lits holes rates fresh = Halt AssertFailed /\ exists g, too_late g.
Proof.
  destruct begins as (g & Run & R & Eh). unfold tof_setup. rewrite Run. set (s0 := f_with_world g fresh).
  assert (V : valid_reach clk lo hi (start_calls lits holes rates) g (map snd holes)).
  { split; [exact R|]. rewrite Eh. destruct (tv_rates _ _ _ _ _ _ _ _ _ TV) as [M P]. destruct (tv_lits _ _ _ _ _ _ _ _ _ TV) as (Ei & _). split.
    - constructor; [exact Logic.I|]. constructor; [exists inc; exact Ei|]. constructor; [exact M|]. constructor; [exact Logic.I|constructor].
    - constructor; [exact Logic.I|]. constructor; [exact Logic.I|]. constructor; [exact P|]. constructor; [exact Logic.I|constructor]. }
  pose proof (tv_bounds _ _ _ _ _ _ _ _ _ TV) as HB.
  assert (F0 : few_hops lo hi (hops (start_calls lits holes rates))).
  { change (hops (start_calls lits holes rates)) with 0%Z. split; [|lia]. lra. }
  assert (Tm : forall p, In p (map snd holes) -> exists w d, ulookup p (g_walkers g) = Some w /\ w_dwell w = Fin d /\ 0 < d).
  { intros p Hp. destruct (valid_timed clk lo hi (tv_draws _ _ _ _ _ _ _ _ _ TV) HB _ _ _ p V F0 Hp) as (w & d & Ew & Ed & Hd).
    unfold w_getDwellTime, gets in Ed. inversion Ed. eauto. }
  unfold fill_queue. destruct (fill_run (zrange 0 (Z.of_nat (length holes) - 1)) s0) as [s1 E1].
  { intros i Hi. apply zrange_In in Hi. destruct (hole_in_range holes i) as [p Hp]; [lia|]. exists p. destruct (Tm p (is_hole_in _ _ _ Hp)) as (w & d & Ew & _). eauto. }
  destruct (fill_each _ _ _ _ E1) as (es & S1 & L1 & M1 & F1 & I1). cbn [f_queue s0 f_with_world fresh tof_new q_init q_list app f_world] in L1, I1.
  assert (Nr : zrange 0 (Z.of_nat (length holes) - 1) <> []).
  { pose proof (proj1 (tv_holes _ _ _ _ _ _ _ _ _ TV)) as Nh. destruct holes as [|x hs] eqn:Eh'; [congruence|]. intros X.
    assert (Y : In 0%Z (zrange 0 (Z.of_nat (length (x :: hs)) - 1))) by (apply zrange_In; cbn [length]; lia). rewrite X in Y. destruct Y. }
  assert (Fi : forall e, In e es -> exists p d, is_hole holes (fst e) p /\ snd e = Fin d /\ In p (map snd holes)).
  { intros e He. destruct (I1 e He) as (p & w & Hp & Ew & Ed). destruct (Tm p (is_hole_in _ _ _ Hp)) as (w' & d & Ew' & Ed' & _). exists p, d.
    split; [exact Hp|]. split; [congruence|eapply is_hole_in; eauto]. }
  assert (E2 : q_sort (f_queue s1) = Ret tt (mkQueue (psort entry time_lt es) true)).
  { unfold q_sort. rewrite (F1 Nr), L1. replace (forallb _ es) with true; [rewrite orb_true_r; reflexivity|]. symmetry. apply forallb_forall.
    intros e He. destruct (Fi e He) as (p & d & _ & Ee & _). rewrite Ee. unfold comparable; cbn. unfold xeqb, Reqb. destruct (Req_EM_T d d); [reflexivity|lra]. }
  rewrite (bind_run _ _ s0 tt s1 E1). set (s2 := f_with_queue (mkQueue (psort entry time_lt es) true) s1).
  rewrite (bind_run _ _ s1 tt s2) by (unfold in_queue, zoom; rewrite E2; reflexivity).
  pose proof (psort_perm entry time_lt es) as Prm.
  assert (So : no_inv time_lt (psort entry time_lt es)).
  { destruct (@sort_spec _ XR XR_ord _ _ _ E2) as (_ & _ & Qi). apply Qi; [|reflexivity]. intros X. rewrite (F1 Nr) in X. discriminate. }
  destruct (psort entry time_lt es) as [|e l] eqn:Ep.
  { exfalso. apply Permutation_nil in Prm. apply Nr. rewrite <- M1, Prm. reflexivity. }
  rewrite (bind_run _ _ s2 e s2) by reflexivity. unfold cassert. destruct (tv_lits _ _ _ _ _ _ _ _ _ TV) as (_ & _ & c & Ec).
  destruct (nltb (snd e) (cutoff_time lits)) eqn:Lt; [left; exists s2; reflexivity|]. right. split; [reflexivity|].
  exists g. split; [exact R|]. intros p Hp. destruct (Tm p Hp) as (w & d & Ew & Ed & _). exists w, d, c. split; [exact Ew|]. split; [exact Ed|]. split; [exact Ec|].
  destruct (in_is_hole holes p Hp) as [i Hi]. assert (Hin : In i (map fst es)).
  { rewrite M1. apply zrange_In. apply is_hole_range in Hi. lia. }
  apply in_map_iff in Hin. destruct Hin as (y & <- & Hy). destruct (I1 y Hy) as (p' & w' & Hp' & Ew' & Ed').
  assert (p' = p) by (eapply is_hole_fun; eauto). subst p'. assert (w' = w) by congruence. subst w'.
  destruct (Fi e (Permutation_in e Prm (or_introl eq_refl))) as (_ & t & _ & Et & _). rewrite Et, Ec in Lt. apply ltb_fin_not in Lt.
  apply (Permutation_in y (Permutation_sym Prm)) in Hy. destruct So as [Sm _]. rewrite Forall_forall in Sm. destruct Hy as [->|Hy].
  - assert (t = d) by congruence. lra.
  - specialize (Sm y Hy). unfold time_lt in Sm. rewrite Et, <- Ed', Ed in Sm. apply ltb_fin_not in Sm. lra.
Qed.
Lemma mutual_maps : map_of_maps rates.
Proof. split; [apply (tv_keys _ _ _ _ _ _ _ _ _ TV)|]. intros k r Hin. apply (proj1 (tv_rates _ _ _ _ _ _ _ _ _ TV) k r Hin). Qed.
Lemma run_setup s : tof_setup clk lits holes rates fresh = Ret tt s -> run s [] (map snd holes) /\ hopped s = [].
Proof.
  intros E. destruct (tv_built _ _ _ _ _ _ _ _ _ TV) as [_ HL]. pose proof (proj2 (tv_holes _ _ _ _ _ _ _ _ _ TV)) as Rel.
  destruct (tof_setup_inv clk la lits holes HD rates walkers h count tick s (tv_walkers _ _ _ _ _ _ _ _ _ TV) Hcount mutual_maps Rel HL E)
    as (B & _ & So & _ & Es & Eho & Ei & Et & _ & _ & Qe). specialize (So XR_ord).
  assert (Eh : g_heap (f_world s) = h).
  { destruct begins as (g & Run & _ & Eh). unfold tof_setup in E. rewrite Run in E. unfold fill_queue in E.
    apply bind_ret_inv in E. destruct E as ([] & s1 & E1 & E). destruct (fill_each _ _ _ _ E1) as (es & S1 & _).
    apply bind_ret_inv in E. destruct E as ([] & s2 & E2 & E). apply in_queue_ret in E2. destruct E2 as (q2 & _ & ->).
    apply bind_ret_inv in E. destruct E as (e & s3 & E3 & E). apply in_queue_ret in E3. destruct E3 as (q3 & _ & ->).
    apply assert_ret in E. destruct E as [_ ->]. rewrite S1. exact Eh. }
  assert (F0 : few_hops lo hi (hops (start_calls lits holes rates ++ []))).
  { change (hops _) with 0%Z. pose proof (tv_bounds _ _ _ _ _ _ _ _ _ TV). split; [|lia]. lra. }
  assert (Q : forall e, In e (q_list (f_queue s)) -> exists d, snd e = Fin d /\ 0 < d).
  { intros e He. destruct (Qe e He) as (p & w & Hp & Ew & Ed).
    destruct (valid_timed clk lo hi (tv_draws _ _ _ _ _ _ _ _ _ TV) (tv_bounds _ _ _ _ _ _ _ _ _ TV) _ _ _ p (book_valid _ _ _ B Eh) F0 (is_hole_in _ _ _ Hp)) as (w' & d & Ew' & Ed' & Hd).
    unfold w_getDwellTime, gets in Ed'. inversion Ed'. assert (w' = w) by congruence. subst w'. exists d. split; [congruence|exact Hd]. }
  assert (Z0 : samples s = 0) by (unfold samples; rewrite Et; reflexivity).
  split; [|exact Eho]. constructor; auto.
  - intros e He. destruct (Q e He) as (d & Ed & Hd). exists d. split; [exact Ed|]. rewrite Z0. lra.
  - exists []. rewrite Eho. split; [reflexivity|]. split; [exact Logic.I|]. split; [intros ? []|intros ? ? ? _ _ []].
  - intros e t He Ed. destruct (Q e He) as (d & Ed' & Hd). rewrite Ed in Ed'. inversion Ed'. subst. exact Hd.
  - rewrite Es, Z0. destruct (tv_lits _ _ _ _ _ _ _ _ _ TV) as (-> & _). f_equal. lra.
  - intros k v Ek. pose proof (b_len _ _ _ _ _ _ _ _ B) as Bl. rewrite Et in Bl. destruct (charges_left s); [destruct k; discriminate|discriminate].
Qed.

(** ** The whole program *)
Theorem main_total n : few_hops lo hi (Z.of_nat n) ->
  (exists b s F, forall fuel, (F <= fuel)%nat -> tof_main clk la lits holes fuel rates n (world_new walkers h count tick) = Ret b s) \/
  (forall fuel, tof_main clk la lits holes fuel rates n (world_new walkers h count tick) = Halt AssertFailed) /\ exists g, too_late g.
Proof.
  intros Fe. unfold tof_main. fold fresh. destruct setup_total as [[s E]|[E L]].
  - left. destruct (run_setup s E) as [R Eh]. destruct (steps_total n s _ _ R) as (b & s' & F & Es); [rewrite Eh; exact Fe|].
    exists b, s', F. intros fuel Hf. rewrite (bind_run _ _ fresh tt s E). apply Es, Hf.
  - right. split; [|exact L]. intros fuel. unfold bind. rewrite E. reflexivity.
Qed.
Theorem main_run fuel n b s : few_hops lo hi (Z.of_nat n) ->
  tof_main clk la lits holes fuel rates n (world_new walkers h count tick) = Ret b s -> exists cs ws, run s cs ws.
Proof.
  intros Fe E. unfold tof_main in E. fold fresh in E. apply bind_ret_inv in E. destruct E as ([] & s0 & E0 & E).
  destruct (run_setup s0 E0) as [R Eh]. destruct (run_steps _ _ _ _ _ _ _ R ltac:(rewrite Eh; exact Fe) E) as (cs & ws & R'). eauto.
Qed.
End Valid.
