(** * The basin search over exact arithmetic *)
From Coq Require Import ZArith List Bool Reals Lra Lia Permutation Relations.
From Verif Require Import Base BaseProofs Num OrdLaws RSum SiteModel SiteSpec SiteProofs ClusterModel ClusterTables
  ContainerModel ContainerSpec ContainerProofs BasinModel BasinSpec.
Import ListNotations.
Open Scope R_scope.
Notation xn := (@num XR).

(** ** Running maxima *)
Lemma max_fold {A} (v : A -> xn) (l : list A) : forall a, (forall x, In x l -> exists r, v x = Fin r) ->
  exists b, fold_left (fun m x => if @nltb XR m (v x) then v x else m) l (Fin a) = Fin b /\ a <= b /\
    (forall x r, In x l -> v x = Fin r -> r <= b) /\ (b = a \/ exists x, In x l /\ v x = Fin b).
Proof.
  induction l as [|x l IH]; intros a Hv; cbn [fold_left].
  - exists a. split; [reflexivity|]. split; [lra|]. split; [intros x r []|left; reflexivity].
  - destruct (Hv x (or_introl eq_refl)) as [r Hr]. rewrite Hr.
    assert (Hv' : forall y, In y l -> exists r, v y = Fin r) by (intros y Hy; apply Hv; right; exact Hy).
    change (@nltb XR (Fin a) (Fin r)) with (Rltb a r).
    destruct (Rltb a r) eqn:E.
    + apply Rltb_true in E. destruct (IH r Hv') as (b & Hb & Hab & Hle & Hin).
      exists b. split; [exact Hb|]. split; [lra|]. split.
      * intros y ry [<-|Hy] Ey; [|exact (Hle y ry Hy Ey)]. rewrite Hr in Ey. injection Ey as <-. exact Hab.
      * right. destruct Hin as [->|(y & Hy & Ey)]; [exists x; split; [left; reflexivity|exact Hr]|exists y; split; [right; exact Hy|exact Ey]].
    + apply Rltb_false in E. destruct (IH a Hv') as (b & Hb & Hab & Hle & Hin).
      exists b. split; [exact Hb|]. split; [exact Hab|]. split.
      * intros y ry [<-|Hy] Ey; [|exact (Hle y ry Hy Ey)]. rewrite Hr in Ey. injection Ey as <-. lra.
      * destruct Hin as [->|(y & Hy & Ey)]; [left; reflexivity|right; exists y; split; [right; exact Hy|exact Ey]].
Qed.

Lemma max_fold2 {A B} (g : A -> list B) (v : B -> xn) (l : list A) a :
  fold_left (fun m x => fold_left (fun m y => if @nltb XR m (v y) then v y else m) (g x) m) l a =
  fold_left (fun m y => if @nltb XR m (v y) then v y else m) (flat_map g l) a.
Proof.
  revert a. induction l as [|x l IH]; intros a; cbn [fold_left flat_map]; [reflexivity|].
  rewrite fold_left_app. apply IH.
Qed.

(** ** Pairs in order *)
Fixpoint before (l : list Z) : list (Z * Z) :=
  match l with [] => [] | x :: r => map (pair x) r ++ before r end.
Lemma before_snoc l v a b : In (a, b) (before (l ++ [v])) <-> In (a, b) (before l) \/ (In a l /\ b = v).
Proof.
  induction l as [|x l IH]; cbn [before app map].
  - simpl. tauto.
  - rewrite !in_app_iff, IH, !in_map_iff. split.
    + intros [(y & E & Hy)|[X|X]].
      * injection E as <- <-. apply in_app_iff in Hy. destruct Hy as [Hy|[<-|[]]].
        { left. left. exists y. auto. }
        { right. split; [left; reflexivity|reflexivity]. }
      * left. right. exact X.
      * right. destruct X as [X ->]. split; [right; exact X|reflexivity].
    + intros [[(y & E & Hy)|X]|[[<-|X] ->]].
      * injection E as <- <-. left. exists y. split; [reflexivity|]. apply in_app_iff. auto.
      * auto.
      * left. exists v. split; [reflexivity|]. apply in_app_iff. simpl. auto.
      * auto.
Qed.
Lemma before_In l a b : In (a, b) (before l) -> In a l /\ In b l.
Proof.
  induction l as [|x l IH]; cbn [before]; [intros []|].
  rewrite in_app_iff, in_map_iff. intros [(y & E & Hy)|X].
  - injection E as <- <-. split; [left; reflexivity|right; exact Hy].
  - apply IH in X. simpl. tauto.
Qed.
Lemma before_length l : length (before l) = (length l * (length l - 1) / 2)%nat.
Proof.
  assert (E : (2 * length (before l) = length l * (length l - 1))%nat).
  { induction l as [|x l IH]; [reflexivity|]. cbn [before length]. rewrite app_length, map_length.
    destruct (length l) as [|n]; [simpl in *; lia|]. nia. }
  apply Nat.div_unique_exact; lia.
Qed.

Lemma pow_antitone n m : (n <= m)%nat -> (9999 / 10000) ^ m <= (9999 / 10000) ^ n.
Proof.
  intros Hle. replace m with (n + (m - n))%nat by lia. rewrite pow_add.
  assert (0 < (9999 / 10000) ^ n) by (apply pow_lt; lra).
  assert ((9999 / 10000) ^ (m - n) <= 1).
  { induction (m - n)%nat as [|d IH]; simpl; [lra|]. assert (0 < (9999 / 10000) ^ d) by (apply pow_lt; lra). lra. }
  nra.
Qed.

Lemma rt_mono {A} (P Q : A -> A -> Prop) x y : (forall a b, P a b -> Q a b) -> clos_refl_trans A P x y -> clos_refl_trans A Q x y.
Proof. intros Hpq X; induction X; [apply rt_step; auto|apply rt_refl|eapply rt_trans; eauto]. Qed.

Section B.
Context {I : Impl} {G : @Rng XR} {U : @Ugly XR}.
Variables (h : @heap XR) (sites : umap (@site XR G)).
Hypothesis Hg : good_sites h sites.

Lemma nd_sites : NoDup (ukeys sites). Proof. exact (proj1 Hg). Qed.
Lemma rate_pos i j r : rate_between h sites i j r -> 0 < r.
Proof.
  intros (s & a & Hs & Ha & E). destruct (proj2 Hg i s Hs) as [_ Hp]. destruct (Hp j a Ha) as (r' & E' & P).
  rewrite E in E'. injection E' as ->. exact P.
Qed.

Lemma rates_of_get v : uget [] v (rates_of sites) = match ulookup v sites with Some s => s_neigh s | None => [] end.
Proof.
  destruct (content_holds (@s_neigh XR G) sites (fun k => ulookup k sites) (conj nd_sites (fun k => eq_refl))) as [_ Hl].
  unfold uget, rates_of. rewrite Hl. destruct (ulookup v sites); reflexivity.
Qed.
Lemma edges_In v e : In e (edges_of h sites v) -> e_src e = v /\ exists r, rate_between h sites v (e_dst e) r.
Proof.
  unfold edges_of. rewrite rates_of_get. intros He. apply in_map_iff in He. destruct He as ([n a] & <- & Hn).
  cbn [fst snd]. split; [reflexivity|]. destruct (ulookup v sites) as [s|] eqn:E; [|destruct Hn].
  apply ulookup_In in E. destruct (proj2 Hg v s E) as [_ Hp]. destruct (Hp n a Hn) as (r & Er & _).
  exists r. exists s, a. auto.
Qed.
Lemma edges_all v j r : rate_between h sites v j r -> exists e, In e (edges_of h sites v) /\ e_src e = v /\ e_dst e = j.
Proof.
  intros (s & a & Hs & Ha & E). exists (v, j, h a). split; [|split; reflexivity].
  unfold edges_of. rewrite rates_of_get, (In_ulookup v s sites nd_sites Hs). apply in_map_iff. exists (j, a). auto.
Qed.

Lemma fastest_site k s : In (k, s) sites ->
  exists r, s_getFastestRate h s = Fin r /\ top (fun x => exists j, rate_between h sites k j x) r /\ 0 <= r /\
    (forall j x, rate_between h sites k j x -> x <= r).
Proof.
  intros Hs. destruct (proj2 Hg k s Hs) as [Hnd Hp].
  destruct (max_fold (fun e : Z * Z => h (snd e)) (s_neigh s) 0) as (b & Hb & H0 & Hle & Hin).
  { intros [n a] Hx. destruct (Hp n a Hx) as (r & E & _). exists r. exact E. }
  assert (Same : forall s' , In (k, s') sites -> s' = s).
  { intros s' Hs'. apply (In_ulookup _ _ _ nd_sites) in Hs, Hs'. congruence. }
  exists b. split; [exact Hb|].
  assert (Hall : forall j x, rate_between h sites k j x -> x <= b).
  { intros j x (s' & a & Hs' & Ha & E). rewrite (Same s' Hs') in Ha. exact (Hle (j, a) x Ha E). }
  split; [|split; [exact H0|exact Hall]].
  destruct Hin as [->|([n a] & Hx & E)].
  - left. split; [reflexivity|]. intros x (j & Hj). pose proof (rate_pos _ _ _ Hj). pose proof (Hall _ _ Hj). lra.
  - right. split; [exists n, s, a; auto|]. intros x (j & Hj). eauto.
Qed.

(** ** The acceptance test *)
Lemma fast_enough_val thr q (f sl c r : R) : q_fast q = Fin f -> q_slow q = Fin sl -> q_cur q = Fin c ->
  0 < r -> r <= f -> r <= c -> 0 <= thr ->
  @fast_enough XR (Fin thr) q (Fin r) = Rleb (sl * (9999 / 10000)) r.
Proof.
  intros Ef Es Ec Hr Hf Hc Ht. unfold fast_enough. rewrite Ef, Es, Ec.
  assert (E1 : @ndiv XR (Fin r) (Fin f) = Fin (r / f)) by (apply xdiv_Fin; lra).
  assert (E2 : @ndiv XR (@nsub XR (Fin r) (Fin c)) (Fin c) = Fin ((r - c) / c)) by (apply (xdiv_Fin (r - c) c); lra).
  rewrite E1, E2.
  change (@nmul XR (Fin (r / f)) (Fin ((r - c) / c))) with (Fin (r / f * ((r - c) / c))).
  assert (P1 : 0 <= r / f) by (apply Rmult_le_pos; [lra|apply Rlt_le, Rinv_0_lt_compat; lra]).
  assert (P2 : (r - c) / c <= 0).
  { unfold Rdiv. assert (0 < / c) by (apply Rinv_0_lt_compat; lra). nra. }
  assert (P3 : Rltb thr (r / f * ((r - c) / c)) = false) by (apply Rltb_false; nra).
  change (@nltb XR (Fin thr) (Fin (r / f * ((r - c) / c)))) with (Rltb thr (r / f * ((r - c) / c))).
  rewrite P3. cbn [orb].
  change (orb (Rltb (sl * (9999 / 10000)) r) (Reqb (sl * (9999 / 10000)) r) = Rleb (sl * (9999 / 10000)) r).
  unfold Rltb, Reqb, Rleb. destruct (Rlt_dec _ _), (Req_EM_T _ _), (Rle_dec _ _); try reflexivity; lra.
Qed.

(** ** The search *)
Variables (k : Z) (ref : R).

Record inv (q : @search XR) (A : list (Z * Z)) (todo : list (@edge XR)) : Prop := mkInv {
  i_seen : NoDup (q_seen q);
  i_start : In k (q_seen q);
  i_fast : exists f, q_fast q = Fin f /\ 0 <= f;
  i_slow : exists sl, q_slow q = Fin sl /\ (9999 / 10000) ^ length A * ref <= sl <= ref /\
    reached h sites (q_seen q) sl k /\
    forall e, In e (q_front q) -> exists r, rate_between h sites (e_src e) (e_dst e) r /\ sl <= r;
  i_front : forall e, In e (q_front q) -> In (e_src e) (q_seen q) /\ ~ In (e_dst e) (q_seen q);
  i_nd : NoDup A;
  i_rate : forall a b, In (a, b) A -> In a (q_seen q) /\ exists r, rate_between h sites a b r;
  i_acc : forall a b, In (a, b) A -> In (a, b) (before (q_seen q)) \/
    (In a (q_seen q) /\ ~ In b (q_seen q) /\ exists e, In e (q_front q) /\ e_src e = a /\ e_dst e = b);
  i_closed : forall i j r, In i (q_seen q) -> rate_between h sites i j r ->
    In j (q_seen q) \/ (exists e, In e (q_front q) /\ e_dst e = j) \/ r < 9999 / 10000 * ref \/
    (exists e, In e todo /\ e_src e = i /\ e_dst e = j)
}.

Lemma existsb_Zeqb x l : existsb (Z.eqb x) l = true <-> In x l.
Proof.
  rewrite existsb_exists. split; [intros (y & Hy & E); apply Z.eqb_eq in E; congruence|].
  intros Hx. exists x. split; [exact Hx|apply Z.eqb_refl].
Qed.

Lemma add_edge_inv v e l q A : inv q A (e :: l) -> In e (edges_of h sites v) -> In v (q_seen q) -> 0 <= ref ->
  exists q' A', (forall t, 0 <= t -> add_edge h sites (Fin t) v e q = Ok q') /\ inv q' A' l /\ q_seen q' = q_seen q.
Proof.
  intros Iq He Hv Href. destruct (edges_In v e He) as [Es (r & Hr)].
  destruct (can_add q e) eqn:Ec.
  2: { exists q, A. split; [intros t _; unfold add_edge; rewrite Ec; reflexivity|]. split; [|reflexivity].
       destruct Iq as [a1 a2 a3 a4 a5 a6 aR a7 a8]. split; auto.
       intros i j x Hi Hx. destruct (a8 i j x Hi Hx) as [X|[X|[X|(e' & [<-|X] & E1 & E2)]]]; auto.
       - unfold can_add in Ec. rewrite !andb_false_iff, !negb_false_iff in Ec.
         destruct Ec as [[Ec|Ec]|Ec].
         + exfalso. rewrite Es in Ec. apply existsb_Zeqb in Hv. congruence.
         + left. apply existsb_Zeqb in Ec. congruence.
         + right. left. apply existsb_exists in Ec. destruct Ec as (e' & He' & E').
           apply andb_true_iff in E'. destruct E' as [_ E']. apply Z.eqb_eq in E'. exists e'. split; [exact He'|congruence].
       - right. right. right. exists e'. auto. }
  assert (Ec2 := Ec). unfold can_add in Ec2. rewrite !andb_true_iff, !negb_true_iff in Ec2.
  destruct Ec2 as [[_ Ed] Ef].
  assert (Hd : ~ In (e_dst e) (q_seen q)) by (intros X; apply existsb_Zeqb in X; congruence).
  assert (Hf : forall e', In e' (q_front q) -> e_src e' = v -> e_dst e' = e_dst e -> False).
  { intros e' He' E1 E2. rewrite <- not_true_iff_false in Ef. apply Ef. apply existsb_exists. exists e'.
    split; [exact He'|]. rewrite E1, E2, Es, !Z.eqb_refl. reflexivity. }
  pose proof (rate_pos _ _ _ Hr) as Pr.
  destruct Hr as (s & a & Hs & Ha & Er).
  assert (Hr : rate_between h sites v (e_dst e) r) by (exists s, a; auto).
  destruct (fastest_site v s Hs) as (c & Ecur & _ & _ & Hc).
  pose proof (Hc _ _ Hr) as Hrc.
  destruct (i_fast _ _ _ Iq) as (f & Efast & Hf0).
  destruct (i_slow _ _ _ Iq) as (sl & Eslow & Hsl & Hreach & Hfront).
  pose (f' := if Rltb f r then r else f).
  assert (Hf' : r <= f' /\ 0 <= f').
  { unfold f'. destruct (Rltb f r) eqn:E; [lra|]. apply Rltb_false in E. lra. }
  pose (q1 := mkSearch (Fin f' : xn) (Fin sl : xn) (Fin c : xn) (q_seen q) (q_front q)).
  pose (sl' := if Rltb r sl then r else sl).
  pose (q2 := mkSearch (Fin f' : xn) (Fin sl' : xn) (Fin c : xn) (q_seen q) (q_front q ++ [e])).
  assert (Run : forall t, 0 <= t -> add_edge h sites (Fin t) v e q = Ok (if Rleb (sl * (9999 / 10000)) r then q2 else q1)).
  { intros t Ht. unfold add_edge. rewrite Ec. rewrite Es, Z.eqb_refl.
    assert (R1 : ask (sc_getRateTo h v (e_dst e)) sites = Ok (Fin r : xn)).
    { unfold ask, sc_getRateTo, read_key. rewrite (In_ulookup v s sites nd_sites Hs).
      unfold s_getRateTo. rewrite (In_ulookup _ a _ (proj1 (proj2 Hg v s Hs)) Ha), Er. reflexivity. }
    assert (R2 : ask (sc_getFastest h v) sites = Ok (Fin c : xn)).
    { unfold ask, sc_getFastest, read_key. rewrite (In_ulookup v s sites nd_sites Hs), Ecur. reflexivity. }
    rewrite R1. cbn [rbind]. rewrite R2. cbn [rbind]. cbv zeta. rewrite Efast, Eslow.
    change (@nltb XR (Fin f) (Fin r)) with (Rltb f r).
    replace (match Rltb f r return xn with true => Fin r | false => Fin f end) with (Fin f' : xn) by (unfold f'; destruct (Rltb f r); reflexivity).
    fold q1.
    rewrite (fast_enough_val t q1 f' sl c r eq_refl eq_refl eq_refl Pr (proj1 Hf') Hrc Ht).
    destruct (Rleb (sl * (9999 / 10000)) r); [|reflexivity].
    change (@nltb XR (Fin r) (Fin sl)) with (Rltb r sl).
    replace (match Rltb r sl return xn with true => Fin r | false => Fin sl end) with (Fin sl' : xn) by (unfold sl'; destruct (Rltb r sl); reflexivity).
    reflexivity. }
  destruct (Rleb (sl * (9999 / 10000)) r) eqn:Eacc.
  - apply Rleb_true in Eacc. exists q2, ((v, e_dst e) :: A). split; [exact Run|]. split; [|reflexivity].
    assert (Hsl' : sl' <= sl /\ sl' <= r /\ 9999 / 10000 * sl <= sl' \/ sl < 0).
    { destruct (Rlt_dec sl 0); [right; assumption|left]. unfold sl'. destruct (Rltb r sl) eqn:E; [apply Rltb_true in E|apply Rltb_false in E]; lra. }
    assert (Psl : 0 <= sl).
    { assert (0 <= (9999 / 10000) ^ length A) by (apply pow_le; lra). nra. }
    destruct Hsl' as [(Hs1 & Hs2 & Hs3)|X]; [|lra].
    destruct Iq as [a1 a2 a3 a4 a5 a6 aR a7 a8]. split; cbn [q2 q_seen q_front q_fast q_slow]; auto.
    + exists f'. split; [reflexivity|lra].
    + exists sl'. split; [reflexivity|]. split; [cbn [length pow]; split; [nra|lra]|]. split.
      * intros j Hj. apply (rt_mono (fast_hop h sites (q_seen q) sl)); [|exact (Hreach j Hj)].
        intros x y (X & Y & rr & Z1 & Z2). split; [exact X|]. split; [exact Y|]. exists rr. split; [exact Z1|lra].
      * intros e' He'. apply in_app_iff in He'. destruct He' as [He'|[<-|[]]].
        { destruct (Hfront e' He') as (rr & Z1 & Z2). exists rr. split; [exact Z1|lra]. }
        { exists r. rewrite Es. split; [exact Hr|lra]. }
    + intros e' He'. apply in_app_iff in He'. destruct He' as [He'|[<-|[]]]; [exact (a5 e' He')|].
      rewrite Es. auto.
    + constructor; [|exact a6]. intros X. destruct (a7 _ _ X) as [Y|(Y1 & Y2 & e' & Y3 & Y4 & Y5)].
      * apply before_In in Y. tauto.
      * exact (Hf e' Y3 Y4 Y5).
    + intros x y [E|X]; [injection E as <- <-; eauto|exact (aR x y X)].
    + intros x y [E|X].
      * injection E as <- <-. right. split; [exact Hv|]. split; [exact Hd|]. exists e. split; [apply in_app_iff; simpl; auto|auto].
      * destruct (a7 _ _ X) as [Y|(Y1 & Y2 & e' & Y3 & Y4 & Y5)]; [left; exact Y|right].
        split; [exact Y1|]. split; [exact Y2|]. exists e'. split; [apply in_app_iff; auto|auto].
    + intros i j x Hi Hx. destruct (a8 i j x Hi Hx) as [X|[(e' & X & Y)|[X|(e' & [<-|X] & E1 & E2)]]]; auto.
      * right. left. exists e'. split; [apply in_app_iff; auto|exact Y].
      * right. left. exists e. split; [apply in_app_iff; simpl; auto|exact E2].
      * right. right. right. exists e'. auto.
  - apply Rleb_false in Eacc. exists q1, A. split; [exact Run|]. split; [|reflexivity].
    destruct Iq as [a1 a2 a3 a4 a5 a6 aR a7 a8]. split; cbn [q1 q_seen q_front q_fast q_slow]; auto.
    + exists f'. split; [reflexivity|lra].
    + exists sl. split; [reflexivity|]. auto.
    + intros i j x Hi Hx. destruct (a8 i j x Hi Hx) as [X|[X|[X|(e' & [<-|X] & E1 & E2)]]]; auto.
      * right. right. left. rewrite Es in E1. subst i j.
        destruct Hx as (s' & a' & Hs' & Ha' & Ex).
        assert (s' = s) by (apply (In_ulookup _ _ _ nd_sites) in Hs, Hs'; congruence). subst s'.
        apply (In_ulookup _ _ _ (proj1 (proj2 Hg v s Hs))) in Ha, Ha'. assert (a' = a) by congruence. subst a'.
        assert (Fin x = Fin r) by congruence. assert (x = r) by congruence. subst x. lra.
      * right. right. right. exists e'. auto.
Qed.

Lemma add_edges_inv v l : forall q A, inv q A l -> (forall e, In e l -> In e (edges_of h sites v)) -> In v (q_seen q) -> 0 <= ref ->
  exists q' A', (forall t, 0 <= t -> add_edges h sites (Fin t) v l q = Ok q') /\ inv q' A' [] /\ q_seen q' = q_seen q.
Proof.
  induction l as [|e l IH]; intros q A Iq Hl Hv Href.
  - exists q, A. split; [intros t _; reflexivity|]. auto.
  - destruct (add_edge_inv v e l q A Iq (Hl e (or_introl eq_refl)) Hv Href) as (q1 & A1 & R1 & I1 & S1).
    destruct (IH q1 A1 I1) as (q2 & A2 & R2 & I2 & S2).
    + intros e' He'. apply Hl. right; exact He'.
    + rewrite S1. exact Hv.
    + exact Href.
    + exists q2, A2. split; [|split; [exact I2|congruence]].
      intros t Ht. cbn [add_edges]. rewrite (R1 t Ht). cbn [rbind]. exact (R2 t Ht).
Qed.

Lemma explore_inv q A e : inv q A [] -> In e (q_front q) ->
  inv (explore q (e_dst e)) A (edges_of h sites (e_dst e)).
Proof.
  intros Iq He. set (v := e_dst e).
  destruct (i_slow _ _ _ Iq) as (sl & Eslow & Hsl & Hreach & Hfront).
  destruct (i_front _ _ _ Iq e He) as [Hsrc Hdst]. fold v in Hdst.
  destruct Iq as [a1 a2 a3 a4 a5 a6 aR a7 a8].
  assert (Keep : forall e', In e' (q_front q) -> e_dst e' <> v -> In e' (q_front (explore q v))).
  { intros e' He' Hn. apply filter_In. split; [exact He'|]. apply negb_true_iff, Z.eqb_neq. exact Hn. }
  split; cbn [explore q_seen q_front q_fast q_slow].
  - apply NoDup_app_intro_k; auto; [constructor; [intros []|constructor]|]. intros x X [<-|[]]. tauto.
  - apply in_app_iff. auto.
  - exact a3.
  - exists sl. split; [exact Eslow|]. split; [exact Hsl|].
    assert (Mono : forall x y, clos_refl_trans Z (fast_hop h sites (q_seen q) sl) x y -> clos_refl_trans Z (fast_hop h sites (q_seen q ++ [v]) sl) x y).
    { intros x y. apply rt_mono. intros p p' (X & Y & Z1). split; [apply in_app_iff; auto|]. split; [apply in_app_iff; auto|exact Z1]. }
    split.
    + intros j Hj. apply in_app_iff in Hj. destruct Hj as [Hj|[<-|[]]]; [apply Mono, Hreach, Hj|].
      eapply rt_trans; [apply Mono, (Hreach _ Hsrc)|]. apply rt_step. split; [apply in_app_iff; auto|].
      split; [apply in_app_iff; simpl; auto|]. exact (Hfront e He).
    + intros e' He'. apply filter_In in He'. apply Hfront, He'.
  - intros e' He'. apply filter_In in He'. destruct He' as [He' Hn]. apply negb_true_iff, Z.eqb_neq in Hn.
    destruct (a5 e' He') as [X Y]. split; [apply in_app_iff; auto|].
    rewrite in_app_iff. intros [Z1|[Z1|[]]]; [tauto|congruence].
  - exact a6.
  - intros x y X. destruct (aR x y X). split; [apply in_app_iff|]; auto.
  - intros x y X. rewrite before_snoc. destruct (a7 _ _ X) as [Y|(Y1 & Y2 & e' & Y3 & Y4 & Y5)]; [auto|].
    destruct (Z.eq_dec y v) as [->|n]; [left; right; auto|]. right.
    split; [apply in_app_iff; auto|]. split; [rewrite in_app_iff; intros [Z1|[Z1|[]]]; [tauto|congruence]|].
    exists e'. split; [apply Keep; congruence|auto].
  - intros i j x Hi Hx. apply in_app_iff in Hi. destruct Hi as [Hi|[<-|[]]].
    + destruct (a8 i j x Hi Hx) as [X|[(e' & X & Y)|[X|(e' & [] & _)]]].
      * left. apply in_app_iff. auto.
      * destruct (Z.eq_dec j v) as [->|n]; [left; apply in_app_iff; simpl; auto|].
        right. left. exists e'. split; [apply Keep; [exact X|congruence]|exact Y].
      * auto.
    + right. right. right. destruct (edges_all v j x Hx) as (e' & X). exists e'. exact X.
Qed.

Lemma reached_le L b b' : b' <= b -> reached h sites L b k -> reached h sites L b' k.
Proof.
  intros Hle Hr j Hj. apply (rt_mono (fast_hop h sites L b)); [|exact (Hr j Hj)].
  intros x y (X & Y & r & Z1 & Z2). split; [exact X|]. split; [exact Y|]. exists r. split; [exact Z1|lra].
Qed.
Lemma inv_reached q A todo m : inv q A todo -> 0 <= ref -> (length A <= m)%nat -> reached h sites (q_seen q) (slack m ref) k.
Proof.
  intros Iq Href Hm. destruct (i_slow _ _ _ Iq) as (sl & _ & Hsl & Hreach & _).
  apply (reached_le _ sl); [|exact Hreach]. unfold slack. pose proof (pow_antitone _ _ Hm). nra.
Qed.
Lemma inv_pairs q A : inv q A [] -> q_front q = [] -> (length A <= pairs (q_seen q))%nat.
Proof.
  intros Iq Hf. unfold pairs. rewrite <- before_length. apply NoDup_incl_length; [exact (i_nd _ _ _ Iq)|].
  intros [x y] X. destruct (i_acc _ _ _ Iq x y X) as [Y|(_ & _ & e & He & _)]; [exact Y|]. rewrite Hf in He. destruct He.
Qed.
Lemma inv_rates q A : inv q A [] -> (length A <= rates_from sites (q_seen q))%nat.
Proof.
  intros Iq. unfold rates_from.
  set (F := fun i => match ulookup i sites with Some s => s_neighIds s | None => [] end).
  transitivity (length (flat_map (fun i => map (pair i) (F i)) (q_seen q))).
  - apply NoDup_incl_length; [exact (i_nd _ _ _ Iq)|]. intros [x y] X.
    destruct (i_rate _ _ _ Iq x y X) as [Hx (r & s & a & Hs & Ha & _)].
    apply in_flat_map. exists x. split; [exact Hx|]. apply in_map. unfold F. rewrite (In_ulookup _ _ _ nd_sites Hs).
    apply (in_map fst) in Ha. exact Ha.
  - clear. induction (q_seen q) as [|x l IH]; [apply le_n|]. cbn [flat_map]. rewrite !app_length, map_length. lia.
Qed.

(** all targets of rates *)
Let targets : list Z := flat_map (fun e => s_neighIds (snd e)) sites.
Let left_over (q : @search XR) : nat := length (filter (fun j => negb (existsb (Z.eqb j) (q_seen q))) targets).

Lemma filter_less {A} (f g : A -> bool) x l : (forall y, g y = true -> f y = true) -> In x l -> f x = true -> g x = false ->
  (length (filter g l) < length (filter f l))%nat.
Proof.
  intros Hfg Hx Hf Hgx.
  assert (Le : forall l, (length (filter g l) <= length (filter f l))%nat).
  { induction l0 as [|y l0 IH]; [apply le_n|]. cbn [filter]. destruct (g y) eqn:E.
    - rewrite (Hfg y E). cbn [length]. lia.
    - destruct (f y); cbn [length]; lia. }
  induction l as [|y l IH]; [destruct Hx|]. cbn [filter]. destruct Hx as [->|Hx].
  - rewrite Hf, Hgx. cbn [length]. specialize (Le l). lia.
  - specialize (IH Hx). destruct (g y) eqn:E; [rewrite (Hfg y E); cbn [length]; lia|]. destruct (f y); cbn [length]; lia.
Qed.

Lemma loop_ok bm nonce n : forall q A i, inv q A [] -> 0 <= ref -> (left_over q <= n)%nat ->
  ((Z.of_nat (length (q_seen q)) <= bm)%Z \/ q_seen q = [k]) ->
  exists L, basin_is h sites k ref bm L /\ forall fuel t, (n <= fuel)%nat -> 0 <= t ->
    basin_loop fuel nonce i h (mkExplorer (Fin t : xn) bm) sites q = Ok L.
Proof.
  induction n as [|n IH]; intros q A i Iq Href Hn Hlen; (destruct (q_front q) as [|e r] eqn:Ef;
   [exists (@u_verts XR U nonce (q_seen q)); split; [right|intros fuel t _ _; destruct fuel; cbn [basin_loop]; rewrite Ef; reflexivity]|]).
  1, 3: pose proof (@u_verts_perm XR U nonce (q_seen q)) as P; set (L := @u_verts XR U nonce (q_seen q)) in *;
    assert (Pin : forall j, In j L <-> In j (q_seen q)) by (intros j; split; apply Permutation_in; [|symmetry]; exact P);
    (split; [apply (Permutation_NoDup (Permutation_sym P)), (i_seen _ _ _ Iq)|]);
    (split; [apply Pin, (i_start _ _ _ Iq)|]);
    (split; [destruct Hlen as [X|X]; [left; rewrite (Permutation_length P); exact X
             |right; rewrite X in P; apply Permutation_length_1_inv; symmetry; exact P]|]);
    (split; [intros j Hj; apply Pin in Hj;
             assert (El : pairs L = pairs (q_seen q)) by (unfold pairs; rewrite (Permutation_length P); reflexivity);
             rewrite El; apply (rt_mono (fast_hop h sites (q_seen q) (slack (pairs (q_seen q)) ref)));
             [intros x y (X & Y & Z1); split; [apply Pin, X|]; split; [apply Pin, Y|exact Z1]
             |exact (inv_reached q A [] _ Iq Href (inv_pairs q A Iq Ef) j Hj)]|]);
    intros x y rr Hx Hr Hy; apply Pin in Hx; destruct (i_closed _ _ _ Iq x y rr Hx Hr) as [X|[(e' & X & _)|[X|(e' & [] & _)]]];
    [exfalso; apply Hy, Pin, X|rewrite Ef in X; destruct X|exact X].
  - exfalso. assert (He : In e (q_front q)) by (rewrite Ef; left; reflexivity).
    destruct (i_front _ _ _ Iq e He) as [_ Hd]. destruct (i_slow _ _ _ Iq) as (sl & _ & _ & _ & Hfr).
    destruct (Hfr e He) as (rr & (s & a & Hs & Ha & _) & _).
    assert (X : In (e_dst e) (filter (fun j => negb (existsb (Z.eqb j) (q_seen q))) targets)).
    { apply filter_In. split.
      - apply in_flat_map. exists (e_src e, s). split; [exact Hs|]. apply (in_map fst) in Ha. exact Ha.
      - apply negb_true_iff, not_true_iff_false. intros X. apply existsb_Zeqb in X. tauto. }
    unfold left_over in Hn. destruct (filter _ targets); [destruct X|simpl in Hn; lia].
  - pose (en := u_next nonce i e r).
    assert (He : In en (q_front q)) by (rewrite Ef; apply u_next_in).
    pose proof (explore_inv q A en Iq He) as I1.
    destruct (add_edges_inv (e_dst en) (u_order nonce i (edges_of h sites (e_dst en))) (explore q (e_dst en)) A) as (q' & A' & R' & I' & S').
    + destruct I1 as [a1 a2 a3 a4 a5 a6 aR a7 a8]. split; auto.
      intros x y rr Hx Hr. destruct (a8 x y rr Hx Hr) as [X|[X|[X|(e' & X & Y)]]]; auto.
      right. right. right. exists e'. split; [|exact Y]. eapply Permutation_in; [symmetry; apply u_order_perm|exact X].
    + intros e' He'. eapply Permutation_in; [apply u_order_perm|exact He'].
    + apply in_app_iff. simpl. auto.
    + exact Href.
    + cbn [explore q_seen] in S'.
      assert (Step : forall f t, 0 <= t -> basin_loop (S f) nonce i h (mkExplorer (Fin t : xn) bm) sites q =
        if (bm <? Z.of_nat (length (q_seen q')))%Z then Ok [] else basin_loop f nonce (S i) h (mkExplorer (Fin t : xn) bm) sites q').
      { intros f t Ht. cbn [basin_loop]. rewrite Ef. cbn [b_threshold]. fold en. rewrite (R' t Ht). reflexivity. }
      destruct (bm <? Z.of_nat (length (q_seen q')))%Z eqn:Eb.
      * exists []. split.
        { left. split; [reflexivity|]. exists (q_seen q'). split; [exact (i_seen _ _ _ I')|]. split; [exact (i_start _ _ _ I')|].
          split; [apply Z.ltb_lt; exact Eb|]. exact (inv_reached q' A' [] _ I' Href (inv_rates q' A' I')). }
        { intros [|f] t Hf Ht; [lia|]. exact (Step f t Ht). }
      * destruct (IH q' A' (S i) I' Href) as (L & HL & RL).
        { enough (left_over q' < left_over q)%nat by lia. unfold left_over. rewrite S'.
          destruct (i_front _ _ _ Iq en He) as [_ Hd]. destruct (i_slow _ _ _ Iq) as (sl & _ & _ & _ & Hfr).
          destruct (Hfr en He) as (rr & (s & a & Hs & Ha & _) & _).
          apply (filter_less _ _ (e_dst en)).
          - intros y. rewrite !negb_true_iff. intros X. apply not_true_iff_false in X. apply not_true_iff_false.
            intros Y. apply X. apply existsb_Zeqb. apply existsb_Zeqb in Y. apply in_app_iff. auto.
          - apply in_flat_map. exists (e_src en, s). split; [exact Hs|]. apply (in_map fst) in Ha. exact Ha.
          - apply negb_true_iff, not_true_iff_false. intros X. apply existsb_Zeqb in X. tauto.
          - apply negb_false_iff, existsb_Zeqb, in_app_iff. simpl. auto. }
        { left. apply Z.ltb_ge in Eb. exact Eb. }
        exists L. split; [exact HL|]. intros [|f] t Hf Ht; [lia|]. rewrite (Step f t Ht). apply RL; [lia|exact Ht].
Qed.
End B.

(** ** findBasin *)
Section F.
Context {I : Impl} {G : @Rng XR} {U : @Ugly XR}.

Lemma fastest_off h (c : @cluster XR G) : good_sites h (c_sites c) ->
  exists r, c_fastestOff h c = Fin r /\ 0 <= r /\
    top (fun x => exists i j, rate_between h (c_sites c) i j x /\ ~ In j (ukeys (c_sites c))) r.
Proof.
  intros Hg. unfold c_fastestOff.
  rewrite (max_fold2 snd snd (ext_rates h (c_sites c)) (n0 : xn)).
  destruct (rates_where_gen h (fun k => negb (umem k (c_sites c))) (c_sites c) (proj1 Hg)) as (A & B & C).
  { intros k s Hs. exact (proj1 (proj2 Hg k s Hs)). }
  fold (ext_rates h (c_sites c)) in A, B, C. set (m := ext_rates h (c_sites c)) in *.
  assert (In1 : forall x, In x (flat_map snd m) -> exists i s a, In (i, s) (c_sites c) /\ In (fst x, a) (s_neigh s) /\ snd x = h a /\ ~ In (fst x) (ukeys (c_sites c))).
  { intros x Hx. apply in_flat_map in Hx. destruct Hx as ([i l] & Hl & Hx). destruct (C i l Hl) as (s & Hs & _ & P).
    cbn [snd] in Hx. apply (Permutation_in _ P) in Hx. apply in_map_iff in Hx. destruct Hx as ([n a] & <- & Hn).
    apply filter_In in Hn. destruct Hn as [Hn Hk]. cbn [fst snd] in *. exists i, s, a. split; [exact Hs|]. split; [exact Hn|].
    split; [reflexivity|]. apply negb_true_iff in Hk. apply umem_false. exact Hk. }
  destruct (max_fold snd (flat_map snd m) 0) as (b & Hb & H0 & Hle & Hin).
  { intros x Hx. destruct (In1 x Hx) as (i & s & a & Hs & Ha & E & _). destruct (proj2 (proj2 Hg i s Hs) _ _ Ha) as (r & Er & _).
    exists r. rewrite E. exact Er. }
  exists b. split; [exact Hb|]. split; [exact H0|].
  assert (Hall : forall x i j, rate_between h (c_sites c) i j x -> ~ In j (ukeys (c_sites c)) -> x <= b).
  { intros x i j (s & a & Hs & Ha & E) Hj.
    assert (Hk : negb (umem j (c_sites c)) = true) by (apply negb_true_iff, umem_false; exact Hj).
    assert (Hi : In i (ukeys m)).
    { apply B. exists s, j. split; [exact Hs|]. split; [apply (in_map fst) in Ha; exact Ha|exact Hk]. }
    apply in_map_iff in Hi. destruct Hi as ([i' l] & Ei & Hl). cbn [fst] in Ei. subst i'.
    destruct (C i l Hl) as (s' & Hs' & _ & P).
    assert (s' = s) by (apply (In_ulookup _ _ _ (proj1 Hg)) in Hs, Hs'; congruence). subst s'.
    apply (Hle (j, h a) x); [|exact E]. apply in_flat_map. exists (i, l). split; [exact Hl|]. cbn [snd].
    apply (Permutation_in _ (Permutation_sym P)). apply in_map_iff. exists (j, a). split; [reflexivity|].
    apply filter_In. split; [exact Ha|exact Hk]. }
  destruct Hin as [->|(x & Hx & E)].
  - left. split; [reflexivity|]. intros x (i & j & Hr & Hj). pose proof (rate_pos h (c_sites c) Hg _ _ _ Hr).
    pose proof (Hall x i j Hr Hj). lra.
  - right. destruct (In1 x Hx) as (i & s & a & Hs & Ha & Ex & Hn). split.
    + exists i, (fst x). split; [|exact Hn]. exists s, a. split; [exact Hs|]. split; [exact Ha|]. congruence.
    + intros y (i' & j' & Hr & Hj). eauto.
Qed.

Lemma top_unique P r r' : top P r -> top P r' -> r = r'.
Proof.
  intros [[-> N]|[Hp Hl]] [[-> N']|[Hp' Hl']]; auto; try (exfalso; eapply N; eauto; fail); try (exfalso; eapply N'; eauto; fail).
  pose proof (Hl _ Hp'). pose proof (Hl' _ Hp). lra.
Qed.

Lemma search_ok h (sites : umap (@site XR G)) clusters k ref nonce bm : good_sites h sites -> NoDup (ukeys clusters) ->
  reference h sites clusters k ref ->
  exists n L, basin_is h sites k ref bm L /\
    forall fuel t, (n <= fuel)%nat -> 0 <= t -> find_basin fuel nonce h (mkExplorer (Fin t : xn) bm) sites clusters k = Ok L.
Proof.
  intros Hg Hnc (s & Hs & Href).
  destruct (fastest_site h sites Hg k s Hs) as (f & Ef & Htop & Hf0 & _).
  assert (Lk : ulookup k sites = Some s) by (apply In_ulookup; [exact (proj1 Hg)|exact Hs]).
  assert (Sl : 0 <= ref /\ (if s_partOfCluster s then
              cid <-! ask (sc_getClusterId k) sites;
              c <-! ask (cc_getCluster cid) clusters;
              Ok (c_fastestOff h c)
            else Ok (Fin f : xn)) = Ok (Fin ref : xn)).
  { unfold s_partOfCluster. destruct (Z.ltb_spec (s_cluster s) 0) as [Hlt|Hge].
    - rewrite (top_unique _ _ _ Href Htop). replace (s_cluster s >? -1)%Z with false; [split; [exact Hf0|reflexivity]|].
      symmetry. rewrite Z.gtb_ltb. apply Z.ltb_ge. lia.
    - destruct Href as (c & Hc & Hgc & Ht). destruct (fastest_off h c Hgc) as (r & Er & Hr0 & Hrt).
      rewrite (top_unique _ _ _ Ht Hrt). replace (s_cluster s >? -1)%Z with true.
      2: { symmetry. rewrite Z.gtb_ltb. apply Z.ltb_lt. lia. }
      split; [exact Hr0|]. unfold sc_getClusterId, read_key, ask at 1. rewrite Lk. cbn [lift rbind].
      unfold cc_getCluster, read_key, ask, s_getClusterId. rewrite (In_ulookup _ _ _ Hnc Hc). cbn [lift rbind]. rewrite Er. reflexivity. }
  destruct Sl as [Hr0 Sl].
  pose (q0 := mkSearch (Fin f : xn) (Fin ref : xn) (Fin f : xn) [k] []).
  destruct (add_edges_inv h sites Hg k ref k (u_order nonce 0 (edges_of h sites k)) q0 []) as (q & A & R & Iq & Sq).
  - split; cbn [q0 q_seen q_front q_fast q_slow].
    + constructor; [intros []|constructor].
    + left; reflexivity.
    + exists f. auto.
    + exists ref. split; [reflexivity|]. split; [simpl; lra|]. split; [|intros e []].
      intros j [<-|[]]. apply rt_refl.
    + intros e [].
    + constructor.
    + intros a b [].
    + intros a b [].
    + intros i j r [<-|[]] Hr. right. right. right.
      destruct (edges_all h sites Hg k j r Hr) as (e & He & Y). exists e. split; [|exact Y].
      eapply Permutation_in; [symmetry; apply u_order_perm|exact He].
  - intros e He. eapply Permutation_in; [apply u_order_perm|exact He].
  - left; reflexivity.
  - exact Hr0.
  - destruct (loop_ok h sites Hg k ref bm nonce _ q A 1 Iq Hr0 (le_n _) (or_intror Sq)) as (L & HL & RL).
    eexists _, L. split; [exact HL|]. intros fuel t Hfuel Ht. unfold find_basin.
    unfold sc_getFastest, sc_partOfCluster, read_key, ask at 1 2. rewrite Lk. cbn [lift rbind]. rewrite Ef.
    fold (@sc_getClusterId XR G). rewrite Sl. cbn [rbind b_threshold]. fold q0. rewrite (R t Ht). cbn [rbind].
    exact (RL fuel t Hfuel Ht).
Qed.
End F.

(** ** Every arithmetic: the bookkeeping of the search *)
Section Any.
Context {I : Impl} {N : Num} {G : Rng} {U : Ugly}.
Variables (h : heap) (sites : umap site) (k : Z).
Hypothesis ND : NoDup (ukeys sites).

Lemma rates_of_any v : uget [] v (rates_of sites) = match ulookup v sites with Some s => s_neigh s | None => [] end.
Proof.
  destruct (content_holds s_neigh sites (fun k => ulookup k sites) (conj ND (fun k => eq_refl))) as [_ Hl].
  unfold uget, rates_of. rewrite Hl. destruct (ulookup v sites); reflexivity.
Qed.
Lemma edges_any v e : In e (edges_of h sites v) -> e_src e = v /\ exists s, In (v, s) sites /\ In (e_dst e) (s_neighIds s).
Proof.
  unfold edges_of. rewrite rates_of_any. intros He. apply in_map_iff in He. destruct He as ([n a] & <- & Hn).
  split; [reflexivity|]. destruct (ulookup v sites) as [s|] eqn:E; [|destruct Hn].
  apply ulookup_In in E. exists s. split; [exact E|]. apply (in_map fst) in Hn. exact Hn.
Qed.

Record inv0 (q : search) : Prop := mkInv0 {
  z_seen : NoDup (q_seen q);
  z_start : In k (q_seen q);
  z_reach : forall j, In j (q_seen q) -> clos_refl_trans Z (hop_in sites (q_seen q)) k j;
  z_front : forall e, In e (q_front q) -> In (e_src e) (q_seen q) /\ ~ In (e_dst e) (q_seen q) /\
    exists s, In (e_src e, s) sites /\ In (e_dst e) (s_neighIds s)
}.

Lemma add_edge_any thr v e q : inv0 q -> In e (edges_of h sites v) -> In v (q_seen q) ->
  exists q', add_edge h sites thr v e q = Ok q' /\ inv0 q' /\ q_seen q' = q_seen q.
Proof.
  intros Iq He Hv. destruct (edges_any v e He) as [Es (s & Hs & Hd)].
  unfold add_edge. destruct (can_add q e) eqn:Ec; [|exists q; auto].
  unfold can_add in Ec. rewrite !andb_true_iff, !negb_true_iff in Ec. destruct Ec as [[_ Ed] _].
  assert (Hn : ~ In (e_dst e) (q_seen q)) by (intros X; apply existsb_Zeqb in X; congruence).
  rewrite Es, Z.eqb_refl. unfold s_neighIds in Hd. apply ukeys_In in Hd. destruct Hd as [a Ha].
  unfold sc_getRateTo, sc_getFastest, read_key, ask at 1. rewrite (In_ulookup v s sites ND Hs).
  unfold s_getRateTo. rewrite Ha. cbn [lift rbind].
  unfold ask at 1. rewrite (In_ulookup v s sites ND Hs). cbn [lift rbind]. cbv zeta.
  destruct (fast_enough _ _ _); eexists; (split; [reflexivity|]); (split; [|reflexivity]);
    destruct Iq as [a1 a2 a3 a4]; split; cbn [q_seen q_front]; auto.
  intros e' He'. apply in_app_iff in He'. destruct He' as [He'|[<-|[]]]; [auto|].
  rewrite Es. split; [exact Hv|]. split; [exact Hn|]. exists s. split; [exact Hs|].
  unfold s_neighIds. apply ukeys_In. eauto.
Qed.
Lemma add_edges_any thr v l : forall q, inv0 q -> (forall e, In e l -> In e (edges_of h sites v)) -> In v (q_seen q) ->
  exists q', add_edges h sites thr v l q = Ok q' /\ inv0 q' /\ q_seen q' = q_seen q.
Proof.
  induction l as [|e l IH]; intros q Iq Hl Hv.
  - exists q. auto.
  - destruct (add_edge_any thr v e q Iq (Hl e (or_introl eq_refl)) Hv) as (q1 & R1 & I1 & S1).
    destruct (IH q1 I1) as (q2 & R2 & I2 & S2); [intros e' He'; apply Hl; right; exact He'|rewrite S1; exact Hv|].
    exists q2. split; [|split; [exact I2|congruence]]. cbn [add_edges]. rewrite R1. exact R2.
Qed.
Lemma explore_any q e : inv0 q -> In e (q_front q) -> inv0 (explore q (e_dst e)).
Proof.
  intros [a1 a2 a3 a4] He. destruct (a4 e He) as (Hsrc & Hdst & s & Hs & Hn). set (v := e_dst e) in *.
  split; cbn [explore q_seen q_front].
  - apply NoDup_app_intro_k; auto; [constructor; [intros []|constructor]|]. intros x X [<-|[]]. tauto.
  - apply in_app_iff. auto.
  - assert (Mono : forall x y, clos_refl_trans Z (hop_in sites (q_seen q)) x y -> clos_refl_trans Z (hop_in sites (q_seen q ++ [v])) x y).
    { intros x y. apply rt_mono. intros p p' (X & Y & Z1). split; [apply in_app_iff; auto|]. split; [apply in_app_iff; auto|exact Z1]. }
    intros j Hj. apply in_app_iff in Hj. destruct Hj as [Hj|[<-|[]]]; [apply Mono, a3, Hj|].
    eapply rt_trans; [apply Mono, (a3 _ Hsrc)|]. apply rt_step. split; [apply in_app_iff; auto|].
    split; [apply in_app_iff; simpl; auto|]. exists s. auto.
  - intros e' He'. apply filter_In in He'. destruct He' as [He' Hne]. apply negb_true_iff, Z.eqb_neq in Hne.
    destruct (a4 e' He') as (X & Y & W). split; [apply in_app_iff; auto|]. split; [|exact W].
    rewrite in_app_iff. intros [Z1|[Z1|[]]]; [tauto|congruence].
Qed.

Let targets : list Z := flat_map (fun e => s_neighIds (snd e)) sites.
Let left_over (q : search) : nat := length (filter (fun j => negb (existsb (Z.eqb j) (q_seen q))) targets).
Lemma loop_any b nonce n : forall q i, inv0 q -> (left_over q <= n)%nat ->
  ((Z.of_nat (length (q_seen q)) <= b_max b)%Z \/ q_seen q = [k]) ->
  exists L, (L = [] \/ (NoDup L /\ In k L /\ ((Z.of_nat (length L) <= b_max b)%Z \/ L = [k]) /\
                       forall j, In j L -> clos_refl_trans Z (hop_in sites L) k j)) /\
    forall fuel, (n <= fuel)%nat -> basin_loop fuel nonce i h b sites q = Ok L.
Proof.
  induction n as [|n IH]; intros q i Iq Hn Hlen; (destruct (q_front q) as [|e r] eqn:Ef;
   [exists (u_verts nonce (q_seen q)); split; [right|intros fuel _; destruct fuel; cbn [basin_loop]; rewrite Ef; reflexivity]|]).
  1, 3: pose proof (u_verts_perm nonce (q_seen q)) as P; set (L := u_verts nonce (q_seen q)) in *;
    assert (Pin : forall j, In j L <-> In j (q_seen q)) by (intros j; split; apply Permutation_in; [|symmetry]; exact P);
    (split; [apply (Permutation_NoDup (Permutation_sym P)), (z_seen _ Iq)|]);
    (split; [apply Pin, (z_start _ Iq)|]);
    (split; [destruct Hlen as [X|X]; [left; rewrite (Permutation_length P); exact X
             |right; rewrite X in P; apply Permutation_length_1_inv; symmetry; exact P]|]);
    intros j Hj; apply Pin in Hj; apply (rt_mono (hop_in sites (q_seen q)));
      [intros x y (X & Y & Z1); split; [apply Pin, X|]; split; [apply Pin, Y|exact Z1]|exact (z_reach _ Iq j Hj)].
  - exfalso. destruct (z_front _ Iq e) as (_ & Hd & s & Hs & Ha); [rewrite Ef; left; reflexivity|].
    assert (X : In (e_dst e) (filter (fun j => negb (existsb (Z.eqb j) (q_seen q))) targets)).
    { apply filter_In. split.
      - apply in_flat_map. exists (e_src e, s). split; [exact Hs|exact Ha].
      - apply negb_true_iff, not_true_iff_false. intros X. apply existsb_Zeqb in X. tauto. }
    unfold left_over in Hn. destruct (filter _ targets); [destruct X|simpl in Hn; lia].
  - pose (en := u_next nonce i e r).
    assert (He : In en (q_front q)) by (rewrite Ef; apply u_next_in).
    pose proof (explore_any q en Iq He) as I1.
    destruct (add_edges_any (b_threshold b) (e_dst en) (u_order nonce i (edges_of h sites (e_dst en))) (explore q (e_dst en)) I1) as (q' & R' & I' & S').
    + intros e' He'. eapply Permutation_in; [apply u_order_perm|exact He'].
    + apply in_app_iff. simpl. auto.
    + cbn [explore q_seen] in S'.
      assert (Step : forall f, basin_loop (S f) nonce i h b sites q =
        if (b_max b <? Z.of_nat (length (q_seen q')))%Z then Ok [] else basin_loop f nonce (S i) h b sites q').
      { intros f. cbn [basin_loop]. rewrite Ef. fold en. rewrite R'. reflexivity. }
      destruct (b_max b <? Z.of_nat (length (q_seen q')))%Z eqn:Eb.
      * exists []. split; [left; reflexivity|]. intros [|f] Hf; [lia|]. exact (Step f).
      * destruct (IH q' (S i) I') as (L & HL & RL).
        { enough (left_over q' < left_over q)%nat by lia. unfold left_over. rewrite S'.
          destruct (z_front _ Iq en He) as (_ & Hd & s & Hs & Ha).
          apply (filter_less _ _ (e_dst en)).
          - intros y. rewrite !negb_true_iff. intros X. apply not_true_iff_false in X. apply not_true_iff_false.
            intros Y. apply X. apply existsb_Zeqb. apply existsb_Zeqb in Y. apply in_app_iff. auto.
          - apply in_flat_map. exists (e_src en, s). split; [exact Hs|exact Ha].
          - apply negb_true_iff, not_true_iff_false. intros X. apply existsb_Zeqb in X. tauto.
          - apply negb_false_iff, existsb_Zeqb, in_app_iff. simpl. auto. }
        { left. apply Z.ltb_ge in Eb. exact Eb. }
        exists L. split; [exact HL|]. intros [|f] Hf; [lia|]. rewrite (Step f). apply RL; lia.
Qed.

Lemma search_any clusters s b nonce : In (k, s) sites ->
  ((0 <= s_cluster s)%Z -> exists c, ulookup (s_cluster s) clusters = Some c) ->
  exists n L, (L = [] \/ (NoDup L /\ In k L /\ ((Z.of_nat (length L) <= b_max b)%Z \/ L = [k]) /\
                         forall j, In j L -> clos_refl_trans Z (hop_in sites L) k j)) /\
    forall fuel, (n <= fuel)%nat -> find_basin fuel nonce h b sites clusters k = Ok L.
Proof.
  intros Hs Hc. assert (Lk : ulookup k sites = Some s) by (apply In_ulookup; assumption).
  assert (Sl : exists sl, (if s_partOfCluster s then
              cid <-! ask (sc_getClusterId k) sites;
              c <-! ask (cc_getCluster cid) clusters;
              Ok (c_fastestOff h c)
            else Ok (s_getFastestRate h s)) = Ok sl).
  { unfold s_partOfCluster. rewrite Z.gtb_ltb. destruct (Z.ltb_spec (-1) (s_cluster s)) as [Hlt|Hge]; [|eauto].
    destruct Hc as [c Ec]; [lia|]. exists (c_fastestOff h c).
    unfold sc_getClusterId, read_key, ask at 1. rewrite Lk. cbn [lift rbind].
    unfold cc_getCluster, read_key, ask, s_getClusterId. rewrite Ec. reflexivity. }
  destruct Sl as [sl Sl].
  pose (q0 := mkSearch (s_getFastestRate h s) sl (s_getFastestRate h s) [k] []).
  destruct (add_edges_any (b_threshold b) k (u_order nonce 0 (edges_of h sites k)) q0) as (q & R & Iq & Sq).
  - split; cbn [q0 q_seen q_front].
    + constructor; [intros []|constructor].
    + left; reflexivity.
    + intros j [<-|[]]. apply rt_refl.
    + intros e [].
  - intros e He. eapply Permutation_in; [apply u_order_perm|exact He].
  - left; reflexivity.
  - destruct (loop_any b nonce _ q 1 Iq (le_n _) (or_intror Sq)) as (L & HL & RL).
    eexists _, L. split; [exact HL|]. intros fuel Hfuel. unfold find_basin.
    unfold sc_getFastest, sc_partOfCluster, read_key, ask at 1 2. rewrite Lk. cbn [lift rbind].
    rewrite Sl. cbn [rbind]. fold q0. rewrite R. cbn [rbind]. exact (RL fuel Hfuel).
Qed.
End Any.
