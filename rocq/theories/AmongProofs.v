(** * A seeded system among others *)
From Coq Require Import ZArith List Bool Lia.
From Verif Require Import Base BaseProofs Num WalkerModel SiteModel ClusterModel ContainerModel BasinModel
  SystemModel SystemSpec SystemShape SystemProofs SystemRuns SystemName QuerySpec NameSpec SeedSpec ShiftSpec SystemRename SystemApart
  ManySpec ManyProofs AmongSpec.
Import ListNotations.
Open Scope Z_scope.

Section Among.
Context {I : Impl} {N : Num} {G : Rng} {U : Ugly}.
Variables clk1 clk2 : Z -> Z.
Hypothesis K : keys_only.
Hypothesis Kn : forall nm, increasing nm -> names_alike nm.
Hypothesis Hs : forall e e' : eng, dwell_of (fst (edraw e)) n0 = dwell_of (fst (edraw e')) n0.
Hypothesis Hu : steady.

Section Many.
Variable P : Z -> Z -> Prop.
Hypothesis Pi : forall i j q, P i q -> P j q -> i = j.
Lemma many i l : forall es p p' gA, happened clk2 es p -> (forall j q, In q (p_inside p j) -> P j q) -> same_here (P i) gA (view p i) ->
  (forall j a, In (j, a) l -> library_call (call_of a) = true /\ forall q, In q (comes a) -> P j q) ->
  exec_many clk2 l p = Some p' ->
  exists l0 gA', own_calls l0 = calls_to i l /\ patient l0 /\
    exec_among clk2 l0 (gA, p_inside p i) = Some (gA', p_inside p' i) /\ same_here (P i) gA' (view p' i).
Proof.
  induction l as [|[j a] l IH]; intros es p p' gA Hd Hin Hsame Hl E; cbn [exec_many] in E.
  - inversion E; subst. exists [], gA. split; [reflexivity|]. split; [intros n t []|]. split; [reflexivity|exact Hsame].
  - destruct (exec1 clk2 a (view p j, p_inside p j)) as [[g ws]|] eqn:E1; [|discriminate].
    destruct (Hl j a (or_introl eq_refl)) as [La Ca].
    assert (Hl' : forall j a, In (j, a) l -> library_call (call_of a) = true /\ forall q, In q (comes a) -> P j q) by (intros; apply Hl; right; assumption).
    pose proof (exec1_ok clk2 _ _ _ _ _ E1) as S1.
    assert (V : inv (view p j) (p_inside p j)) by (eapply reach_by_inv; apply (as_if_alone clk2 es p Hd j)).
    destruct (step_shared clk2 _ _ _ _ _ V La S1) as (Eh & Hc & _ & Lw & Hw).
    assert (Hws : forall q, In q ws -> P j q).
    { intros q Hq. destruct (Hw q Hq) as [X|(w & X & Y)]; [apply Hin, X|]. apply Ca. destruct a; inversion X; subst. exact Y. }
    assert (Hin' : forall k q, In q (p_inside (changed p j (g, ws)) k) -> P k q).
    { intros k q. unfold changed. cbn [p_inside snd]. destruct (Z.eq_dec k j) as [->|Nk]; [rewrite name_self; apply Hws|rewrite name_other by exact Nk; apply Hin]. }
    assert (Hd' : happened clk2 (es ++ [On j (call_of a)]) (changed p j (g, ws))).
    { destruct Hd as (m & h & c & t & ND & Hc0 & Go). exists m, h, c, t. split; [exact ND|]. split; [exact Hc0|]. eapply go_step; [exact Go|].
      apply ev_call; [exact La|exact S1|]. intros q k Hq Nk Hk. apply Nk. apply (Pi k j q); auto. }
    destruct (Z.eq_dec j i) as [->|Nj].
    + (* a call of this system *)
      pose proof (exec1_alike (P i) clk2 a gA (view p i) (p_inside p i) Hsame (Hin i) Ca) as X. rewrite E1 in X.
      destruct (exec1 clk2 a (gA, p_inside p i)) as [[g1 ws1]|] eqn:E2; [|contradiction]. destruct X as (<- & X & _).
      destruct (IH _ _ p' g1 Hd' Hin') as (l0 & g2 & H1 & H2 & H3 & H4); [unfold changed; cbn [fst snd]; rewrite view_self; exact X|exact Hl'|exact E|].
      exists (Call a :: l0), g2. split; [unfold own_calls, calls_to in *; cbn [flat_map fst snd]; rewrite Z.eqb_refl, H1; reflexivity|].
      split; [intros n t [Y|Y]; [discriminate|apply (H2 n t Y)]|]. split; [|exact H4].
      cbn [exec_among]. rewrite E2. unfold changed in H3. cbn [p_inside snd] in H3. rewrite name_self in H3. exact H3.
    + destruct Hsame as (w & Ev & Hww).
      assert (Ec : g_count gA = g_count (view p j)).
      { change (g_count (view p j)) with (p_count p). change (p_count p) with (g_count (view p i)). rewrite Ev. reflexivity. }
      set (gB := g_with_tick (g_tick g) (g_with_count (g_count gA + (g_count g - g_count gA)) gA)).
      destruct (IH _ _ p' gB Hd' Hin') as (l0 & g2 & H1 & H2 & H3 & H4); [|exact Hl'|exact E|].
      { unfold changed; cbn [fst snd]. rewrite view_other; [|congruence|exact Eh]. exists (g_walkers g). split.
        - rewrite Ev. unfold gB. replace (g_count gA + (g_count g - g_count gA)) with (g_count g) by lia. destruct gA; reflexivity.
        - intros q Hq. change (g_walkers gB) with (g_walkers gA). rewrite <- (Hww q Hq).
          assert (E0 : w = p_walkers p) by (change (p_walkers p) with (g_walkers (view p i)); rewrite Ev; reflexivity).
          rewrite E0. apply Lw; intros X; apply Nj; apply (Pi j i q); auto. }
      exists (Meanwhile (g_count g - g_count gA) (g_tick g) :: l0), g2.
      split; [unfold own_calls, calls_to in *; cbn [flat_map fst snd]; apply Z.eqb_neq in Nj; rewrite Nj; exact H1|].
      split; [intros n t [Y|Y]; [inversion Y; subst; lia|apply (H2 n t Y)]|]. split; [|exact H4].
      cbn [exec_among fst snd]. unfold changed in H3. cbn [p_inside snd] in H3. rewrite name_other in H3 by congruence. exact H3.
Qed.
End Many.

(** queries do not look at walkers *)
Lemma here_answers {A} (P : Z -> Prop) (m : M world A) g g' : follows (same_here P) eq m m -> same_here P g g' ->
  forall a, (exists x, m g' = Ret a x) <-> exists x, m g = Ret a x.
Proof.
  intros F H a. specialize (F g g' H). destruct (m g) as [b x|? ?|?], (m g') as [b' x'|? ?|?]; try contradiction.
  - destruct F as [<- _]. split; intros (y & E); inversion E; subst; eauto.
  - split; intros (y & E); discriminate.
  - split; intros (y & E); discriminate.
Qed.
Lemma here_renamed P nm g g1 g2 : renamed (fun _ => True) nm g g1 -> same_here P g1 g2 -> renamed P nm g g2.
Proof.
  intros (B1 & B2 & B3 & B4 & B5 & B6 & B7) H.
  split; [intros p Hp; rewrite <- (B1 p Logic.I); destruct H as (w & -> & Hw); apply Hw, Hp|].
  split; [intros m'; rewrite <- B2; apply (here_answers P); [apply w_clusters|exact H]|].
  split; [intros m'; rewrite <- B3; apply (here_answers P); [apply w_clusters|exact H]|].
  split; [intros m'; rewrite <- B4; apply (here_answers P); [apply w_clusters|exact H]|].
  split; [intros k c'; rewrite <- B5; apply (here_answers P); [apply w_sites|exact H]|].
  split.
  - intros k b. rewrite B6. symmetry. unfold taken. apply (here_answers P); [|exact H]. unfold f_isOccupied. apply w_feature.
  - intros k v. rewrite B7. symmetry. unfold visits. apply (here_answers P); [apply w_visits|exact H].
Qed.
Theorem own_calls_only walkers h count tick count' tick' l i p' :
  NoDup (ukeys walkers) -> 0 <= count -> count <= count' -> own_walkers l -> rates_stay l -> seeds_first (calls_to i l) ->
  exec_many clk2 l (program_new walkers h count' tick') = Some p' ->
  exists g, exec clk1 (calls_to i l) (world_new walkers h count tick, []) = Some (g, p_inside p' i) /\
    exists nm, increasing nm /\ renamed (walker_of l i) nm g (view p' i).
Proof.
  intros ND Hc Hcc Ow Rs Sd E.
  assert (Hn : happened clk2 [] (program_new walkers h count' tick')).
  { exists walkers, h, count', tick'. split; [exact ND|]. split; [lia|]. apply go_refl. }
  destruct (many (walker_of l) Ow i l [] (program_new walkers h count' tick') p' (world_new walkers h count' tick') Hn) as (l0 & gA & H1 & H2 & H3 & H4).
  - intros j q [].
  - apply same_here_refl.
  - intros j a Ha. split; [destruct a; try reflexivity; destruct (Rs j h0 Ha)|].
    intros q Hq. destruct a; try contradiction. exists l0. auto.
  - exact E.
  - pose proof (among clk1 clk2 K Kn Hs Hu walkers h count tick count' tick' l0 ND Hc Hcc H2) as A. rewrite H1 in A. specialize (A Sd).
    change (p_inside (program_new walkers h count' tick') i) with (@nil Z) in H3. rewrite H3 in A.
    destruct (exec clk1 (calls_to i l) (world_new walkers h count tick, [])) as [[g ws]|]; [|contradiction].
    destruct A as [-> (nm & Hi & Hr)]. exists g. split; [reflexivity|]. exists nm. split; [exact Hi|]. eapply here_renamed; eauto.
Qed.
End Among.
