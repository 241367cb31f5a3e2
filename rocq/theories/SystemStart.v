(** * Valid programs get started and keep running *)
From Coq Require Import ZArith List Bool Reals Lra Lia Permutation Relations.
From Verif Require Import Base BaseProofs Num RSum WalkerModel SiteModel SiteSpec SiteProofs ClusterModel ClusterSpec ClusterReal ClusterProofs ClusterFrame
  ClusterLive ContainerModel BasinModel BasinSpec SystemModel SystemSpec SystemShape SystemHop SystemCoarse SystemMerge
  SystemProofs SystemFacts SystemInit SystemControl ValidSpec SystemEffect SystemEquil Fuel SystemLive SystemGrow SystemTotal.
Import ListNotations.
Open Scope R_scope.

Section Start.
Context {I : Impl} {G : @Rng XR} {U : @Ugly XR}.
Variable clk : Z -> Z.
Variables (lo hi : R).
Hypothesis (Hlo : 0 < lo) (Hhi : hi < / dbl_min) (HF : @fair G).

(** ** Walkers enter *)
Lemma enter_each T l : 0 <= most_gain lo hi -> forall g ws, alive lo hi T g -> rests g -> aims g ws -> NoDup (map snd l) -> (forall p, In p (map snd l) -> ~ In p ws) ->
  (forall p, In p (map snd l) -> exists w s, ulookup p (g_walkers g) = Some w /\ w_cur w <> unassignedId /\
     ulookup (w_cur w) (g_sites g) = Some s /\ s_cluster s = unassignedId) ->
  exists g', mfor l (fun w => init_walker (fst w) (snd w)) g = Ret tt g'.
Proof.
  intros HM. induction l as [|[id p] l IH]; intros g ws A Rs Ai ND Nw Un.
  - exists g. reflexivity.
  - cbn [mfor fst snd map] in *. destruct (Un p (or_introl eq_refl)) as (w & s & Ew & Nu & Es & Eu).
    destruct (enter_live clk lo hi Hlo HF HM T g id p w s ws A Rs Ai Ew (Nw p (or_introl eq_refl)) Nu Es Eu) as (g1 & E1 & A1 & R1 & Ai1).
    destruct (init_walker_put _ _ _ _ E1) as ([P1 P2] & _). inversion ND as [|? ? Np ND']; subst.
    destruct (IH g1 (p :: ws) A1 R1 Ai1 ND') as [g' E'].
    + intros q Hq [<-|Hq']; [contradiction|]. apply (Nw q (or_intror Hq) Hq').
    + intros q Hq. destruct (Un q (or_intror Hq)) as (y & sy & Ey & Ny & Esy & Euy). specialize (P2 q). rewrite Ey in P2.
      destruct (ulookup q (g_walkers g1)) as [y1|] eqn:Ey1; [|discriminate]. injection P2 as P2.
      pose proof (h_feat _ _ _ (a_shape _ _ _ _ A1) (w_cur y)) as F1. rewrite P1, (h_feat _ _ _ (a_shape _ _ _ _ A)), Esy, Euy in F1.
      destruct (ulookup (w_cur y) (g_sites g1)) as [s1|] eqn:Es1; [|discriminate].
      exists y1, s1. rewrite P2. split; [reflexivity|]. split; [exact Ny|]. split; [exact Es1|].
      destruct (Z.eqb_spec (s_cluster s1) unassignedId); [assumption|]. cbn in F1. discriminate.
    + exists g'. unfold bind. rewrite E1. exact E'.
Qed.

Lemma enter_ends T l g ws : inv g ws -> living lo hi T g ws -> 0 <= most_gain lo hi -> l <> [] -> NoDup (map snd l) -> (forall p, In p (map snd l) -> ~ In p ws) ->
  (forall p, In p (map snd l) -> exists k, walker_on g p k /\ cluster_of g k unassignedId) ->
  exists g', sys_initializeWalkers l g = Ret tt g'.
Proof.
  intros V [A Rs Ai Ll Nm Pf Re Se It Th Mi] HM Nl ND Nw Hk.
  assert (Un : forall p, In p (map snd l) -> exists w s, ulookup p (g_walkers g) = Some w /\ w_cur w <> unassignedId /\
     ulookup (w_cur w) (g_sites g) = Some s /\ s_cluster s = unassignedId).
  { intros p Hp. destruct (Hk p Hp) as (k & (w & Ew & <-) & Hc). apply cluster_of_iff in Hc. destruct Hc as (s & Es & Eu).
    exists w, s. split; [exact Ew|]. split; [|auto]. apply Nm. eapply ulookup_In_key; exact Es. }
  destruct (enter_each T l HM g ws A Rs Ai ND Nw Un) as [g' E]. exists g'.
  unfold sys_initializeWalkers, bind at 1, gets. destruct (g_feats g) eqn:Ef; [|exact E].
  destruct l as [|[id p] l]; [congruence|]. destruct (Un p (or_introl eq_refl)) as (w & s & _ & _ & Es & _).
  pose proof (h_feat _ _ _ (a_shape _ _ _ _ A) (w_cur w)) as F1. rewrite Ef, Es in F1. discriminate.
Qed.

(** ** Any number of hops *)
Lemma reach_more tr g ws tr' g' ws' : reach_by clk tr g ws -> steps clk g ws tr' g' ws' -> reach_by clk (tr ++ tr') g' ws'.
Proof.
  intros R S. induction S as [|tr' g1 ws1 c g2 ws2 S IH St]; [rewrite app_nil_r; exact R|].
  destruct IH as (m & h & count & tick & ND & Hc & S'). exists m, h, count, tick. split; [exact ND|]. split; [exact Hc|].
  rewrite app_assoc. eapply sts_step; eauto.
Qed.

Lemma hop_runs tr (g : @world XR G) ws id p : reach_by clk tr g ws -> Forall (valid_call (g_heap g)) tr -> Forall (paced_call (g_heap g) lo hi) tr ->
  fits (most_gain lo hi) (hops tr + 1) -> (hops tr < 2 ^ 30)%Z -> In p ws ->
  exists g', (exists n, forall f, (n <= f)%nat -> sys_hop clk f id p g = Ret tt g') /\ g_heap g' = g_heap g.
Proof.
  intros R Fv Fp Hf HT Hp. pose proof (hops_nonneg tr).
  assert (V : inv g ws) by (apply (reach_inv clk); exists tr; exact R).
  assert (L : living lo hi (hops tr) g ws) by (apply (living_reach clk lo hi Hlo Hhi HF); try assumption; [apply (fits_less _ _ (hops tr + 1)); [lia|exact Hf]|lia]).
  destruct (hop_ends clk lo hi Hlo Hhi HF (hops tr) g ws id p V L Hp Hf HT) as (f & [] & g' & E & _).
  exists g'. split.
  - exists f. intros f' Lf. exact (lasting_ret (fun f => sys_hop clk f id p) f f' g tt g' (hop_lasting clk id p) Lf E).
  - destruct (step_settings clk g ws (KHop p) g' ws V (st_hop clk g ws f id p g' Hp E)) as ([X|X] & _); [discriminate|exact X].
Qed.
Lemma hops_run ps : forall tr (g : @world XR G) ws, reach_by clk tr g ws -> Forall (valid_call (g_heap g)) tr -> Forall (paced_call (g_heap g) lo hi) tr ->
  fits (most_gain lo hi) (hops tr + Z.of_nat (length ps)) -> (hops tr + Z.of_nat (length ps) <= 2 ^ 30)%Z -> (forall p, In p ps -> In p ws) ->
  exists g', steps clk g ws (map KHop ps) g' ws /\ g_heap g' = g_heap g.
Proof.
  induction ps as [|p ps IH] using rev_ind; intros tr g ws R Fv Fp Hf HT Hp.
  - exists g. split; [constructor|reflexivity].
  - rewrite app_length, Nat2Z.inj_add in *. cbn [length] in *. pose proof (hops_nonneg tr).
    destruct (IH tr g ws R Fv Fp) as (g1 & S1 & H1).
    + eapply fits_less; [|exact Hf]. lia.
    + lia.
    + intros q Hq. apply Hp, in_app_iff. auto.
    + assert (Eh : hops (tr ++ map KHop ps) = (hops tr + Z.of_nat (length ps))%Z).
      { rewrite hops_app. f_equal. unfold hops. f_equal. clear. induction ps as [|q ps IH]; [reflexivity|]. cbn [map filter is_hop length]. rewrite IH. reflexivity. }
      assert (Fh : forall P : @call XR -> Prop, (forall q, P (KHop q)) -> Forall P (map KHop ps)).
      { intros P HP. apply Forall_forall. intros c Hc. apply in_map_iff in Hc. destruct Hc as (q & <- & _). apply HP. }
      destruct (hop_runs (tr ++ map KHop ps) g1 ws 0%Z p (reach_more _ _ _ _ _ _ R S1)) as (g2 & (n & E) & H2).
      * rewrite H1. apply Forall_app. split; [exact Fv|apply Fh; intros q; exact Logic.I].
      * rewrite H1. apply Forall_app. split; [exact Fp|apply Fh; intros q; exact Logic.I].
      * rewrite Eh. eapply fits_less; [|exact Hf]. lia.
      * rewrite Eh. lia.
      * apply Hp, in_app_iff. right; left; reflexivity.
      * exists g2. split; [|congruence]. rewrite map_app. eapply sts_step; [exact S1|]. apply (st_hop clk g1 ws n 0%Z p g2); [apply Hp, in_app_iff; right; left; reflexivity|].
        apply (E n). lia.
Qed.
End Start.
