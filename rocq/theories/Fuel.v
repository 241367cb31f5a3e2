(** * More fuel does not change a result *)
(** The model bounds the two loops of the code that have no bound of their own
    by a fuel, and a run that uses it up is [Diverged].  Every computation below
    gives the same result with more fuel unless it was [Diverged]: the fuel is
    no part of the behaviour. *)
From Coq Require Import ZArith List Bool Lia.
From Verif Require Import Base BaseProofs Num WalkerModel SiteModel ClusterModel ContainerModel BasinModel SystemModel.
Import ListNotations.
Open Scope Z_scope.

Definition lasting {S A} (m : nat -> M S A) : Prop :=
  forall f f' s, (f <= f')%nat -> m f s = Halt Diverged \/ m f' s = m f s.
Definition rlasting {A} (r : nat -> res A) : Prop :=
  forall f f', (f <= f')%nat -> r f = Bad Diverged \/ r f' = r f.

Section Rules.
Context {S : Type}.
Lemma lasting_const {A} (m : M S A) : lasting (fun _ => m).
Proof. intros f f' s _. right. reflexivity. Qed.
Lemma lasting_bind {A B} (m : nat -> M S A) (k : nat -> A -> M S B) :
  lasting m -> (forall a, lasting (fun f => k f a)) -> lasting (fun f => bind (m f) (k f)).
Proof.
  intros Hm Hk f f' s L. unfold bind. destruct (Hm f f' s L) as [-> | ->]; [left; reflexivity|].
  destruct (m f s) as [a s'| |]; [|right; reflexivity|right; reflexivity]. apply (Hk a f f' s' L).
Qed.
Lemma lasting_then {A B} (m : M S A) (k : nat -> A -> M S B) :
  (forall a, lasting (fun f => k f a)) -> lasting (fun f => bind m (k f)).
Proof. intros Hk. apply (lasting_bind (fun _ => m) k); [apply lasting_const|exact Hk]. Qed.
Lemma lasting_lift {A} (r : nat -> res A) : rlasting r -> lasting (fun f => lift (S := S) (r f)).
Proof. intros Hr f f' s L. unfold lift. destruct (Hr f f' L) as [->| ->]; auto. Qed.
Lemma lasting_mfor {A} (body : nat -> A -> M S unit) l : (forall a, lasting (fun f => body f a)) -> lasting (fun f => mfor l (body f)).
Proof.
  intros Hb. induction l as [|x l IH]; cbn [mfor]; [apply lasting_const|].
  apply (lasting_bind (fun f => body f x) (fun f _ => mfor l (body f))); [apply Hb|intros _; exact IH].
Qed.
Lemma lasting_zoom {T A} (get : S -> T) put (m : nat -> M T A) : lasting m -> lasting (fun f => zoom get put (m f)).
Proof. intros Hm f f' s L. unfold zoom. destruct (Hm f f' (get s) L) as [-> | ->]; auto. Qed.
Lemma lasting_at {V A} k (absent : M (umap V) A) (m : nat -> M V A) : lasting m -> lasting (fun f => at_key k absent (m f)).
Proof.
  intros Hm f f' s L. unfold at_key. destruct (ulookup k s) as [v|]; [|right; reflexivity].
  destruct (Hm f f' v L) as [-> | ->]; auto.
Qed.
Lemma rlasting_bind {A B} (r : nat -> res A) (k : nat -> A -> res B) :
  rlasting r -> (forall a, rlasting (fun f => k f a)) -> rlasting (fun f => rbind (r f) (k f)).
Proof.
  intros Hr Hk f f' L. destruct (Hr f f' L) as [-> | ->]; [left; reflexivity|].
  destruct (r f) as [a| |]; [|right; reflexivity|right; reflexivity]. apply (Hk a f f' L).
Qed.
Lemma rlasting_const {A} (r : res A) : rlasting (fun _ => r).
Proof. intros f f' _. right. reflexivity. Qed.
(** a result stays *)
Lemma lasting_ret {A} (m : nat -> M S A) f f' s a s' : lasting m -> (f <= f')%nat -> m f s = Ret a s' -> m f' s = Ret a s'.
Proof. intros Hm L E. destruct (Hm f f' s L) as [X|X]; congruence. Qed.
Lemma lasting_same {A} (m : nat -> M S A) f f' s a s' b s'' : lasting m -> m f s = Ret a s' -> m f' s = Ret b s'' -> a = b /\ s' = s''.
Proof.
  intros Hm E E'. destruct (Nat.le_ge_cases f f') as [L|L].
  - rewrite (lasting_ret m f f' s a s' Hm L E) in E'. split; congruence.
  - rewrite (lasting_ret m f' f s b s'' Hm L E') in E. split; congruence.
Qed.

(** ** Runs that end *)
Definition ends {A} (m : nat -> M S A) (s : S) (Q : A -> S -> Prop) : Prop :=
  exists f a s', m f s = Ret a s' /\ Q a s'.
Lemma ends_const {A} (m : M S A) s a s' (Q : A -> S -> Prop) : m s = Ret a s' -> Q a s' -> ends (fun _ => m) s Q.
Proof. intros E HQ. exists O, a, s'. auto. Qed.
Lemma ends_bind {A B} (m : nat -> M S A) (k : nat -> A -> M S B) s Q :
  lasting m -> (forall a, lasting (fun f => k f a)) ->
  ends m s (fun a s' => ends (fun f => k f a) s' Q) -> ends (fun f => bind (m f) (k f)) s Q.
Proof.
  intros Hm Hk (f1 & a & s1 & E1 & f2 & b & s2 & E2 & HQ). exists (max f1 f2), b, s2. split; [|exact HQ].
  unfold bind. rewrite (lasting_ret m f1 _ s a s1 Hm (Nat.le_max_l _ _) E1).
  apply (lasting_ret (fun f => k f a) f2 _ s1 b s2 (Hk a) (Nat.le_max_r _ _) E2).
Qed.
Lemma ends_weaken {A} (m : nat -> M S A) s (Q Q' : A -> S -> Prop) : (forall a s', Q a s' -> Q' a s') -> ends m s Q -> ends m s Q'.
Proof. intros HQ (f & a & s' & E & X). exists f, a, s'. auto. Qed.
Lemma ends_all {A} (m : nat -> M S A) s Q : lasting m -> ends m s Q ->
  exists n, forall f, (n <= f)%nat -> exists a s', m f s = Ret a s' /\ Q a s'.
Proof.
  intros Hm (n & a & s' & E & HQ). exists n. intros f L. exists a, s'. split; [|exact HQ]. apply (lasting_ret m n f s a s' Hm L E).
Qed.
End Rules.

(** ** The computations of the model *)
Section Model.
Context {I : Impl} {N : Num} {G : Rng} {U : Ugly}.
Variable clk : Z -> Z.

Lemma tol_lasting tol sites : forall err pon, rlasting (fun f => iterate_tol f tol err sites pon).
Proof.
  assert (X : forall f f' err pon, (f <= f')%nat -> iterate_tol f tol err sites pon = Bad Diverged \/
            iterate_tol f' tol err sites pon = iterate_tol f tol err sites pon).
  { induction f as [|f IH]; intros f' err pon L.
    - destruct f'; cbn [iterate_tol]; destruct (nltb tol err); auto.
    - destruct f' as [|f']; [lia|]. cbn [iterate_tol]. destruct (nltb tol err); [|auto].
      destruct (iterate sites pon) as [p| |]; cbn [rbind]; [|auto|auto]. apply IH. lia. }
  intros err pon f f' L. apply X, L.
Qed.
Lemma solve_lasting m iters tol sites pon : rlasting (fun f => solve_pon f m iters tol sites pon).
Proof. unfold solve_pon. destruct m; try apply rlasting_const. apply tol_lasting. Qed.
Lemma csolve_lasting h : lasting (fun f => c_solve f h).
Proof.
  unfold c_solve. apply lasting_then. intros c.
  apply (lasting_bind (fun f => lift (solve_pon f (c_method c) (c_iters c) (c_tol c) (c_sites c) (c_pon c)))
           (fun _ pon => modify (c_with_pon pon) ;; c_calcHopToInternal ;; c_calcHopToNeighbors ;; c_calcInternalDwell h)).
  - apply lasting_lift, solve_lasting.
  - intros a. apply lasting_const.
Qed.
Lemma update_lasting h : lasting (fun f => c_update f h).
Proof.
  unfold c_update. apply lasting_then. intros keys. apply lasting_then. intros saved.
  eapply (lasting_bind (fun f => c_solve f h)); [apply csolve_lasting|]. intros _. apply lasting_const.
Qed.
Lemma migrate_lasting h : lasting (fun f => c_migrate f h).
Proof.
  unfold c_migrate. do 7 (apply lasting_then; intros ?).
  eapply (lasting_bind (fun f => onFst (c_update f h))); [apply lasting_zoom, update_lasting|]. intros _. apply lasting_const.
Qed.
Lemma local_lasting {S A} (m : nat -> M S A) s : lasting m -> lasting (fun f => local (m f) s).
Proof. intros Hm f f' g L. unfold local. destruct (Hm f f' s L) as [-> | ->]; auto. Qed.
Lemma absorb_lasting fav c : lasting (fun f => absorb f fav c).
Proof.
  unfold absorb. do 3 (apply lasting_then; intros ?).
  eapply (lasting_bind (fun f => local (c_migrate f _) _)); [apply local_lasting, migrate_lasting|]. intros p. apply lasting_const.
Qed.
Lemma merge_lasting sac fav : lasting (fun f => merge_clusters f sac fav).
Proof.
  unfold merge_clusters. do 3 (apply lasting_then; intros ?).
  eapply (lasting_bind (fun f => in_clusters (at_key fav (throw InvalidArgument) (c_update f _)))).
  - apply lasting_zoom, lasting_at, update_lasting.
  - intros _. apply (lasting_mfor (fun f => absorb f fav)). intros c. apply absorb_lasting.
Qed.
Lemma create_lasting ids limit : lasting (fun f => create_cluster clk f ids limit).
Proof.
  unfold create_cluster. do 3 (apply lasting_then; intros ?).
  eapply (lasting_bind (fun f => local (c_setMethod ByTolerance ;; c_setTolerance (nlit 1 1000) ;; c_addSites _ ;; c_update f _) _)).
  - apply local_lasting. do 3 (apply lasting_then; intros ?). apply update_lasting.
  - intros p. apply lasting_const.
Qed.
Lemma loop_lasting nonce h b sites : forall i q, rlasting (fun f => basin_loop f nonce i h b sites q).
Proof.
  assert (X : forall f f' i q, (f <= f')%nat -> basin_loop f nonce i h b sites q = Bad Diverged \/
            basin_loop f' nonce i h b sites q = basin_loop f nonce i h b sites q).
  { induction f as [|f IH]; intros f' i q L.
    - destruct f'; cbn [basin_loop]; destruct (q_front q); auto.
    - destruct f' as [|f']; [lia|]. cbn [basin_loop]. destruct (q_front q); [auto|].
      destruct (add_edges _ _ _ _ _ _); cbn [rbind]; [|auto|auto]. destruct (b_max b <? _); [auto|]. apply IH. lia. }
  intros i q f f' L. apply X, L.
Qed.
Lemma basin_lasting nonce h b sites cl k : rlasting (fun f => find_basin f nonce h b sites cl k).
Proof.
  intros f f' L. unfold find_basin.
  repeat (match goal with |- context [rbind ?x _] => destruct x; cbn [rbind]; [|auto|auto] end). apply loop_lasting, L.
Qed.
Lemma coarse_lasting k : lasting (fun f => coarse_grain clk f k).
Proof.
  unfold coarse_grain. do 2 (apply lasting_then; intros ?).
  match goal with |- lasting (fun f => bind (lift (find_basin f ?n ?h ?b ?s ?c ?k)) _) =>
    eapply (lasting_bind (fun f => lift (find_basin f n h b s c k))) end.
  - apply lasting_lift, basin_lasting.
  - intros ids. apply lasting_then. intros [|]; [|apply lasting_const]. apply lasting_then. intros sac.
    destruct (_ && _).
    + eapply (lasting_bind (fun f => create_cluster clk f ids _)); [apply create_lasting|intros _; apply lasting_const].
    + destruct (negb _); [|apply lasting_const].
      eapply (lasting_bind (fun f => merge_clusters f sac _)); [apply merge_lasting|intros _; apply lasting_const].
Qed.
Lemma attempt_lasting k : lasting (fun f => hop_attempt clk f k).
Proof.
  unfold hop_attempt. do 4 (apply lasting_then; intros ?). destruct (_ <? _); [|apply lasting_const].
  apply lasting_then. intros m.
  destruct (negb _); [|apply lasting_const].
  match goal with |- lasting (fun f => bind (bind (coarse_grain clk f k) ?u) ?v) =>
    apply (lasting_bind (fun f => bind (coarse_grain clk f k) u) (fun _ => v)); [|intros _; apply lasting_const] end.
  eapply (lasting_bind (fun f => coarse_grain clk f k)); [apply coarse_lasting|]. intros b. apply lasting_const.
Qed.
Lemma hop_lasting id p : lasting (fun f => sys_hop clk f id p).
Proof. unfold sys_hop. do 3 (apply lasting_then; intros ?). apply attempt_lasting. Qed.
End Model.
