(** * Arithmetic in another unit *)
From Coq Require Import ZArith List Bool Reals Lra Lia.
From Verif Require Import Base BaseProofs Num QuerySpec UnitSpec.
Import ListNotations.
Open Scope R_scope.

Section Times.
Variable a : R.
Hypothesis Ha : 0 < a.

Lemma Rltb_times x y : Rltb (a * x) (a * y) = Rltb x y.
Proof.
  unfold Rltb. destruct (Rlt_dec (a * x) (a * y)) as [H|H], (Rlt_dec x y) as [H'|H']; try reflexivity; exfalso.
  - apply Rmult_lt_reg_l in H; [contradiction|assumption].
  - apply H. apply Rmult_lt_compat_l; assumption.
Qed.
Lemma Reqb_times x y : Reqb (a * x) (a * y) = Reqb x y.
Proof.
  unfold Reqb. destruct (Req_EM_T (a * x) (a * y)) as [H|H], (Req_EM_T x y) as [H'|H']; try reflexivity; exfalso.
  - apply Rmult_eq_reg_l in H; [contradiction|lra].
  - subst. auto.
Qed.
Lemma Rltb_times0 x : Rltb 0 (a * x) = Rltb 0 x.
Proof. replace 0 with (a * 0) at 1 by lra. apply Rltb_times. Qed.
Lemma Rltb_times0' x : Rltb (a * x) 0 = Rltb x 0.
Proof. replace 0 with (a * 0) at 1 by lra. apply Rltb_times. Qed.
Lemma Reqb_times0 x : Reqb (a * x) 0 = Reqb x 0.
Proof. replace 0 with (a * 0) at 1 by lra. apply Reqb_times. Qed.

Lemma t_0 : times a (Fin 0) = Fin 0.
Proof. cbn. f_equal. lra. Qed.
Lemma t_add x y : xadd (times a x) (times a y) = times a (xadd x y).
Proof. destruct x, y; cbn; try reflexivity. f_equal. lra. Qed.
Lemma t_opp x : xopp (times a x) = times a (xopp x).
Proof. destruct x; cbn; try reflexivity. f_equal. lra. Qed.
Lemma t_sub x y : xsub (times a x) (times a y) = times a (xsub x y).
Proof. unfold xsub. rewrite t_opp. apply t_add. Qed.
Lemma t_scale x b : xscale (a * x) b = xscale x b.
Proof. unfold xscale. rewrite Reqb_times0, Rltb_times0. reflexivity. Qed.
Lemma t_scale' x b : times a (xscale x b) = xscale x b.
Proof. unfold xscale. destruct (Reqb x 0); [reflexivity|]. destruct (Bool.eqb _ _); reflexivity. Qed.
Lemma t_mul x y : xmul (times a x) y = times a (xmul x y).
Proof. destruct x, y; cbn; rewrite ?t_scale, ?t_scale'; try reflexivity. f_equal. lra. Qed.
Lemma t_mul_r x y : xmul x (times a y) = times a (xmul x y).
Proof. destruct x, y; cbn; rewrite ?t_scale, ?t_scale'; try reflexivity. f_equal. lra. Qed.
Lemma t_div x y : xdiv (times a x) y = times a (xdiv x y).
Proof.
  destruct x, y; cbn; rewrite ?Reqb_times0, ?Rltb_times0; try reflexivity; try (rewrite ?Rmult_0_r; reflexivity).
  - destruct (Reqb r0 0).
    + destruct (Reqb r 0); [reflexivity|]. destruct (Rltb 0 r); reflexivity.
    + cbn. f_equal. unfold Rdiv. lra.
  - destruct (Rltb r 0); reflexivity.
  - destruct (Rltb r 0); reflexivity.
Qed.
Lemma t_div_both x y : xdiv (times a x) (times a y) = xdiv x y.
Proof.
  destruct x, y; cbn; rewrite ?Reqb_times0, ?Rltb_times0, ?Rltb_times0'; try reflexivity.
  destruct (Reqb r0 0) eqn:E; [reflexivity|]. f_equal. unfold Reqb in E. destruct (Req_EM_T r0 0); [discriminate|].
  field. lra.
Qed.
Lemma t_ltb x y : xltb (times a x) (times a y) = xltb x y.
Proof. destruct x, y; cbn; try reflexivity. apply Rltb_times. Qed.
Lemma t_eqb x y : xeqb (times a x) (times a y) = xeqb x y.
Proof. destruct x, y; cbn; try reflexivity. apply Reqb_times. Qed.
Lemma t_leb x y : xleb (times a x) (times a y) = xleb x y.
Proof. unfold xleb. rewrite t_ltb, t_eqb. reflexivity. Qed.
Lemma t_ltb0 x : xltb (Fin 0) (times a x) = xltb (Fin 0) x.
Proof. rewrite <- t_0 at 1. apply t_ltb. Qed.
Lemma t_leb0 x : xleb (times a x) (Fin 0) = xleb x (Fin 0).
Proof. rewrite <- t_0 at 1. apply t_leb. Qed.
Lemma t_eqb0 x : xeqb (times a x) (Fin 0) = xeqb x (Fin 0).
Proof. rewrite <- t_0 at 1. apply t_eqb. Qed.
End Times.

Lemma t_t a b x : times a (times b x) = times (a * b) x.
Proof. destruct x; cbn; try reflexivity. f_equal. lra. Qed.
Lemma t_1 x : times 1 x = x.
Proof. destruct x; cbn; try reflexivity. f_equal. lra. Qed.

Section Unit.
Variable c : R.
Hypothesis Hc : 0 < c.
Lemma Hk : 0 < / c.
Proof. apply Rinv_0_lt_compat, Hc. Qed.
(** a number divided by a rate is a time, a rate times a time is a number *)
Lemma r_t x y : xmul (times c x) (times (/ c) y) = xmul x y.
Proof. rewrite (t_mul c Hc), (t_mul_r (/ c) Hk), t_t, Rinv_r, t_1 by lra. reflexivity. Qed.
Lemma div_r x y : xdiv x (times c y) = times (/ c) (xdiv x y).
Proof.
  rewrite <- (t_1 x) at 1. replace 1 with (c * / c) by (field; lra). rewrite <- t_t.
  rewrite (t_div_both c Hc), (t_div (/ c) Hk). reflexivity.
Qed.
Lemma div_t x y : xdiv x (times (/ c) y) = times c (xdiv x y).
Proof.
  rewrite <- (t_1 x) at 1. replace 1 with (/ c * c) by (field; lra). rewrite <- t_t.
  rewrite (t_div_both (/ c) Hk), (t_div c Hc). reflexivity.
Qed.
End Unit.

(** ** A change of the unit that the operations do not notice *)
Record lawful {N : Num} := mkLawful {
  lc :> change N;
  l_r0 : new_rate lc n0 = n0;
  l_m0 : new_time lc n0 = n0;
  l_radd x y : nadd (new_rate lc x) (new_rate lc y) = new_rate lc (nadd x y);
  l_madd x y : nadd (new_time lc x) (new_time lc y) = new_time lc (nadd x y);
  l_rsub x y : nsub (new_rate lc x) (new_rate lc y) = new_rate lc (nsub x y);
  l_msub x y : nsub (new_time lc x) (new_time lc y) = new_time lc (nsub x y);
  l_rmul x y : nmul (new_rate lc x) y = new_rate lc (nmul x y);
  l_mmul x y : nmul (new_time lc x) y = new_time lc (nmul x y);
  l_rmulr x y : nmul x (new_rate lc y) = new_rate lc (nmul x y);
  l_mmulr x y : nmul x (new_time lc y) = new_time lc (nmul x y);
  l_rm x y : nmul (new_rate lc x) (new_time lc y) = nmul x y;
  l_rdivb x y : ndiv (new_rate lc x) (new_rate lc y) = ndiv x y;
  l_mdivb x y : ndiv (new_time lc x) (new_time lc y) = ndiv x y;
  l_rdiv x y : ndiv (new_rate lc x) y = new_rate lc (ndiv x y);
  l_mdiv x y : ndiv (new_time lc x) y = new_time lc (ndiv x y);
  l_rinv x y : ndiv x (new_rate lc y) = new_time lc (ndiv x y);
  l_minv x y : ndiv x (new_time lc y) = new_rate lc (ndiv x y);
  l_rltb x y : nltb (new_rate lc x) (new_rate lc y) = nltb x y;
  l_mltb x y : nltb (new_time lc x) (new_time lc y) = nltb x y;
  l_rleb x y : nleb (new_rate lc x) (new_rate lc y) = nleb x y;
  l_mleb x y : nleb (new_time lc x) (new_time lc y) = nleb x y;
  l_reqb x y : neqb (new_rate lc x) (new_rate lc y) = neqb x y;
  (** the mark of a time that is not set equals itself *)
  l_mark : neqb ndblmin ndblmin = true
}.
Arguments lawful : clear implicits.
Definition exact_lawful (c : R) (Hc : 0 < c) : lawful XR.
Proof.
  refine (@mkLawful XR (exact_change c) _ _ _ _ _ _ _ _ _ _ _ _ _ _ _ _ _ _ _ _ _ _ _);
    cbn [new_rate new_time exact_change nadd nsub nmul ndiv nltb nleb neqb num XR].
  - apply t_0. - apply t_0. - apply t_add. - apply t_add. - apply t_sub. - apply t_sub.
  - apply t_mul, Hc. - apply t_mul, Hk, Hc. - apply t_mul_r, Hc. - apply t_mul_r, Hk, Hc. - apply r_t, Hc.
  - apply t_div_both, Hc. - apply t_div_both, Hk, Hc. - apply t_div, Hc. - apply t_div, Hk, Hc. - apply div_r, Hc. - apply div_t, Hc.
  - apply t_ltb, Hc. - apply t_ltb, Hk, Hc. - apply t_leb, Hc. - apply t_leb, Hk, Hc. - apply t_eqb, Hc.
  - cbn [ndblmin XR xeqb]. unfold Reqb. destruct (Req_EM_T dbl_min dbl_min) as [_|F]; [reflexivity|destruct (F eq_refl)].
Defined.

(** ** Maps *)
Section Maps.
Context {I : Impl}.
Hypothesis K : keys_only.
Context {V W : Type} (f : V -> W).
Lemma vm_lookup k (m : umap V) : ulookup k (vmap f m) = option_map f (ulookup k m).
Proof. induction m as [|[j v] m IH]; [reflexivity|]. cbn. destruct (k =? j)%Z; [reflexivity|exact IH]. Qed.
Lemma vm_mem k (m : umap V) : umem k (vmap f m) = umem k m.
Proof. unfold umem. rewrite vm_lookup. destruct (ulookup k m); reflexivity. Qed.
Lemma vm_keys (m : umap V) : ukeys (vmap f m) = ukeys m.
Proof. unfold ukeys, vmap. rewrite map_map. reflexivity. Qed.
Lemma vm_length (m : umap V) : length (vmap f m) = length m.
Proof. apply map_length. Qed.
Lemma vm_replace k v (m : umap V) : ureplace k (f v) (vmap f m) = vmap f (ureplace k v m).
Proof. induction m as [|[j x] m IH]; [reflexivity|]. cbn. destruct (k =? j)%Z; [reflexivity|]. cbn. f_equal. exact IH. Qed.
Lemma vm_remove k (m : umap V) : uremove k (vmap f m) = vmap f (uremove k m).
Proof. induction m as [|[j x] m IH]; [reflexivity|]. cbn. destruct (k =? j)%Z; [reflexivity|]. cbn. f_equal. exact IH. Qed.
Lemma vm_set k v (m : umap V) : uset (vmap f m) k (f v) = vmap f (uset m k v).
Proof. unfold uset. rewrite vm_mem. destruct (umem k m); [apply vm_replace|apply K]. Qed.
Lemma vm_get d k (m : umap V) : uget (f d) k (vmap f m) = f (uget d k m).
Proof. unfold uget. rewrite vm_lookup. destruct (ulookup k m); reflexivity. Qed.
Lemma vm_app (m n : umap V) : vmap f (m ++ n) = vmap f m ++ vmap f n.
Proof. apply map_app. Qed.
End Maps.
Lemma vm_vm {A B C} (f : A -> B) (g : B -> C) m : vmap g (vmap f m) = vmap (fun x => g (f x)) m.
Proof. unfold vmap. rewrite map_map. reflexivity. Qed.
Lemma vm_ext {A B} (f g : A -> B) m : (forall x, f x = g x) -> vmap f m = vmap g m.
Proof. intros H. unfold vmap. apply map_ext. intros e. rewrite H. reflexivity. Qed.
