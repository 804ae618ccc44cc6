(** Finite sums over [0..n-1] of real numbers, and sums of cosines and sines. *)
From Coq Require Import Arith Reals Lra Lia.
Open Scope R_scope.

Fixpoint sumR (n : nat) (f : nat -> R) : R :=
  match n with O => 0 | S k => sumR k f + f k end.

Lemma sumR_ext n f g : (forall i, (i < n)%nat -> f i = g i) -> sumR n f = sumR n g.
Proof. induction n; simpl; intro H; auto. rewrite IHn, H by auto. reflexivity. Qed.

Lemma sumR_plus n f g : sumR n (fun i => f i + g i) = sumR n f + sumR n g.
Proof. induction n; simpl; [ring|]. rewrite IHn. ring. Qed.

Lemma sumR_scal n c f : sumR n (fun i => c * f i) = c * sumR n f.
Proof. induction n; simpl; [ring|]. rewrite IHn. ring. Qed.

Lemma sumR_scal_r n c f : sumR n (fun i => f i * c) = sumR n f * c.
Proof. induction n; simpl; [ring|]. rewrite IHn. ring. Qed.

Lemma sumR_const n c : sumR n (fun _ => c) = INR n * c.
Proof. induction n; [simpl; ring|]. cbn [sumR]. rewrite IHn, S_INR. ring. Qed.

Lemma sumR_0 n : sumR n (fun _ => 0) = 0.
Proof. rewrite sumR_const. ring. Qed.

Lemma sumR_swap n m f :
  sumR n (fun i => sumR m (fun j => f i j)) = sumR m (fun j => sumR n (fun i => f i j)).
Proof.
  induction n; simpl.
  - rewrite sumR_0. reflexivity.
  - rewrite IHn. rewrite <- sumR_plus. reflexivity.
Qed.

Lemma sumR_mult n m f g :
  sumR n f * sumR m g = sumR n (fun i => sumR m (fun j => f i * g j)).
Proof.
  rewrite <- sumR_scal_r. apply sumR_ext. intros i _. rewrite sumR_scal. reflexivity.
Qed.

Lemma sumR_nonneg n f : (forall i, (i < n)%nat -> 0 <= f i) -> 0 <= sumR n f.
Proof.
  induction n; simpl; intro H; [lra|].
  assert (0 <= sumR n f) by (apply IHn; intros; apply H; lia).
  specialize (H n ltac:(lia)). lra.
Qed.

Lemma sumR_le n f g : (forall i, (i < n)%nat -> f i <= g i) -> sumR n f <= sumR n g.
Proof.
  induction n; simpl; intro H; [lra|].
  assert (sumR n f <= sumR n g) by (apply IHn; intros; apply H; lia).
  specialize (H n ltac:(lia)). lra.
Qed.

Lemma sumR_telescope n (f : nat -> R) : sumR n (fun i => f (S i) - f i) = f n - f O.
Proof. induction n; simpl; [ring|]. rewrite IHn. ring. Qed.

Lemma sumR_delta n k v : (k < n)%nat ->
  sumR n (fun i => if (i =? k)%nat then v i else 0) = v k.
Proof.
  intro H. induction n; [lia|]. cbn [sumR].
  destruct (Nat.eqb_spec n k).
  - subst. rewrite (sumR_ext k _ (fun _ => 0)).
    + rewrite sumR_0. ring.
    + intros i Hi. destruct (Nat.eqb_spec i k); auto; lia.
  - rewrite IHn by lia. ring.
Qed.

(** Double sums. *)
Definition sumR2 (h w : nat) (f : nat -> nat -> R) : R := sumR h (fun i => sumR w (fun j => f i j)).

Lemma sumR2_ext h w f g :
  (forall i j, (i < h)%nat -> (j < w)%nat -> f i j = g i j) -> sumR2 h w f = sumR2 h w g.
Proof. intro H. apply sumR_ext. intros i Hi. apply sumR_ext. intros j Hj. auto. Qed.

Lemma sumR2_scal h w c f : sumR2 h w (fun i j => c * f i j) = c * sumR2 h w f.
Proof. unfold sumR2. rewrite <- sumR_scal. apply sumR_ext. intros. apply sumR_scal. Qed.

Lemma sumR2_const h w c : sumR2 h w (fun _ _ => c) = INR h * INR w * c.
Proof.
  unfold sumR2. rewrite (sumR_ext h _ (fun _ => INR w * c)) by (intros; apply sumR_const).
  rewrite sumR_const. ring.
Qed.

(** ** Whole turns *)
Lemma cos_turns x n : cos (x + 2 * INR n * PI) = cos x.
Proof. apply cos_period. Qed.
Lemma sin_turns x n : sin (x + 2 * INR n * PI) = sin x.
Proof. apply sin_period. Qed.

Lemma INR_pos n : (0 < n)%nat -> 0 < INR n.
Proof. intro H. apply lt_0_INR. auto. Qed.

(** Sums of cosines and sines over a full period vanish. *)
Lemma sum_cos_telescope t n :
  2 * sin (t / 2) * sumR n (fun k => cos (t * INR k)) = sin (t * INR n - t / 2) + sin (t / 2).
Proof.
  rewrite <- sumR_scal.
  rewrite (sumR_ext n _ (fun k => sin (t * INR (S k) - t / 2) - sin (t * INR k - t / 2))).
  - rewrite (sumR_telescope n (fun k => sin (t * INR k - t / 2))). simpl INR.
    replace (t * 0 - t / 2) with (- (t / 2)) by field. rewrite sin_neg. ring.
  - intros k _. rewrite S_INR.
    replace (t * (INR k + 1) - t / 2) with (t * INR k + t / 2) by field.
    rewrite sin_plus, sin_minus. ring.
Qed.

Lemma sum_sin_telescope t n :
  2 * sin (t / 2) * sumR n (fun k => sin (t * INR k)) = cos (t / 2) - cos (t * INR n - t / 2).
Proof.
  rewrite <- sumR_scal.
  rewrite (sumR_ext n _ (fun k => (fun i => - cos (t * INR i - t / 2)) (S k)
                                  - (fun i => - cos (t * INR i - t / 2)) k)).
  - rewrite (sumR_telescope n (fun k => - cos (t * INR k - t / 2))). simpl INR.
    replace (t * 0 - t / 2) with (- (t / 2)) by field. rewrite cos_neg. ring.
  - intros k _. rewrite S_INR. cbv beta.
    replace (t * (INR k + 1) - t / 2) with (t * INR k + t / 2) by field.
    rewrite cos_plus, cos_minus. ring.
Qed.

Lemma sin_half_nonzero c m : (0 < m < c)%nat -> sin (2 * PI * INR m / INR c / 2) <> 0.
Proof.
  intros [H1 H2]. assert (P := PI_RGT_0). assert (M := INR_pos m H1).
  assert (L : INR m < INR c) by (apply lt_INR; auto).
  replace (2 * PI * INR m / INR c / 2) with (PI * (INR m / INR c)) by (field; lra).
  assert (0 < INR m / INR c) by (apply Rdiv_lt_0_compat; lra).
  assert (INR m / INR c < 1) by (apply (Rmult_lt_reg_r (INR c)); [lra|]; field_simplify; lra).
  assert (0 < sin (PI * (INR m / INR c))); [|lra]. apply sin_gt_0.
  - apply Rmult_lt_0_compat; auto.
  - rewrite <- (Rmult_1_r PI) at 2. apply Rmult_lt_compat_l; auto.
Qed.

Lemma sum_cos_zero c m : (0 < m < c)%nat -> sumR c (fun k => cos (2 * PI * INR m / INR c * INR k)) = 0.
Proof.
  intro H. set (t := 2 * PI * INR m / INR c).
  assert (E := sum_cos_telescope t c). assert (N := sin_half_nonzero c m H). fold t in N.
  assert (C : 0 < INR c) by (apply INR_pos; lia).
  replace (t * INR c - t / 2) with (- (t / 2) + 2 * INR m * PI) in E by (unfold t; field; lra).
  rewrite sin_turns, sin_neg in E. 
  apply (Rmult_eq_reg_l (2 * sin (t / 2))); [|lra]. rewrite E. ring.
Qed.

Lemma sum_sin_zero c m : (m < c)%nat -> sumR c (fun k => sin (2 * PI * INR m / INR c * INR k)) = 0.
Proof.
  intro H0. destruct (Nat.eq_dec m 0) as [->|Hm].
  - rewrite (sumR_ext c _ (fun _ => 0)); [apply sumR_0|]. intros i _.
    replace (2 * PI * INR 0 / INR c * INR i) with 0 by (simpl; unfold Rdiv; ring). apply sin_0.
  - assert (H : (0 < m < c)%nat) by lia. set (t := 2 * PI * INR m / INR c).
    assert (E := sum_sin_telescope t c). assert (N := sin_half_nonzero c m H). fold t in N.
    assert (C : 0 < INR c) by (apply INR_pos; lia).
    replace (t * INR c - t / 2) with (- (t / 2) + 2 * INR m * PI) in E by (unfold t; field; lra).
    rewrite cos_turns, cos_neg in E.
    apply (Rmult_eq_reg_l (2 * sin (t / 2))); [|lra]. rewrite E. ring.
Qed.
