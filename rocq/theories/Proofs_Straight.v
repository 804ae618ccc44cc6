(** Proofs for C117: the linearity error of a nearly linear sensor. *)
From Coq Require Import List Bool Arith ZArith QArith Qreals Reals Lia Lra.
From Verif Require Import Base_Prelude Base_Num Base_Order Base_Sum Base_SumR Model_Images Model_Data
  Model_Results Spec_Results Spec_Linear Spec_Near Spec_Straight Proofs_Results Proofs_Results3
  Proofs_Near Proofs_Figures.
Import ListNotations.
Open Scope R_scope.
Set Bullet Behavior "Strict Subproofs".

Section Line.
Variables (X Y : nat -> Q) (lo hi : nat) (a b : Q).
Hypothesis B : best_relative_line X Y lo hi a b.
Let m := (hi - lo)%nat.
Let x i := Q2R (X (lo + i)%nat).
Let y i := Q2R (Y (lo + i)%nat).
Let l i := Q2R a * x i + Q2R b.
Let t i := (y i - l i) / y i.
Hypothesis NZ : forall i, (i <= m)%nat -> y i <> 0.

Let sse_eq c d : sse_relative X Y lo hi c d = sumR (S m) (fun i => sq ((y i - (c * x i + d)) / y i)).
Proof. unfold sse_relative. rewrite sum_f_sumR. reflexivity. Qed.

Lemma best_le c d : sumR (S m) (fun i => sq (t i)) <= sumR (S m) (fun i => sq ((y i - (c * x i + d)) / y i)).
Proof.
  rewrite <- sse_eq. change (sumR (S m) (fun i => sq (t i))) with (sumR (S m) (fun i => sq ((y i - (Q2R a * x i + Q2R b)) / y i))).
  rewrite <- sse_eq.
  destruct (Req_dec c (Q2R a)) as [->|N]; [destruct (Req_dec d (Q2R b)) as [->|N]; [apply Rle_refl|]|];
    apply Rlt_le, B; tauto.
Qed.

(** The relative residuals of the best line are orthogonal to the line itself. *)
Lemma best_orthogonal : sumR (S m) (fun i => t i * (1 - t i)) = 0.
Proof.
  set (g := sumR (S m) (fun i => t i * (1 - t i))). set (ff := sumR (S m) (fun i => sq (1 - t i))).
  assert (H : forall u, sumR (S m) (fun i => sq (t i)) <= sumR (S m) (fun i => sq (t i)) + (-2 * u) * g + u * u * ff).
  { intros u. eapply Rle_trans; [apply (best_le ((1 + u) * Q2R a) ((1 + u) * Q2R b))|].
    unfold g, ff. rewrite <- !sumR_scal, <- !sumR_plus. apply Req_le, sumR_ext. intros i Hi.
    assert (N := NZ i ltac:(lia)). unfold sq, t, l. field. exact N. }
  assert (P : 0 <= ff) by (apply sumR_nonneg; intros; unfold sq; apply Rle_0_sqr).
  destruct (Req_dec g 0) as [Z|Z]; [exact Z|exfalso].
  assert (G : 0 < g * g) by nra.
  assert (H1 := H (g / (1 + ff))).
  replace (-2 * (g / (1 + ff)) * g) with (-2 * (g * g / (1 + ff))) in H1 by (field; lra).
  replace (g / (1 + ff) * (g / (1 + ff)) * ff) with (g * g / (1 + ff) * (ff / (1 + ff))) in H1 by (field; lra).
  assert (0 < g * g / (1 + ff)) by (apply Rmult_lt_0_compat; [exact G|apply Rinv_0_lt_compat; lra]).
  assert (ff / (1 + ff) <= 1) by (apply (Rmult_le_reg_r (1 + ff)); [lra|]; unfold Rdiv; rewrite Rmult_assoc, Rinv_l by lra; lra).
  nra.
Qed.

Lemma line_value i : (i <= m)%nat -> l i = y i * (1 - t i).
Proof. intros Hi. unfold t. field. apply NZ, Hi. Qed.

(** Not all points are on the same side. *)
Lemma both_sides : (forall i, (i <= m)%nat -> l i <> 0) ->
  ~ (forall i, (i <= m)%nat -> 0 < (y i - l i) / l i) /\ ~ (forall i, (i <= m)%nat -> (y i - l i) / l i < 0).
Proof.
  intros LN.
  assert (E : forall i, (i <= m)%nat -> t i * (1 - t i) = (y i - l i) / l i * ((1 - t i) * (1 - t i)) /\ 0 < (1 - t i) * (1 - t i)).
  { intros i Hi. assert (N := NZ i Hi). assert (L := LN i Hi). split.
    - unfold t. field. split; assumption.
    - assert (1 - t i <> 0) by (intros Z; apply L; rewrite line_value, Z by exact Hi; ring). nra. }
  assert (O := best_orthogonal). split; intros S.
  - assert (0 < sumR (Datatypes.S m) (fun i => t i * (1 - t i))); [|lra].
    apply sumR_pos; [lia|]. intros i Hi. destruct (E i ltac:(lia)) as (-> & P).
    apply Rmult_lt_0_compat; [apply S; lia|exact P].
  - assert (0 < sumR (Datatypes.S m) (fun i => - (t i * (1 - t i)))).
    { apply sumR_pos; [lia|]. intros i Hi. destruct (E i ltac:(lia)) as (-> & P).
      assert (Q := S i ltac:(lia)). nra. }
    assert (Z : sumR (Datatypes.S m) (fun i => - (t i * (1 - t i))) = (-1) * sumR (Datatypes.S m) (fun i => t i * (1 - t i))).
    { rewrite <- sumR_scal. apply sumR_ext. intros. ring. }
    lra.
Qed.

Lemma sumR_term n f i : (i < n)%nat -> (forall j, (j < n)%nat -> 0 <= f j) -> f i <= sumR n f.
Proof.
  intros Hi P. induction n as [|n IH]; [lia|]. cbn [sumR].
  assert (0 <= sumR n f) by (apply sumR_nonneg; intros; apply P; lia).
  assert (0 <= f n) by (apply P; lia).
  destruct (Nat.eq_dec i n) as [->|N]; [lra|]. assert (f i <= sumR n f) by (apply IH; [lia|intros; apply P; lia]). lra.
Qed.

(** If some line misses each point by at most the part d, the best one misses each by at most
    the part d times the root of the number of points. *)
Lemma best_part c e d i : (forall i, (i <= m)%nat -> Rabs (y i - (c * x i + e)) <= d * Rabs (y i)) ->
  (i <= m)%nat -> 0 <= d -> Rabs (t i) <= sqrt (INR (S m)) * d.
Proof.
  intros C Hi D0. assert (P : 0 <= sqrt (INR (S m)) * d) by (apply Rmult_le_pos; [apply sqrt_pos|exact D0]).
  rewrite <- (Rabs_pos_eq _ P). apply Rsqr_le_abs_0. unfold Rsqr.
  replace (sqrt (INR (S m)) * d * (sqrt (INR (S m)) * d)) with (sqrt (INR (S m)) * sqrt (INR (S m)) * (d * d)) by ring.
  rewrite sqrt_sqrt by apply pos_INR.
  eapply Rle_trans; [apply (sumR_term (S m) (fun i => sq (t i)) i ltac:(lia)); intros; unfold sq; apply Rle_0_sqr|].
  eapply Rle_trans; [apply (best_le c e)|].
  rewrite <- (sumR_const (S m) (d * d)). apply sumR_le. intros j Hj.
  assert (N := NZ j ltac:(lia)). assert (A := C j ltac:(lia)).
  unfold sq. apply (Rsqr_le_abs_1 _ d). rewrite (Rabs_pos_eq d D0). unfold Rdiv. rewrite Rabs_mult, Rabs_inv.
  assert (Y0 : 0 < Rabs (y j)) by (apply Rabs_pos_lt, N).
  apply (Rmult_le_reg_r (Rabs (y j))); [exact Y0|]. rewrite Rmult_assoc, Rinv_l by lra. lra.
Qed.

Lemma best_deviation s i : (i <= m)%nat -> Rabs (t i) <= s -> s < 1 ->
  l i <> 0 /\ - (100 * s / (1 + s)) <= 100 * (y i - l i) / l i <= 100 * s / (1 - s).
Proof.
  intros Hi A S1. assert (N := NZ i Hi). assert (s0 := Rle_trans _ _ _ (Rabs_pos _) A).
  assert (T : - s <= t i <= s) by (revert A; unfold Rabs; destruct (Rcase_abs (t i)); lra).
  assert (L : l i <> 0) by (rewrite line_value by exact Hi; apply Rmult_integral_contrapositive; split; [exact N|lra]).
  split; [exact L|].
  replace (100 * (y i - l i) / l i) with (100 * (t i / (1 - t i))).
  2: { rewrite (line_value i Hi). field. split; [lra|exact N]. }
  assert (V : 0 < / (1 - t i)) by (apply Rinv_0_lt_compat; lra).
  assert (VE : / (1 - t i) * (1 - t i) = 1) by (apply Rinv_l; lra).
  split.
  - replace (- (100 * s / (1 + s))) with (100 * (- s / (1 + s))) by (field; lra). apply Rmult_le_compat_l; [lra|].
    apply (Rmult_le_reg_r ((1 - t i) * (1 + s))); [apply Rmult_lt_0_compat; lra|].
    replace (- s / (1 + s) * ((1 - t i) * (1 + s))) with (- s * (1 - t i)) by (field; lra).
    replace (t i / (1 - t i) * ((1 - t i) * (1 + s))) with (t i * (1 + s)) by (field; lra). lra.
  - replace (100 * s / (1 - s)) with (100 * (s / (1 - s))) by (field; lra). apply Rmult_le_compat_l; [lra|].
    apply (Rmult_le_reg_r ((1 - t i) * (1 - s))); [apply Rmult_lt_0_compat; lra|].
    replace (s / (1 - s) * ((1 - t i) * (1 - s))) with (s * (1 - t i)) by (field; lra).
    replace (t i / (1 - t i) * ((1 - t i) * (1 - s))) with (t i * (1 - s)) by (field; lra). lra.
Qed.
End Line.
