(** Uncorrelated variables on any probability space. *)
From Coq Require Import List Bool Arith ZArith Reals Lia Lra FunctionalExtensionality.
From Verif Require Import Base_SumR Spec_Linear Proofs_Linear Spec_Any.
Open Scope R_scope.

Lemma sumR_minus n f g : sumR n (fun i => f i - g i) = sumR n f - sumR n g.
Proof. induction n; cbn [sumR]; [ring|]. rewrite IHn. ring. Qed.
Lemma sumR_div n f k : sumR n (fun i => f i / k) = sumR n f / k.
Proof. unfold Rdiv. apply sumR_scal_r. Qed.

Lemma centredR n f : (0 < n)%nat ->
  sumR n (fun i => (f i - sumR n f / INR n) * (f i - sumR n f / INR n)) =
  sumR n (fun i => f i * f i) - sumR n f * sumR n f / INR n.
Proof.
  intros Hn. assert (N := INR_pos n Hn). set (a := sumR n f / INR n).
  rewrite (sumR_ext n _ (fun i => f i * f i - ((2 * a) * f i - a * a))) by (intros; ring).
  rewrite !sumR_minus, sumR_scal, sumR_const. unfold a. field. lra.
Qed.

Lemma sumR_single n f i : (i < n)%nat -> (forall j, (j < n)%nat -> j <> i -> f j = 0) -> sumR n f = f i.
Proof.
  induction n; [lia|]. intros Hi Z. cbn [sumR].
  destruct (Nat.eq_dec i n) as [->|E].
  - rewrite (sumR_ext n f (fun _ => 0)); [rewrite sumR_0; ring|]. intros j Hj. apply Z; lia.
  - rewrite IHn; [|lia|intros; apply Z; lia]. rewrite (Z n) by lia. ring.
Qed.

Section Lin.
Context {W I : Type} (C : chance W) (ok : I -> Prop) (V : I -> W -> R).
Hypothesis HV : forall i, ok i -> integrable C (V i).
Hypothesis HVV : forall i j, ok i -> ok j -> integrable C (fun w => V i w * V j w).

(** Linear combinations of the variables. *)
Inductive lin : (W -> R) -> Prop :=
| lin_base i : ok i -> lin (V i)
| lin_const a : lin (fun _ => a)
| lin_plus X Y : lin X -> lin Y -> lin (fun w => X w + Y w)
| lin_scale a X : lin X -> lin (fun w => a * X w).

Lemma lin_ext X Y : (forall w, X w = Y w) -> lin X -> lin Y.
Proof. intros H. replace Y with X; auto. apply functional_extensionality, H. Qed.
Lemma lin_minus X Y : lin X -> lin Y -> lin (fun w => X w - Y w).
Proof.
  intros HX HY. apply (lin_ext (fun w => X w + -1 * Y w)); [intros; ring|].
  apply lin_plus; [assumption|]. apply lin_scale. assumption.
Qed.
Lemma lin_div X a : lin X -> lin (fun w => X w / a).
Proof. intros HX. apply (lin_ext (fun w => / a * X w)); [intros; unfold Rdiv; ring|]. apply lin_scale, HX. Qed.
Lemma lin_sum n (X : nat -> W -> R) : (forall i, (i < n)%nat -> lin (X i)) -> lin (fun w => sumR n (fun i => X i w)).
Proof.
  induction n; intros H; cbn [sumR]; [apply lin_const|].
  apply lin_plus; [apply IHn; intros; apply H; lia|apply H; lia].
Qed.

Lemma lin_int X : lin X -> integrable C X.
Proof. induction 1; auto using integrable_const, integrable_plus, integrable_scale. Qed.
Lemma lin_mul_base X j : ok j -> lin X -> integrable C (fun w => X w * V j w).
Proof.
  intros J. induction 1.
  - auto.
  - apply integrable_scale, HV, J.
  - apply (int_ext C (fun w => X w * V j w + Y w * V j w)); [intros; ring|]. apply integrable_plus; assumption.
  - apply (int_ext C (fun w => a * (X w * V j w))); [intros; ring|]. apply integrable_scale. assumption.
Qed.
Lemma lin_mul X Y : lin X -> lin Y -> integrable C (fun w => X w * Y w).
Proof.
  intros HX. induction 1 as [j J| |Y Y' HY IY HY' IY'|a Y HY IY].
  - apply lin_mul_base; assumption.
  - apply (int_ext C (fun w => a * X w)); [intros; ring|]. apply integrable_scale, lin_int, HX.
  - apply (int_ext C (fun w => X w * Y w + X w * Y' w)); [intros; ring|]. apply integrable_plus; assumption.
  - apply (int_ext C (fun w => a * (X w * Y w))); [intros; ring|]. apply integrable_scale; assumption.
Qed.

Lemma int_sumI n (X : nat -> W -> R) : (forall i, (i < n)%nat -> integrable C (X i)) ->
  integrable C (fun w => sumR n (fun i => X i w)).
Proof.
  induction n; intros H; cbn [sumR]; [apply integrable_const|].
  apply integrable_plus; [apply IHn; intros; apply H; lia|apply H; lia].
Qed.
Lemma exp_sumI n (X : nat -> W -> R) : (forall i, (i < n)%nat -> integrable C (X i)) ->
  expect C (fun w => sumR n (fun i => X i w)) = sumR n (fun i => expect C (X i)).
Proof.
  induction n; intros H; cbn [sumR]; [apply expect_const|].
  rewrite expect_plus, IHn; auto; try (apply int_sumI); intros; apply H; lia.
Qed.
Lemma int_divI X a : integrable C X -> integrable C (fun w => X w / a).
Proof. intros HX. apply (int_ext C (fun w => / a * X w)); [intros; unfold Rdiv; ring|]. apply integrable_scale, HX. Qed.
Lemma exp_divI X a : integrable C X -> expect C (fun w => X w / a) = expect C X / a.
Proof.
  intros HX. rewrite (exp_ext C _ (fun w => / a * X w)) by (intros; unfold Rdiv; ring).
  rewrite expect_scale by assumption. unfold Rdiv. ring.
Qed.

Lemma cov_moments X Y : lin X -> lin Y ->
  covar C X Y = expect C (fun w => X w * Y w) - expect C X * expect C Y.
Proof.
  intros HX HY. unfold covar. set (a := expect C X). set (b := expect C Y).
  rewrite (exp_ext C _ (fun w => X w * Y w - (b * X w + (a * Y w - a * b)))) by (intros; ring).
  assert (IX := lin_int X HX). assert (IY := lin_int Y HY). assert (IXY := lin_mul X Y HX HY).
  assert (I1 : integrable C (fun w => a * Y w)) by (apply integrable_scale, IY).
  assert (I2 : integrable C (fun w => b * X w)) by (apply integrable_scale, IX).
  assert (I3 : integrable C (fun w => a * Y w - a * b)) by (apply int_minus; auto using integrable_const).
  rewrite exp_minus by (auto using integrable_plus).
  rewrite expect_plus by auto. rewrite exp_minus by (auto using integrable_const).
  rewrite !expect_scale, expect_const by auto. fold a b. ring.
Qed.
Lemma cov_ext X X' Y Y' : (forall w, X w = X' w) -> (forall w, Y w = Y' w) -> covar C X Y = covar C X' Y'.
Proof.
  intros HX HY. replace X' with X by (apply functional_extensionality, HX).
  replace Y' with Y by (apply functional_extensionality, HY). reflexivity.
Qed.
Lemma cov_sum_l n X Y : (forall i, (i < n)%nat -> lin (X i)) -> lin Y ->
  covar C (fun w => sumR n (fun i => X i w)) Y = sumR n (fun i => covar C (X i) Y).
Proof.
  intros HX HY. rewrite cov_moments by (auto using lin_sum).
  rewrite exp_sumI by (intros; apply lin_int; auto).
  rewrite (exp_ext C _ (fun w => sumR n (fun i => X i w * Y w))) by (intros; symmetry; apply sumR_scal_r).
  rewrite (exp_sumI n (fun i w => X i w * Y w)) by (intros; apply lin_mul; auto).
  rewrite <- sumR_scal_r, <- sumR_minus. apply sumR_ext. intros i Hi. symmetry. apply cov_moments; auto.
Qed.
Lemma cov_comm X Y : covar C X Y = covar C Y X.
Proof. unfold covar. apply exp_ext. intros. ring. Qed.
Lemma cov_sum n m X Y : (forall i, (i < n)%nat -> lin (X i)) -> (forall j, (j < m)%nat -> lin (Y j)) ->
  covar C (fun w => sumR n (fun i => X i w)) (fun w => sumR m (fun j => Y j w)) =
  sumR n (fun i => sumR m (fun j => covar C (X i) (Y j))).
Proof.
  intros HX HY. rewrite cov_sum_l by (auto using lin_sum). apply sumR_ext. intros i Hi.
  rewrite cov_comm, cov_sum_l by auto. apply sumR_ext. intros j _. apply cov_comm.
Qed.
Lemma cov_div X Y a b : lin X -> lin Y -> a <> 0 -> b <> 0 ->
  covar C (fun w => X w / a) (fun w => Y w / b) = covar C X Y / (a * b).
Proof.
  intros HX HY Ha Hb. rewrite !cov_moments by (auto using lin_div).
  rewrite !exp_divI by (apply lin_int; auto).
  rewrite (exp_ext C _ (fun w => X w * Y w / (a * b))) by (intros; field; auto).
  rewrite (exp_divI (fun w => X w * Y w)) by (apply lin_mul; auto). field. auto.
Qed.
Lemma cov_minus X X' Y Y' : lin X -> lin X' -> lin Y -> lin Y' ->
  covar C (fun w => X w - X' w) (fun w => Y w - Y' w) =
  covar C X Y - covar C X Y' - covar C X' Y + covar C X' Y'.
Proof.
  intros HX HX' HY HY'. rewrite !cov_moments by (auto using lin_minus).
  rewrite !exp_minus by (apply lin_int; auto).
  rewrite (exp_ext C _ (fun w => (X w * Y w - X w * Y' w) - (X' w * Y w - X' w * Y' w))) by (intros; ring).
  assert (forall A B, lin A -> lin B -> integrable C (fun w => A w * B w)) as M by (intros; apply lin_mul; auto).
  rewrite !exp_minus by (auto using int_minus). ring.
Qed.

(** n uncorrelated variables with means m and variances v. *)
Definition uncor (n : nat) (X : nat -> W -> R) (m v : nat -> R) : Prop :=
  (forall i, (i < n)%nat -> lin (X i)) /\
  (forall i, (i < n)%nat -> expect C (X i) = m i) /\
  (forall i, (i < n)%nat -> covar C (X i) (X i) = v i) /\
  (forall i j, (i < n)%nat -> (j < n)%nat -> i <> j -> covar C (X i) (X j) = 0).

Lemma uncor_sum n X m v : uncor n X m v ->
  covar C (fun w => sumR n (fun i => X i w)) (fun w => sumR n (fun i => X i w)) = sumR n v.
Proof.
  intros (HL & _ & V' & C'). rewrite cov_sum by assumption. apply sumR_ext. intros i Hi.
  rewrite (sumR_single n _ i Hi); [apply V'; exact Hi|]. intros j Hj E. apply C'; auto.
Qed.

Lemma int_centred_sum n X : (forall i, (i < n)%nat -> lin (X i)) ->
  integrable C (fun w => sumR n (fun i => (X i w - sumR n (fun i => X i w) / INR n) *
                                          (X i w - sumR n (fun i => X i w) / INR n))).
Proof.
  intros HX. apply (int_sumI n (fun i w => (X i w - sumR n (fun i => X i w) / INR n) *
                                          (X i w - sumR n (fun i => X i w) / INR n))).
  assert (lin (fun w => sumR n (fun i => X i w) / INR n)) by (apply lin_div, lin_sum, HX).
  intros i Hi. apply lin_mul; apply lin_minus; auto.
Qed.

Lemma exp_centred n X m v : (0 < n)%nat -> uncor n X m v ->
  expect C (fun w => sumR n (fun i => (X i w - sumR n (fun i => X i w) / INR n) *
                                      (X i w - sumR n (fun i => X i w) / INR n))) =
  sumR n (fun i => (m i - sumR n m / INR n) * (m i - sumR n m / INR n)) + (1 - 1 / INR n) * sumR n v.
Proof.
  intros Hn U. assert (N := INR_pos n Hn). destruct U as (HX & HM & HVr & HC).
  assert (HS : lin (fun w => sumR n (fun i => X i w))) by (apply lin_sum, HX).
  assert (M : forall A B, lin A -> lin B -> integrable C (fun w => A w * B w)) by (intros; apply lin_mul; auto).
  rewrite (exp_ext C _ (fun w => sumR n (fun i => X i w * X i w)
     - (sumR n (fun i => X i w) * sumR n (fun i => X i w)) / INR n)).
  2:{ intros w. apply (centredR n (fun i => X i w) Hn). }
  rewrite exp_minus; [|apply (int_sumI n (fun i w => X i w * X i w)); auto|apply int_divI; auto].
  rewrite exp_divI by auto.
  rewrite (exp_sumI n (fun i w => X i w * X i w)) by auto. rewrite (centredR n m Hn).
  assert (A : expect C (fun w => sumR n (fun i => X i w) * sumR n (fun i => X i w)) =
              sumR n m * sumR n m + sumR n v).
  { assert (Q := cov_moments _ _ HS HS).
    rewrite (uncor_sum n X m v (conj HX (conj HM (conj HVr HC)))), exp_sumI in Q by (intros; apply lin_int; auto).
    rewrite (sumR_ext n (fun i => expect C (X i)) m) in Q by (intros; apply HM; assumption).
    lra. }
  rewrite A.
  rewrite (sumR_ext n (fun i => expect C (fun w => X i w * X i w)) (fun i => m i * m i + v i)).
  2:{ intros i Hi. assert (Q := cov_moments (X i) (X i) (HX i Hi) (HX i Hi)).
      rewrite (HVr i Hi), (HM i Hi) in Q. lra. }
  rewrite sumR_plus. field. lra.
Qed.

(** Group means. *)
Lemma uncor_means n k X m v : (0 < k)%nat ->
  (forall i j, (i < n)%nat -> (j < k)%nat -> lin (X i j)) ->
  (forall i j, (i < n)%nat -> (j < k)%nat -> expect C (X i j) = m i j) ->
  (forall i j, (i < n)%nat -> (j < k)%nat -> covar C (X i j) (X i j) = v i j) ->
  (forall i j i' j', (i < n)%nat -> (j < k)%nat -> (i' < n)%nat -> (j' < k)%nat -> (i, j) <> (i', j') ->
     covar C (X i j) (X i' j') = 0) ->
  uncor n (fun i w => sumR k (fun j => X i j w) / INR k) (fun i => sumR k (m i) / INR k)
          (fun i => sumR k (v i) / (INR k * INR k)).
Proof.
  intros Hk HL HM HVr HC. assert (N := INR_pos k Hk).
  assert (LS : forall i, (i < n)%nat -> lin (fun w => sumR k (fun j => X i j w))) by (intros; apply lin_sum; auto).
  split; [|split; [|split]].
  - intros i Hi. apply lin_div; auto.
  - intros i Hi. rewrite exp_divI by (apply lin_int; auto). rewrite exp_sumI by (intros; apply lin_int; auto).
    rewrite (sumR_ext k _ (m i)); [reflexivity|]. intros j Hj. apply HM; assumption.
  - intros i Hi. rewrite (cov_div (fun w => sumR k (fun j => X i j w)) (fun w => sumR k (fun j => X i j w)))
      by (auto; lra).
    rewrite (uncor_sum k (X i) (m i) (v i)); [reflexivity|]. split; [|split; [|split]].
    + auto.
    + intros j Hj. apply HM; assumption.
    + intros j Hj. apply HVr; assumption.
    + intros j j' Hj Hj' E. apply HC; try assumption. intro F. apply E. congruence.
  - intros i i' Hi Hi' E.
    rewrite (cov_div (fun w => sumR k (fun j => X i j w)) (fun w => sumR k (fun j => X i' j w))) by (auto; lra).
    rewrite cov_sum by auto. rewrite (sumR_ext k _ (fun _ => 0)); [rewrite sumR_0; unfold Rdiv; ring|].
    intros j Hj. rewrite (sumR_ext k _ (fun _ => 0)); [apply sumR_0|].
    intros j' Hj'. apply HC; try assumption. congruence.
Qed.
End Lin.
