(** C123: how far the expected parts are from the true ones; a sensor made of coins. *)
From Coq Require Import List Bool Arith ZArith QArith Qreals Reals Lia Lra.
From Verif Require Import Base_Prelude Base_Sum Base_SumR Model_Images Model_Loader Model_Data Model_Results
  Spec_Images Spec_Data Spec_Results Spec_Chance Spec_Linear Spec_Any Spec_Components
  Proofs_Data Proofs_Data2 Proofs_Results4 Proofs_Chance Proofs_Chance2 Proofs_Linear Proofs_Any Proofs_Any2 Proofs_Any4
  Proofs_Near4 Proofs_Components Proofs_Components2 Proofs_Components3.
Import ListNotations.
Open Scope R_scope.

(** ** Arithmetic of the split *)
Lemma frac_le a b : 0 <= a <= b -> 0 < b -> 0 <= a / b <= 1.
Proof.
  intros (A & B) P. split; [apply Rmult_le_pos; [exact A|apply Rlt_le, Rinv_0_lt_compat, P]|].
  apply (Rmult_le_reg_r b); [exact P|]. unfold Rdiv. rewrite Rmult_assoc, Rinv_l by lra. lra.
Qed.
Lemma frac_pos a b : 0 < a -> 0 < b -> 0 < a / b.
Proof. intros. apply Rdiv_lt_0_compat; assumption. Qed.

Section Bias.
Variables (M N vr vc vp s : R).
Hypotheses (M3 : 3 <= M) (N3 : 3 <= N) (Hr : 0 <= vr) (Hc : 0 <= vc) (Hp : 0 <= vp) (Hs : 0 <= s).
Let D := M * N - M - N.
Let E := M * N - 1.
Let Dpos : 0 < D. Proof. unfold D. Lra.nra. Qed.
Let Epos : 0 < E. Proof. unfold E. Lra.nra. Qed.
Let DM : M <= D. Proof. unfold D. Lra.nra. Qed.
Let DN : N <= D. Proof. unfold D. Lra.nra. Qed.

Definition t_ := (vr * N * (M - 1) + vc * M * (N - 1)) / E + vp.
Definition c_ := (1 - 1 / N) * (vc + vp / M) - s / (M * N).
Definition r_ := (1 - 1 / M) * (vr + vp / N) - s / (M * N).

Lemma row_bias : vr - ((M * N - N) * r_ - M * (t_ - c_)) / D =
  vr * ((N - 1) / E + N * (M - 1) / E * ((M - 1) / M) * (1 / D)) +
  vc * (M * (N - 1) / E * (1 / N) * (1 / D)) + (vp + s) * ((1 - 1 / M + 1 / N) * (1 / D)).
Proof. unfold t_, c_, r_. unfold E, D in *. field. repeat split; lra. Qed.
Lemma col_bias : vc - ((M * N - M) * c_ - N * (t_ - r_)) / D =
  vc * ((M - 1) / E + M * (N - 1) / E * ((N - 1) / N) * (1 / D)) +
  vr * (N * (M - 1) / E * (1 / M) * (1 / D)) + (vp + s) * ((1 - 1 / N + 1 / M) * (1 / D)).
Proof. unfold t_, c_, r_. unfold E, D in *. field. repeat split; lra. Qed.
Lemma pixel_bias : (M * N * (t_ - c_ - r_)) / D - vp =
  vr * (N * (M - 1) / E * (1 / D)) + vc * (M * (N - 1) / E * (1 / D)) + (vp + s) * (2 * (1 / D)).
Proof. unfold t_, c_, r_. unfold E, D in *. field. repeat split; lra. Qed.

Lemma three_weights a b d x : 0 < a <= x -> 0 < b <= x -> 0 < d <= x -> forall p q r, 0 <= p -> 0 <= q -> 0 <= r ->
  0 <= p * a + q * b + r * d <= (p + q + r) * x /\ (0 < p + q + r -> 0 < p * a + q * b + r * d).
Proof.
  intros (A & A') (B & B') (F & F') p q r P Q R.
  assert (0 <= p * a <= p * x) by Lra.nra. assert (0 <= q * b <= q * x) by Lra.nra.
  assert (0 <= r * d <= r * x) by Lra.nra. split; [lra|]. intros T.
  destruct (Rle_lt_dec p 0); destruct (Rle_lt_dec q 0); Lra.nra.
Qed.

Variable n : R.
Hypotheses (n0 : 0 < n) (nM : n <= M) (nN : n <= N).
Let iD : 0 < 1 / D <= 1 / n.
Proof.
  split; [apply frac_pos; lra|]. apply Rmult_le_compat_l; [lra|]. apply Rinv_le_contravar; lra.
Qed.
Let iM : 0 < 1 / M <= 1 / n.
Proof. split; [apply frac_pos; lra|]. apply Rmult_le_compat_l; [lra|]. apply Rinv_le_contravar; lra. Qed.
Let iN : 0 < 1 / N <= 1 / n.
Proof. split; [apply frac_pos; lra|]. apply Rmult_le_compat_l; [lra|]. apply Rinv_le_contravar; lra. Qed.
Let iM1 : 1 / M <= 1.
Proof. apply (Rmult_le_reg_r M); [lra|]. unfold Rdiv. rewrite Rmult_assoc, Rinv_l by lra. lra. Qed.
Let iN1 : 1 / N <= 1.
Proof. apply (Rmult_le_reg_r N); [lra|]. unfold Rdiv. rewrite Rmult_assoc, Rinv_l by lra. lra. Qed.
Let fr : 0 < N * (M - 1) / E <= 1.
Proof. split; [apply frac_pos; [Lra.nra|exact Epos]|]. apply frac_le; [unfold E; Lra.nra|exact Epos]. Qed.
Let fc : 0 < M * (N - 1) / E <= 1.
Proof. split; [apply frac_pos; [Lra.nra|exact Epos]|]. apply frac_le; [unfold E; Lra.nra|exact Epos]. Qed.
Let gr : 0 < (M - 1) / M <= 1.
Proof. split; [apply frac_pos; lra|]. apply frac_le; lra. Qed.
Let gc : 0 < (N - 1) / N <= 1.
Proof. split; [apply frac_pos; lra|]. apply frac_le; lra. Qed.
Let er : 0 < (N - 1) / E <= 1 / M.
Proof.
  split; [apply frac_pos; lra|]. apply (Rmult_le_reg_r (E * M)); [apply Rmult_lt_0_compat; lra|].
  unfold Rdiv. replace ((N - 1) * / E * (E * M)) with ((N - 1) * M) by (field; lra).
  replace (1 * / M * (E * M)) with E by (field; lra). unfold E. Lra.nra.
Qed.
Let ec : 0 < (M - 1) / E <= 1 / N.
Proof.
  split; [apply frac_pos; lra|]. apply (Rmult_le_reg_r (E * N)); [apply Rmult_lt_0_compat; lra|].
  unfold Rdiv. replace ((M - 1) * / E * (E * N)) with ((M - 1) * N) by (field; lra).
  replace (1 * / N * (E * N)) with E by (field; lra). unfold E. Lra.nra.
Qed.

Let times a b x : 0 < a <= 1 -> 0 < b <= x -> 0 < a * b <= x.
Proof. intros (A & A') (B & B'). split; [apply Rmult_lt_0_compat; assumption|]. Lra.nra. Qed.
Let weight a b x : 0 < a <= 1 -> 0 < b <= 1 -> 0 < x <= 1 / n -> 0 < a * b * x <= 1 / n.
Proof. intros A B X. apply times; [|exact X]. apply times; assumption. Qed.

Let two : 2 / n = 2 * (1 / n). Proof. field. lra. Qed.
Lemma biases : forall row col pixel, made_of M N t_ c_ r_ row col pixel ->
  0 <= vr - row <= (vr + vc + vp + s) * (2 / n) /\
  0 <= vc - col <= (vr + vc + vp + s) * (2 / n) /\
  0 <= pixel - vp <= (vr + vc + vp + s) * (2 / n) /\
  (0 < vr + vc + vp + s -> row < vr /\ col < vc /\ vp < pixel).
Proof.
  intros row col pixel MO. apply solve_split in MO; [|lra|lra|unfold D in Dpos; lra].
  fold D in MO. destruct MO as (ER & EC & EP).
  assert (A := row_bias). assert (B := col_bias). assert (F := pixel_bias).
  rewrite <- ER in A. rewrite <- EC in B. rewrite <- EP in F.
  assert (PS : 0 < (1 - 1 / M + 1 / N) * (1 / D) <= 2 / n).
  { rewrite two. split; [apply Rmult_lt_0_compat; lra|]. apply Rmult_le_compat; lra. }
  assert (PS' : 0 < (1 - 1 / N + 1 / M) * (1 / D) <= 2 / n).
  { rewrite two. split; [apply Rmult_lt_0_compat; lra|]. apply Rmult_le_compat; lra. }
  assert (W1 := weight _ _ _ fr gr iD). assert (W2 := weight _ _ _ fc gc iD).
  assert (W3 : 0 < M * (N - 1) / E * (1 / N) * (1 / D) <= 1 / n) by (apply weight; auto; lra).
  assert (W4 : 0 < N * (M - 1) / E * (1 / M) * (1 / D) <= 1 / n) by (apply weight; auto; lra).
  assert (W5 := times _ _ _ fr iD). assert (W6 := times _ _ _ fc iD).
  destruct (three_weights ((N - 1) / E + N * (M - 1) / E * ((M - 1) / M) * (1 / D)) (M * (N - 1) / E * (1 / N) * (1 / D))
     ((1 - 1 / M + 1 / N) * (1 / D)) (2 / n) ltac:(lra) ltac:(lra) PS vr vc (vp + s) Hr Hc ltac:(lra)) as (X1 & Y1).
  destruct (three_weights ((M - 1) / E + M * (N - 1) / E * ((N - 1) / N) * (1 / D)) (N * (M - 1) / E * (1 / M) * (1 / D))
     ((1 - 1 / N + 1 / M) * (1 / D)) (2 / n) ltac:(lra) ltac:(lra) PS' vc vr (vp + s) Hc Hr ltac:(lra)) as (X2 & Y2).
  destruct (three_weights (N * (M - 1) / E * (1 / D)) (M * (N - 1) / E * (1 / D)) (2 * (1 / D)) (2 / n)
     ltac:(lra) ltac:(lra) ltac:(lra) vr vc (vp + s) Hr Hc ltac:(lra)) as (X3 & Y3).
  rewrite <- A in X1, Y1. rewrite <- B in X2, Y2. rewrite <- F in X3, Y3.
  replace (vr + vc + (vp + s)) with (vr + vc + vp + s) in X1, X3, Y1, Y3 by ring.
  replace (vc + vr + (vp + s)) with (vr + vc + vp + s) in X2, Y2 by ring.
  split; [exact X1|]. split; [exact X2|]. split; [exact X3|].
  intros T. specialize (Y1 T). specialize (Y2 T). specialize (Y3 T). lra.
Qed.
End Bias.

(** ** A sensor of uniform brightness *)
Lemma average_const n k : (0 < n)%nat -> averageR n (fun _ => k) = k.
Proof. intros H. assert (P := INR_pos n H). unfold averageR. rewrite sumR_const. field. lra. Qed.
Lemma spread_const n k : (0 < n)%nat -> spreadR n (fun _ => k) = 0.
Proof.
  intros H. unfold spreadR. rewrite !average_const by assumption. ring.
Qed.
Lemma spatial_const h w k : (0 < h * w)%nat -> spatial_varianceR h w (fun _ _ => k) = 0.
Proof.
  intros H. assert (P := INR_pos _ H). unfold spatial_varianceR, pixel_meanR.
  assert (E : sumR2 h w (fun _ _ => k) = INR (h * w) * k).
  { unfold sumR2. rewrite (sumR_ext h _ (fun _ => INR w * k)) by (intros; apply sumR_const).
    rewrite sumR_const, mult_INR. ring. }
  rewrite E. replace (INR (h * w) * k / INR (h * w)) with k by (field; lra).
  replace ((k - k) * (k - k)) with 0 by ring.
  replace (sumR2 h w (fun _ _ => 0)) with 0; [unfold Rdiv; ring|].
  unfold sumR2. rewrite (sumR_ext h _ (fun _ => 0)) by (intros; apply sumR_0). symmetry. apply sumR_0.
Qed.
Lemma noise_nonneg L h w s2 : (0 < L)%nat -> (0 < h * w)%nat -> (forall l r c, 0 <= s2 l r c) -> 0 <= image_noise L h w s2.
Proof.
  intros HL HW P. unfold image_noise, pixel_meanR, averageR.
  apply Rmult_le_pos; [|apply Rlt_le, Rinv_0_lt_compat, INR_pos, HW].
  unfold sumR2. apply sumR_nonneg. intros r _. apply sumR_nonneg. intros c _.
  apply Rmult_le_pos; [|apply Rlt_le, Rinv_0_lt_compat, INR_pos, HL]. apply sumR_nonneg. intros. apply P.
Qed.

Lemma uniform_parts W (C : chance W) S L h w k vr vc vp s2 (O : W -> robj) :
  layered_series C S L h w (fun _ _ => k) vr vc vp s2 -> (2 <= L)%nat -> (3 <= h)%nat -> (3 <= w)%nat ->
  0 <= vr -> 0 <= vc -> 0 <= vp -> (forall l r c, 0 <= s2 l r c) ->
  (forall o, documented h w (S o)) ->
  let all := vr + vc + vp + image_noise L h w s2 / INR L in
  let close row col pixel :=
    0 <= vr - row <= all * (2 / INR (Nat.min h w)) /\
    0 <= vc - col <= all * (2 / INR (Nat.min h w)) /\
    0 <= pixel - vp <= all * (2 / INR (Nat.min h w)) /\
    (0 < all -> row < vr /\ col < vc /\ vp < pixel) in
  ((forall o, spatial_data_of h w (S o) (sp_bright (o_s (O o)))) ->
   exists row col pixel, figure_averages C (fun o => s_2_y_row (O o)) row /\
     figure_averages C (fun o => s_2_y_col (O o)) col /\ figure_averages C (fun o => s_2_y_pixel (O o)) pixel /\
     close row col pixel) /\
  ((forall o, spatial_data_of h w (S o) (sp_dark (o_s (O o)))) ->
   exists row col pixel, figure_averages C (fun o => s_2_y_row_dark (O o)) row /\
     figure_averages C (fun o => s_2_y_col_dark (O o)) col /\ figure_averages C (fun o => s_2_y_pixel_dark (O o)) pixel /\
     close row col pixel).
Proof.
  intros LS L2 h3 w3 Pr Pc Pp Ps DOC all close.
  assert (HW : (2 <= h * w)%nat) by nia.
  assert (NL : 0 < INR L) by (apply INR_pos; lia).
  assert (H3 : 3 <= INR h) by (replace 3 with (INR 3) by (simpl; ring); apply le_INR; assumption).
  assert (W3 : 3 <= INR w) by (replace 3 with (INR 3) by (simpl; ring); apply le_INR; assumption).
  destruct (components_any W C S L h w _ vr vc vp s2 O LS L2 HW ltac:(lia) DOC) as (B & D).
  assert (CL : forall row col pixel, made_of (INR h) (INR w)
    (spatial_varianceR h w (fun _ _ => k) + (vr * INR w * (INR h - 1) + vc * INR h * (INR w - 1)) / INR (h * w - 1) + vp)
    (column_spreadR h w (fun _ _ => k) + (1 - 1 / INR w) * (vc + vp / INR h) - image_noise L h w s2 / (INR L * INR h * INR w))
    (row_spreadR h w (fun _ _ => k) + (1 - 1 / INR h) * (vr + vp / INR w) - image_noise L h w s2 / (INR L * INR h * INR w))
    row col pixel -> close row col pixel).
  { intros row col pixel MO. unfold column_spreadR, row_spreadR in MO.
    rewrite !average_const, !spread_const, spatial_const in MO by lia.
    apply (biases (INR h) (INR w) vr vc vp (image_noise L h w s2 / INR L) H3 W3 Pr Pc Pp).
    - apply Rmult_le_pos; [apply noise_nonneg; auto; lia|apply Rlt_le, Rinv_0_lt_compat, NL].
    - apply INR_pos. lia.
    - apply le_INR. lia.
    - apply le_INR. lia.
    - unfold t_, c_, r_. destruct MO as (A1 & A2 & A3).
      assert (EE : INR (h * w - 1) = INR h * INR w - 1)
        by (rewrite minus_INR, mult_INR by lia; reflexivity).
      rewrite EE in A1. split; [|split].
      + rewrite A1. ring.
      + rewrite A2. field. lra.
      + rewrite A3. field. lra. }
  split; intros HD.
  - destruct (B HD) as (row & col & pixel & A1 & A2 & A3 & MO). exists row, col, pixel. auto 6.
  - destruct (D HD) as (row & col & pixel & A1 & A2 & A3 & MO). exists row, col, pixel. auto 6.
Qed.
