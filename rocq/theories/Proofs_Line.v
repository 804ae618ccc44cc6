(** C124: images of a single row. *)
From Coq Require Import List Bool Arith ZArith QArith Qreals Reals Lia Lra.
From Verif Require Import Base_Prelude Base_Xreal Base_Sum Base_SumR Model_Images Model_Loader Model_Data Model_Results
  Spec_Images Spec_Data Spec_Results Spec_Chance Spec_Linear Spec_Any Spec_Components Spec_Line
  Proofs_Data Proofs_Data2 Proofs_Results4 Proofs_Chance Proofs_Chance2 Proofs_Linear Proofs_Any Proofs_Any2
  Proofs_Components Proofs_Components2 Proofs_Components3.
Import ListNotations.
Open Scope R_scope.

Lemma spread_ext n f g : (forall i, (i < n)%nat -> f i = g i) -> spreadR n f = spreadR n g.
Proof.
  intros H. unfold spreadR, averageR. rewrite (sumR_ext n f g H). f_equal. apply sumR_ext. intros i Hi.
  rewrite (H i Hi). reflexivity.
Qed.
Lemma one_row_columns w f : (2 <= w)%nat ->
  column_spreadR 1 w f = (1 - 1 / INR w) * spatial_varianceR 1 w f /\ row_spreadR 1 w f = 0.
Proof.
  intros W2. assert (Nw := INR_pos w ltac:(lia)). assert (N1 := INR_pos (w - 1) ltac:(lia)).
  assert (E : INR (w - 1) = INR w - 1) by (rewrite minus_INR by lia; reflexivity).
  split.
  - unfold column_spreadR. rewrite (spread_ext w _ (f 0%nat)).
    2:{ intros c _. unfold averageR. cbn [sumR INR]. field. }
    unfold spreadR, spatial_varianceR, pixel_meanR, sumR2, averageR. rewrite Nat.mul_1_l. cbn [sumR]. rewrite !Rplus_0_l.
    change (sumR w (fun j => f 0%nat j)) with (sumR w (f 0%nat)).
    set (T := sumR w (fun i => _ * _)). clearbody T. rewrite E in *. field. lra.
  - unfold row_spreadR, spreadR, averageR. cbn [sumR INR]. field. apply Rgt_not_eq. exact Nw.
Qed.

Lemma one_row_split w s d : documented 1 w s -> (2 <= length s)%nat -> (2 <= w)%nat -> spatial_data_of 1 w s d ->
  sd_M d = 1%nat /\ sd_N d = w /\
  exists t u v, olift2 Qminus (sd_avg_var d) (omap (fun v => v / qn (sd_L d))%Q (sd_var_mean d)) = Some t /\
    sd_avg_var_cav d = Some u /\ sd_avg_var_rav d = Some v /\
    forall row col pixel, decomposition 1 w t u v row col pixel ->
      Q2R row = pattern_of 1 w s / INR w /\ Q2R col = (2 - 1 / INR w) * pattern_of 1 w s /\
      Q2R pixel = - (pattern_of 1 w s + noise_of 1 w s / INR (length s)).
Proof.
  intros DOC L2 W2 HD. assert (Nw := INR_pos w ltac:(lia)). assert (NL := INR_pos (length s) ltac:(lia)).
  destruct (stack_split 1 w s d DOC L2 ltac:(lia) HD) as (EM & EN & EL & vm & av & ca & ra & E1 & E2 & E3 & E4 & V1 & V2 & V3 & V4).
  split; [exact EM|]. split; [exact EN|].
  exists (av - vm / qn (length s))%Q, ca, ra. rewrite E1, E2, EL. split; [reflexivity|]. split; [exact E3|]. split; [exact E4|].
  intros row col pixel DE. apply decomposition_R in DE; [|lia|lia].
  destruct (one_row_columns w (fun r c => avgR (length s) r c s) W2) as (CS & RS).
  rewrite Q2R_minus, Q2R_over, Q2R_qn, V3, V4, CS, RS, V2 in DE by (apply qn_neq0; lia).
  change (Q2R vm = noise_of 1 w s) in V1. rewrite V1 in DE.
  change (spatial_varianceR 1 w (fun r c => avgR (length s) r c s)) with (pattern_of 1 w s) in DE.
  change (INR 1) with 1 in DE.
  apply solve_split in DE; [|lra|lra|lra]. destruct DE as (-> & -> & ->).
  repeat split; field; repeat split; lra.
Qed.

Lemma one_row_figures o w s : documented 1 w s -> (2 <= length s)%nat -> (2 <= w)%nat ->
  (spatial_data_of 1 w s (sp_bright (o_s o)) ->
   exists row col pixel, s_2_y_row o = Ok (Some row) /\ s_2_y_col o = Ok (Some col) /\ s_2_y_pixel o = Ok (Some pixel) /\
     Q2R row = pattern_of 1 w s / INR w /\ Q2R col = (2 - 1 / INR w) * pattern_of 1 w s /\
     Q2R pixel = - (pattern_of 1 w s + noise_of 1 w s / INR (length s))) /\
  (spatial_data_of 1 w s (sp_dark (o_s o)) ->
   exists row col pixel, s_2_y_row_dark o = Ok (Some row) /\ s_2_y_col_dark o = Ok (Some col) /\ s_2_y_pixel_dark o = Ok (Some pixel) /\
     Q2R row = pattern_of 1 w s / INR w /\ Q2R col = (2 - 1 / INR w) * pattern_of 1 w s /\
     Q2R pixel = - (pattern_of 1 w s + noise_of 1 w s / INR (length s))).
Proof.
  intros DOC L2 W2. split; intros HD;
    destruct (one_row_split w s _ DOC L2 W2 HD) as (EM & EN & t & u & v & E1 & E2 & E3 & F).
  - destruct (decompose_bright o t u v E1 E2 E3) as (_ & X); unfold bright, dark in *; try (rewrite EM; lia); try (rewrite EN; lia).
    rewrite EM, EN in X. destruct (X ltac:(lia)) as (a & b & c & A & B & D & E & _).
    exists a, b, c. destruct (F a b c E) as (G & H & I). auto 7.
  - destruct (decompose_dark o t u v E1 E2 E3) as (_ & X); unfold bright, dark in *; try (rewrite EM; lia); try (rewrite EN; lia).
    rewrite EM, EN in X. destruct (X ltac:(lia)) as (a & b & c & A & B & D & E & _).
    exists a, b, c. destruct (F a b c E) as (G & H & I). auto 7.
Qed.

(** ** The pixel part is never positive *)
Lemma sumR_pos n f i : (i < n)%nat -> (forall j, (j < n)%nat -> 0 <= f j) -> 0 < f i -> 0 < sumR n f.
Proof.
  revert i. induction n as [|n IH]; intros i Hi P Q; [lia|]. cbn [sumR].
  assert (0 <= sumR n f) by (apply sumR_nonneg; intros; apply P; lia).
  destruct (Nat.eq_dec i n) as [->|N]; [lra|].
  assert (0 < sumR n f) by (apply (IH i); [lia|intros; apply P; lia|exact Q]).
  specialize (P n ltac:(lia)). lra.
Qed.
Lemma sq_nonneg x : 0 <= x * x. Proof. apply Rle_0_sqr. Qed.
Lemma sq_pos x : x <> 0 -> 0 < x * x. Proof. intros. apply Rlt_0_sqr. assumption. Qed.
Lemma variance_nonneg n f : (2 <= n)%nat -> 0 <= varianceR n f.
Proof.
  intros H. apply Rmult_le_pos; [apply sumR_nonneg; intros; apply sq_nonneg|].
  apply Rlt_le, Rinv_0_lt_compat, INR_pos. lia.
Qed.
Lemma noise_of_nonneg w s : (2 <= length s)%nat -> (2 <= w)%nat -> 0 <= noise_of 1 w s.
Proof.
  intros L2 W2. unfold noise_of, pixel_meanR, sumR2. cbn [sumR]. rewrite Rplus_0_l.
  apply Rmult_le_pos; [apply sumR_nonneg; intros; apply variance_nonneg; assumption|].
  apply Rlt_le, Rinv_0_lt_compat, INR_pos. lia.
Qed.
Lemma pattern_of_nonneg w s : (2 <= w)%nat -> 0 <= pattern_of 1 w s.
Proof.
  intros W2. unfold pattern_of, spatial_varianceR, sumR2. cbn [sumR]. rewrite Rplus_0_l.
  apply Rmult_le_pos; [apply sumR_nonneg; intros; apply sq_nonneg|].
  apply Rlt_le, Rinv_0_lt_compat, INR_pos. lia.
Qed.
Lemma varies_positive w s : (2 <= length s)%nat -> (2 <= w)%nat -> not_constant w s ->
  0 < pattern_of 1 w s + noise_of 1 w s / INR (length s).
Proof.
  intros L2 W2 (l & c & l' & c' & Hl & Hc & Hl' & Hc' & NE).
  assert (NL := INR_pos (length s) ltac:(lia)). assert (NW := INR_pos (1 * w) ltac:(lia)).
  assert (NW1 := INR_pos (1 * w - 1) ltac:(lia)). assert (NL1 := INR_pos (length s - 1) ltac:(lia)).
  assert (A := noise_of_nonneg w s L2 W2). assert (B := pattern_of_nonneg w s W2).
  assert (A' : 0 <= noise_of 1 w s / INR (length s)) by (apply Rmult_le_pos; [exact A|apply Rlt_le, Rinv_0_lt_compat, NL]).
  assert (NP : forall l c, (l < length s)%nat -> (c < w)%nat -> grey l 0 c s <> average_image s 0 c ->
    0 < pattern_of 1 w s + noise_of 1 w s / INR (length s)).
  { intros k d Hk Hd N. apply Rplus_le_lt_0_compat; [exact B|]. apply Rdiv_lt_0_compat; [|exact NL].
    unfold noise_of, pixel_meanR, sumR2. cbn [sumR]. rewrite Rplus_0_l. apply Rdiv_lt_0_compat; [|exact NW].
    apply (sumR_pos w _ d Hd); [intros; apply variance_nonneg; assumption|].
    apply Rdiv_lt_0_compat; [|exact NL1].
    apply (sumR_pos _ _ k Hk); [intros; apply sq_nonneg|]. apply sq_pos. intro Z. apply N.
    unfold average_image. lra. }
  destruct (Req_dec (grey l 0 c s) (average_image s 0 c)) as [E|N]; [|exact (NP l c Hl Hc N)].
  destruct (Req_dec (grey l' 0 c' s) (average_image s 0 c')) as [E'|N]; [|exact (NP l' c' Hl' Hc' N)].
  rewrite E, E' in NE. apply Rplus_lt_le_0_compat; [|exact A'].
  assert (PP : forall d, (d < w)%nat -> average_image s 0 d <> pixel_meanR 1 w (average_image s) -> 0 < pattern_of 1 w s).
  { intros d Hd N. unfold pattern_of, spatial_varianceR, sumR2. cbn [sumR]. rewrite Rplus_0_l.
    apply Rdiv_lt_0_compat; [|exact NW1]. apply (sumR_pos w _ d Hd); [intros; apply sq_nonneg|].
    apply sq_pos. lra. }
  destruct (Req_dec (average_image s 0 c) (pixel_meanR 1 w (average_image s))) as [F|N]; [|exact (PP c Hc N)].
  apply (PP c' Hc'). congruence.
Qed.

Lemma one_row_dsnu o w s k : documented 1 w s -> (2 <= length s)%nat -> (2 <= w)%nat ->
  spatial_data_of 1 w s (sp_dark (o_s o)) -> gain o = Ok k -> ~ (k == 0)%Q -> not_constant w s ->
  DSNU1288_pixel o = Ok XNan.
Proof.
  intros DOC L2 W2 HD G K NC. destruct (one_row_figures o w s DOC L2 W2) as (_ & F).
  destruct (F HD) as (row & col & pixel & _ & _ & EP & _ & _ & P).
  destruct (dsnu_figures o k G K) as (_ & _ & _ & X & _). destruct (X pixel EP) as (Y & _).
  apply Y. apply Rlt_Qlt. rewrite P, Q2R_0'. assert (V := varies_positive w s L2 W2 NC). lra.
Qed.

Lemma one_row_prnu o w s s' : documented 1 w s -> (2 <= length s)%nat -> documented 1 w s' -> (2 <= length s')%nat -> (2 <= w)%nat ->
  spatial_data_of 1 w s (sp_bright (o_s o)) -> spatial_data_of 1 w s' (sp_dark (o_s o)) ->
  ~ (sd_avg_mean (sp_bright (o_s o)) - sd_avg_mean (sp_dark (o_s o)) == 0)%Q ->
  pattern_of 1 w s' + noise_of 1 w s' / INR (length s') < pattern_of 1 w s + noise_of 1 w s / INR (length s) ->
  PRNU1288_pixel o = Ok XNan.
Proof.
  intros DOC L2 DOC' L2' W2 HD HD' NZ LT.
  destruct (one_row_figures o w s DOC L2 W2) as (F & _). destruct (F HD) as (row & col & pixel & _ & _ & EP & _ & _ & P).
  destruct (one_row_figures o w s' DOC' L2' W2) as (_ & F'). destruct (F' HD') as (row' & col' & pixel' & _ & _ & EP' & _ & _ & P').
  destruct (prnu_figures o NZ) as (_ & _ & _ & X). destruct (X pixel pixel' EP EP') as (Y & _).
  apply Y. apply Rlt_Qlt. rewrite Q2R_minus, P, P', Q2R_0'. lra.
Qed.
