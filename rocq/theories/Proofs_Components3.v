(** C123: the expected row, column and pixel variances under the names of the results. *)
From Coq Require Import List Bool Arith ZArith QArith Qreals Reals Lia Lra.
From Verif Require Import Base_Prelude Base_Sum Base_SumR Model_Images Model_Loader Model_Data Model_Results
  Spec_Images Spec_Data Spec_Results Spec_Chance Spec_Linear Spec_Any Spec_Components
  Proofs_Data Proofs_Data2 Proofs_Results4 Proofs_Chance Proofs_Chance2 Proofs_Linear Proofs_Any Proofs_Any2
  Proofs_Components Proofs_Components2.
Import ListNotations.
Open Scope R_scope.

Lemma det_nonzero (M N : nat) : (0 < M)%nat -> (0 < N)%nat -> ~ (M = 2%nat /\ N = 2%nat) ->
  INR M * INR N - INR M - INR N <> 0.
Proof.
  intros HM HN H22 E. apply H22, mn_zero; try assumption.
  apply eq_IZR. rewrite !minus_IZR, mult_IZR, <- !INR_IZR_INZ. exact E.
Qed.

Lemma solve_split M N t c r row col pix : M <> 0 -> N <> 0 -> M * N - M - N <> 0 ->
  made_of M N t c r row col pix <->
  row = ((M * N - N) * r - M * (t - c)) / (M * N - M - N) /\
  col = ((M * N - M) * c - N * (t - r)) / (M * N - M - N) /\
  pix = (M * N * (t - c - r)) / (M * N - M - N).
Proof.
  intros HM HN HD. split.
  - intros (E1 & E2 & E3). rewrite <- E1, <- E2, <- E3. repeat split; field; auto.
  - intros (-> & -> & ->). repeat split; field; auto.
Qed.

Lemma decomposition_R (M N : nat) t c r row col pix : (0 < M)%nat -> (0 < N)%nat ->
  decomposition M N t c r row col pix ->
  made_of (INR M) (INR N) (Q2R t) (Q2R c) (Q2R r) (Q2R row) (Q2R col) (Q2R pix).
Proof.
  intros HM HN (E1 & E2 & E3). apply Qeq_eqR in E1, E2, E3.
  rewrite !Q2R_plus in E1. rewrite Q2R_plus, Q2R_over, Q2R_qn in E2, E3 by (apply qn_neq0; assumption).
  split; [exact E1|split; symmetry; assumption].
Qed.

Section Split.
Context {W : Type} (C : chance W).

Lemma average_ext X Y x y : (forall o, X o = Y o) -> x = y -> averages C X x -> averages C Y y.
Proof. intros E <- (A & B). split; [exact (int_ext C _ _ E A)|]. rewrite <- (exp_ext C _ _ E). exact B. Qed.
Lemma average_lin a b d X Y Z x y z : averages C X x -> averages C Y y -> averages C Z z ->
  averages C (fun o => a * X o + (b * Y o + d * Z o)) (a * x + (b * y + d * z)).
Proof.
  intros (A & <-) (B & <-) (D & <-). split.
  - apply integrable_plus; [apply integrable_scale, A|]. apply integrable_plus; apply integrable_scale; assumption.
  - rewrite (expect_plus _ C (fun o => a * X o) (fun o => b * Y o + d * Z o)).
    + rewrite (expect_plus _ C (fun o => b * Y o) (fun o => d * Z o)) by (apply integrable_scale; assumption).
      rewrite !expect_scale by assumption. reflexivity.
    + apply integrable_scale, A.
    + apply integrable_plus; apply integrable_scale; assumption.
Qed.

Definition value_of (x : res (option Q)) : Q := match x with Ok (Some q) => q | _ => 0%Q end.

Lemma split_average (M N : nat) (T U V : W -> R) t u v (Row Col Pix : W -> res (option Q)) :
  (0 < M)%nat -> (0 < N)%nat -> ~ (M = 2%nat /\ N = 2%nat) ->
  averages C T t -> averages C U u -> averages C V v ->
  (forall o, exists row col pix, Row o = Ok (Some row) /\ Col o = Ok (Some col) /\ Pix o = Ok (Some pix) /\
     made_of (INR M) (INR N) (T o) (U o) (V o) (Q2R row) (Q2R col) (Q2R pix)) ->
  exists row col pix, figure_averages C Row row /\ figure_averages C Col col /\ figure_averages C Pix pix /\
    made_of (INR M) (INR N) t u v row col pix.
Proof.
  intros HM HN H22 AT AU AV F. assert (DN := det_nonzero M N HM HN H22).
  assert (Mp := INR_pos M HM). assert (Np := INR_pos N HN).
  set (m := INR M) in *. set (n := INR N) in *. set (d := m * n - m - n) in *.
  exists (((m * n - n) * v - m * (t - u)) / d), (((m * n - m) * u - n * (t - v)) / d), ((m * n * (t - u - v)) / d).
  split; [|split; [|split]].
  - exists (fun o => value_of (Row o)). split.
    + intros o. destruct (F o) as (a & b & c & E & _). rewrite E. reflexivity.
    + eapply average_ext; [| |exact (average_lin (- m / d) (m / d) ((m * n - n) / d) _ _ _ _ _ _ AT AU AV)].
      * intros o. destruct (F o) as (a & b & c & -> & _ & _ & X). cbn [value_of].
        apply solve_split in X; [|lra|lra|exact DN]. destruct X as (-> & _). fold d. field. exact DN.
      * field. exact DN.
  - exists (fun o => value_of (Col o)). split.
    + intros o. destruct (F o) as (a & b & c & _ & E & _). rewrite E. reflexivity.
    + eapply average_ext; [| |exact (average_lin (- n / d) ((m * n - m) / d) (n / d) _ _ _ _ _ _ AT AU AV)].
      * intros o. destruct (F o) as (a & b & c & _ & -> & _ & X). cbn [value_of].
        apply solve_split in X; [|lra|lra|exact DN]. destruct X as (_ & -> & _). fold d. field. exact DN.
      * field. exact DN.
  - exists (fun o => value_of (Pix o)). split.
    + intros o. destruct (F o) as (a & b & c & _ & _ & E & _). rewrite E. reflexivity.
    + eapply average_ext; [| |exact (average_lin (m * n / d) (- (m * n) / d) (- (m * n) / d) _ _ _ _ _ _ AT AU AV)].
      * intros o. destruct (F o) as (a & b & c & _ & _ & -> & X). cbn [value_of].
        apply solve_split in X; [|lra|lra|exact DN]. destruct X as (_ & _ & ->). fold d. field. exact DN.
      * field. exact DN.
  - apply solve_split; [lra|lra|exact DN|]. repeat split; reflexivity.
Qed.
End Split.

Lemma components_any W (C : chance W) S L h w mu vr vc vp s2 (O : W -> robj) :
  layered_series C S L h w mu vr vc vp s2 -> (2 <= L)%nat -> (2 <= h * w)%nat -> ~ (h = 2%nat /\ w = 2%nat) ->
  (forall o, documented h w (S o)) ->
  let expected row col pixel := made_of (INR h) (INR w)
    (spatial_varianceR h w mu + (vr * INR w * (INR h - 1) + vc * INR h * (INR w - 1)) / INR (h * w - 1) + vp)
    (column_spreadR h w mu + (1 - 1 / INR w) * (vc + vp / INR h) - image_noise L h w s2 / (INR L * INR h * INR w))
    (row_spreadR h w mu + (1 - 1 / INR h) * (vr + vp / INR w) - image_noise L h w s2 / (INR L * INR h * INR w))
    row col pixel in
  ((forall o, spatial_data_of h w (S o) (sp_bright (o_s (O o)))) ->
   exists row col pixel, figure_averages C (fun o => s_2_y_row (O o)) row /\
     figure_averages C (fun o => s_2_y_col (O o)) col /\ figure_averages C (fun o => s_2_y_pixel (O o)) pixel /\
     expected row col pixel) /\
  ((forall o, spatial_data_of h w (S o) (sp_dark (o_s (O o)))) ->
   exists row col pixel, figure_averages C (fun o => s_2_y_row_dark (O o)) row /\
     figure_averages C (fun o => s_2_y_col_dark (O o)) col /\ figure_averages C (fun o => s_2_y_pixel_dark (O o)) pixel /\
     expected row col pixel).
Proof.
  intros LS L2 HW H22 DOC expected.
  assert (hw : (0 < h)%nat /\ (0 < w)%nat) by nia. destruct hw as (hp & wp).
  assert (NL : (~ qn L == 0)%Q) by (apply qn_neq0; lia).
  pose proof (total_average C S L h w mu vr vc vp s2 LS L2 HW) as AT.
  pose proof (columns_average C S L h w mu vr vc vp s2 LS L2 HW) as AU.
  pose proof (rows_average C S L h w mu vr vc vp s2 LS L2 HW) as AV.
  assert (FIG : forall o d, spatial_data_of h w (S o) d -> sd_M d = h /\ sd_N d = w /\
    exists t u v, olift2 Qminus (sd_avg_var d) (omap (fun v => v / qn (sd_L d))%Q (sd_var_mean d)) = Some t /\
      sd_avg_var_cav d = Some u /\ sd_avg_var_rav d = Some v /\
      Q2R t = ls_total S L h w o /\ Q2R u = ls_columns S L h w o /\ Q2R v = ls_rows S L h w o).
  { intros o d HD. pose proof (ls_length _ _ _ _ _ _ _ _ _ _ LS o) as Len.
    destruct (stack_split h w (S o) d (DOC o) ltac:(lia) HW HD) as (EM & EN & EL & vm & av & ca & ra & E1 & E2 & E3 & E4 & V1 & V2 & V3 & V4).
    rewrite Len in *. split; [exact EM|]. split; [exact EN|].
    exists (av - vm / qn L)%Q, ca, ra. rewrite E1, E2, EL. split; [reflexivity|]. split; [exact E3|]. split; [exact E4|].
    split; [|split].
    - rewrite Q2R_minus, Q2R_over, Q2R_qn, V1, V2 by assumption. reflexivity.
    - rewrite V3, V1. reflexivity.
    - rewrite V4, V1. reflexivity. }
  split; intros HD; apply (split_average C h w _ _ _ _ _ _ _ _ _ hp wp H22 AT AU AV); intros o;
    destruct (FIG o _ (HD o)) as (EM & EN & t & u & v & E1 & E2 & E3 & <- & <- & <-).
  - destruct (decompose_bright (O o) t u v E1 E2 E3) as (_ & X); [unfold bright, dark; rewrite EM; exact hp|unfold bright, dark; rewrite EN; exact wp|].
    unfold bright, dark in X. rewrite EM, EN in X. destruct (X H22) as (a & b & c & A & B & D & E & _).
    exists a, b, c. repeat (split; [assumption|]). apply decomposition_R; assumption.
  - destruct (decompose_dark (O o) t u v E1 E2 E3) as (_ & X); [unfold bright, dark; rewrite EM; exact hp|unfold bright, dark; rewrite EN; exact wp|].
    unfold bright, dark in X. rewrite EM, EN in X. destruct (X H22) as (a & b & c & A & B & D & E & _).
    exists a, b, c. repeat (split; [assumption|]). apply decomposition_R; assumption.
Qed.
