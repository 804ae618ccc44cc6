(** C123, C124: row, column and pixel variances of random images, and of images of one row. *)
From Coq Require Import List Bool Arith ZArith QArith Qreals Reals.
From Verif Require Import Base_Prelude Base_Num Base_Xreal Model_Images Model_Loader Model_Data Model_Results
  Spec_Images Spec_Data Spec_Results Spec_Chance Spec_Linear Spec_Any Spec_Components Spec_Line
  Proofs_Near4 Proofs_Components3 Proofs_Components4 Proofs_Components5 Proofs_Components6 Proofs_Line.
Import ListNotations.
Open Scope R_scope.

(** ** C123: the expected row, column and pixel variances *)
Theorem C123_expected :
  forall W (C : chance W) S L h w mu vr vc vp s2 (O : W -> robj),
  layered_series C S L h w mu vr vc vp s2 -> (2 <= L)%nat -> (2 <= h * w)%nat -> ~ (h = 2%nat /\ w = 2%nat) ->
  (forall o, documented h w (S o)) ->
  let expected row col pixel := made_of (INR h) (INR w)
    (spatial_varianceR h w mu + (vr * INR w * (INR h - 1) + vc * INR h * (INR w - 1)) / INR (h * w - 1) + vp)
    (column_spreadR h w mu + (1 - 1 / INR w) * (vc + vp / INR h) - image_noise L h w s2 / (INR L * INR h * INR w))
    (row_spreadR h w mu + (1 - 1 / INR h) * (vr + vp / INR w) - image_noise L h w s2 / (INR L * INR h * INR w))
    row col pixel in
  ((forall o, spatial_data_of h w (S o) (sp_bright (o_s (O o)))) ->
   exists row col pixel, figure_averages C (fun o => s_2_y_row (O o)) row /\
     figure_averages C (fun o => s_2_y_col (O o)) col /\ figure_averages C (fun o => s_2_y_pixel (O o)) pixel /\
     expected row col pixel) /\
  ((forall o, spatial_data_of h w (S o) (sp_dark (o_s (O o)))) ->
   exists row col pixel, figure_averages C (fun o => s_2_y_row_dark (O o)) row /\
     figure_averages C (fun o => s_2_y_col_dark (O o)) col /\ figure_averages C (fun o => s_2_y_pixel_dark (O o)) pixel /\
     expected row col pixel).
Proof. exact components_any. Qed.
Print Assumptions C123_expected.

(** A sensor of uniform brightness: rows and columns come out too small, pixels too large, by at
    most two over the smaller side of the image of all variance there is. *)
Theorem C123_uniform :
  forall W (C : chance W) S L h w k vr vc vp s2 (O : W -> robj),
  layered_series C S L h w (fun _ _ => k) vr vc vp s2 -> (2 <= L)%nat -> (3 <= h)%nat -> (3 <= w)%nat ->
  0 <= vr -> 0 <= vc -> 0 <= vp -> (forall l r c, 0 <= s2 l r c) ->
  (forall o, documented h w (S o)) ->
  let all := vr + vc + vp + image_noise L h w s2 / INR L in
  let close row col pixel :=
    0 <= vr - row <= all * (2 / INR (Nat.min h w)) /\
    0 <= vc - col <= all * (2 / INR (Nat.min h w)) /\
    0 <= pixel - vp <= all * (2 / INR (Nat.min h w)) /\
    (0 < all -> row < vr /\ col < vc /\ vp < pixel) in
  ((forall o, spatial_data_of h w (S o) (sp_bright (o_s (O o)))) ->
   exists row col pixel, figure_averages C (fun o => s_2_y_row (O o)) row /\
     figure_averages C (fun o => s_2_y_col (O o)) col /\ figure_averages C (fun o => s_2_y_pixel (O o)) pixel /\
     close row col pixel) /\
  ((forall o, spatial_data_of h w (S o) (sp_dark (o_s (O o)))) ->
   exists row col pixel, figure_averages C (fun o => s_2_y_row_dark (O o)) row /\
     figure_averages C (fun o => s_2_y_col_dark (O o)) col /\ figure_averages C (fun o => s_2_y_pixel_dark (O o)) pixel /\
     close row col pixel).
Proof. exact uniform_parts. Qed.
Print Assumptions C123_uniform.

(** The property itself fails: no row, column or pixel part at all, yet negative row and column
    variances and a positive pixel variance on average. *)
Theorem C123_unbiased_refuted :
  exists W (C : chance W) S L h w k s2 (O : W -> robj),
  layered_series C S L h w (fun _ _ => k) 0 0 0 s2 /\
  (forall o, documented h w (S o)) /\ (forall o, spatial_data_of h w (S o) (sp_dark (o_s (O o)))) /\
  exists row col pixel, figure_averages C (fun o => s_2_y_row_dark (O o)) row /\
    figure_averages C (fun o => s_2_y_col_dark (O o)) col /\ figure_averages C (fun o => s_2_y_pixel_dark (O o)) pixel /\
    row < 0 /\ col < 0 /\ 0 < pixel.
Proof. exact uniform_biased. Qed.
Print Assumptions C123_unbiased_refuted.

(** Nine pixels; rows, columns, pixels and images each toss a coin of one grey value. *)
Example C123_case :
  layered_series (row (sites 3 3)) (nine 1 1 1 1) 2 3 3 (fun _ _ => 20) 1 1 1 (fun _ _ _ => 1) /\
  (forall o, documented 3 3 (nine 1 1 1 1 o)) /\
  (forall o, spatial_data_of 3 3 (nine 1 1 1 1 o) (sp_bright (o_s (coin_obj 3 3 (nine 1 1 1 1 o))))) /\
  (forall o, spatial_data_of 3 3 (nine 1 1 1 1 o) (sp_dark (o_s (coin_obj 3 3 (nine 1 1 1 1 o))))).
Proof.
  split; [exact (coin_layered 3 3 20 1 1 1 1)|].
  assert (B : (0 <= 1 <= 1)%Z) by (split; discriminate).
  split; [intros; apply nine_documented; exact B|]. split; intros; apply nine_data; exact B.
Qed.

(** ** C124: images of a single row *)
Theorem C124_parts :
  forall o w s, documented 1 w s -> (2 <= length s)%nat -> (2 <= w)%nat ->
  (spatial_data_of 1 w s (sp_bright (o_s o)) ->
   exists row col pixel, s_2_y_row o = Ok (Some row) /\ s_2_y_col o = Ok (Some col) /\ s_2_y_pixel o = Ok (Some pixel) /\
     Q2R row = pattern_of 1 w s / INR w /\ Q2R col = (2 - 1 / INR w) * pattern_of 1 w s /\
     Q2R pixel = - (pattern_of 1 w s + noise_of 1 w s / INR (length s))) /\
  (spatial_data_of 1 w s (sp_dark (o_s o)) ->
   exists row col pixel, s_2_y_row_dark o = Ok (Some row) /\ s_2_y_col_dark o = Ok (Some col) /\ s_2_y_pixel_dark o = Ok (Some pixel) /\
     Q2R row = pattern_of 1 w s / INR w /\ Q2R col = (2 - 1 / INR w) * pattern_of 1 w s /\
     Q2R pixel = - (pattern_of 1 w s + noise_of 1 w s / INR (length s))).
Proof. exact one_row_figures. Qed.
Print Assumptions C124_parts.

Theorem C124_dsnu :
  forall o w s k, documented 1 w s -> (2 <= length s)%nat -> (2 <= w)%nat ->
  spatial_data_of 1 w s (sp_dark (o_s o)) -> gain o = Ok k -> ~ (k == 0)%Q -> not_constant w s ->
  DSNU1288_pixel o = Ok XNan.
Proof. exact one_row_dsnu. Qed.
Print Assumptions C124_dsnu.

Theorem C124_prnu :
  forall o w s s', documented 1 w s -> (2 <= length s)%nat -> documented 1 w s' -> (2 <= length s')%nat -> (2 <= w)%nat ->
  spatial_data_of 1 w s (sp_bright (o_s o)) -> spatial_data_of 1 w s' (sp_dark (o_s o)) ->
  ~ (sd_avg_mean (sp_bright (o_s o)) - sd_avg_mean (sp_dark (o_s o)) == 0)%Q ->
  pattern_of 1 w s' + noise_of 1 w s' / INR (length s') < pattern_of 1 w s + noise_of 1 w s / INR (length s) ->
  PRNU1288_pixel o = Ok XNan.
Proof. exact one_row_prnu. Qed.
Print Assumptions C124_prnu.

(** The property itself fails: data of one row without a pixel DSNU and PRNU. *)
Theorem C124_pixel_refuted :
  exists o w s s', documented 1 w s /\ documented 1 w s' /\
  spatial_data_of 1 w s (sp_dark (o_s o)) /\ spatial_data_of 1 w s' (sp_bright (o_s o)) /\
  (exists k, gain o = Ok k /\ ~ (k == 0)%Q) /\ DSNU1288_pixel o = Ok XNan /\ PRNU1288_pixel o = Ok XNan.
Proof. exact line_spoiled. Qed.
Print Assumptions C124_pixel_refuted.

Example C124_case :
  documented 1 2 line /\ documented 1 2 bright_line /\
  spatial_data_of 1 2 line (sp_dark (o_s line_obj)) /\ spatial_data_of 1 2 bright_line (sp_bright (o_s line_obj)) /\
  (exists k, gain line_obj = Ok k /\ ~ (k == 0)%Q) /\ not_constant 2 line /\
  ~ (sd_avg_mean (sp_bright (o_s line_obj)) - sd_avg_mean (sp_dark (o_s line_obj)) == 0)%Q /\
  pattern_of 1 2 line + noise_of 1 2 line / INR (length line) <
  pattern_of 1 2 bright_line + noise_of 1 2 bright_line / INR (length bright_line).
Proof. exact line_case. Qed.
