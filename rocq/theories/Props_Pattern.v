(** C115: DSNU and PRNU of random images. *)
From Coq Require Import List Bool Arith ZArith QArith Qreals Reals Lia Lra.
From Verif Require Import Base_Prelude Base_Num Base_Sum Base_SumR Base_Xreal Model_Images Model_Loader Model_Data
  Model_Results Spec_Images Spec_Data Spec_Results Spec_Chance Spec_Linear Spec_Any Spec_Near Spec_Pattern Proofs_Near4
  Proofs_Pattern2 Proofs_Pattern3 Proofs_Pattern4.
Import ListNotations.
Open Scope R_scope.

(** The spatial variances corrected for the noise, and the mean grey values. *)
Theorem C115_bright :
  forall W (C : chance W) (O : W -> robj) S L h w mu V M D e,
  patterned C S L h w mu V M D -> (2 <= L)%nat -> (2 <= h * w)%nat ->
  (forall o, spatial_data_of h w (S o) (sp_bright (o_s (O o)))) ->
  0 < e ->
  unlikely C (fun o => e < Rabs (Q2R (number (s_2_y (O o))) - spatial_varianceR h w mu)) (pattern_odds L (h * w) V M D e) /\
  unlikely C (fun o => e < Rabs (Q2R (sd_avg_mean (sp_bright (o_s (O o)))) - pixel_meanR h w mu)) (level_odds L (h * w) V e) /\
  forall o, exists s, s_2_y (O o) = Some s.
Proof. exact @bright_odds. Qed.
Print Assumptions C115_bright.

Theorem C115_dark :
  forall W (C : chance W) (O : W -> robj) S L h w mu V M D e,
  patterned C S L h w mu V M D -> (2 <= L)%nat -> (2 <= h * w)%nat ->
  (forall o, spatial_data_of h w (S o) (sp_dark (o_s (O o)))) ->
  0 < e ->
  unlikely C (fun o => e < Rabs (Q2R (number (s_2_y_dark (O o))) - spatial_varianceR h w mu)) (pattern_odds L (h * w) V M D e) /\
  unlikely C (fun o => e < Rabs (Q2R (sd_avg_mean (sp_dark (o_s (O o)))) - pixel_meanR h w mu)) (level_odds L (h * w) V e) /\
  forall o, exists s, s_2_y_dark (O o) = Some s.
Proof. exact @dark_odds. Qed.
Print Assumptions C115_dark.

Theorem C115_figures :
  forall W (C : chance W) (O : W -> robj) SB SD L L' h w mb md V M D V' M' D' e,
  patterned C SB L h w mb V M D -> patterned C SD L' h w md V' M' D' ->
  (2 <= L)%nat -> (2 <= L')%nat -> (2 <= h * w)%nat ->
  (forall o, spatial_data_of h w (SB o) (sp_bright (o_s (O o)))) ->
  (forall o, spatial_data_of h w (SD o) (sp_dark (o_s (O o)))) -> 0 < e ->
  e <= spatial_varianceR h w md -> 2 * e <= spatial_varianceR h w mb - spatial_varianceR h w md ->
  2 * e < pixel_meanR h w mb - pixel_meanR h w md ->
  unlikely C (fun o => ~ pattern_right (O o) (spatial_varianceR h w md) (spatial_varianceR h w mb)
                           (pixel_meanR h w mb - pixel_meanR h w md) e) (total_odds L L' h w V M D V' M' D' e).
Proof. exact @pattern_unlikely. Qed.
Print Assumptions C115_figures.

(** Any number k of pairs of pixels; bright 9 + 2 or 9 - 2 in even, 23 + 4 or 23 - 4 in odd columns. *)
Example C115_case : forall k, (1 <= k)%nat ->
  (patterned (row (2 * k)) (striped (2 * k) bright_stripes) 2 1 (2 * k) (stripes bright_stripes) 16 256 7 /\
   patterned (row (2 * k)) (striped (2 * k) dark_stripes) 2 1 (2 * k) (stripes dark_stripes) 0 0 1) /\
  ((forall o, spatial_data_of 1 (2 * k) (striped (2 * k) bright_stripes o) (sp_bright (o_s (striped_obj k o)))) /\
   (forall o, spatial_data_of 1 (2 * k) (striped (2 * k) dark_stripes o) (sp_dark (o_s (striped_obj k o))))) /\
  1 / 2 <= spatial_varianceR 1 (2 * k) (stripes dark_stripes) /\
  2 * (1 / 2) <= spatial_varianceR 1 (2 * k) (stripes bright_stripes) - spatial_varianceR 1 (2 * k) (stripes dark_stripes) /\
  2 * (1 / 2) < pixel_meanR 1 (2 * k) (stripes bright_stripes) - pixel_meanR 1 (2 * k) (stripes dark_stripes).
Proof. exact striped_case. Qed.
Example C115_case_odds : forall w, 500000 <= INR w -> total_odds 2 2 1 w 16 256 7 0 0 1 (1 / 2) <= 1 / 2.
Proof. exact striped_odds. Qed.

Theorem C115_enough_pixels :
  forall V M D V' M' D' e d, 0 < e -> 0 < d -> exists N0 : nat,
  forall W (C : chance W) (O : W -> robj) SB SD L L' h w mb md,
  patterned C SB L h w mb V M D -> patterned C SD L' h w md V' M' D' ->
  (2 <= L)%nat -> (2 <= L')%nat -> (2 <= h * w)%nat -> (N0 <= h * w)%nat ->
  (forall o, spatial_data_of h w (SB o) (sp_bright (o_s (O o)))) ->
  (forall o, spatial_data_of h w (SD o) (sp_dark (o_s (O o)))) ->
  e <= spatial_varianceR h w md -> 2 * e <= spatial_varianceR h w mb - spatial_varianceR h w md ->
  2 * e < pixel_meanR h w mb - pixel_meanR h w md ->
  unlikely C (fun o => ~ pattern_right (O o) (spatial_varianceR h w md) (spatial_varianceR h w mb)
                           (pixel_meanR h w mb - pixel_meanR h w md) e) d.
Proof. exact pattern_suffice. Qed.
Print Assumptions C115_enough_pixels.

(** The simulated camera: DSNU and PRNU are those of its settings. *)
Theorem C115_simulated :
  forall W (C : chance W) (O : W -> robj) SB SD L L' h w a b V M D V' M' D' e,
  simulated C a SB L h w -> simulated C b SD L' h w -> same_but_light a b ->
  (forall r c, (r < h)%nat -> (c < w)%nat -> st_light b r c = 0) ->
  (forall o, documented h w (SB o)) -> (forall o, documented h w (SD o)) ->
  pixel_noise C SB L h w (model_mean a) V M D -> pixel_noise C SD L' h w (model_mean b) V' M' D' ->
  (2 <= L)%nat -> (2 <= L')%nat -> (2 <= h * w)%nat ->
  (forall o, spatial_data_of h w (SB o) (sp_bright (o_s (O o)))) ->
  (forall o, spatial_data_of h w (SD o) (sp_dark (o_s (O o)))) -> 0 < e ->
  let K := st_K a in
  let vd := K * K * spatial_varianceR h w (st_dsnu a) in
  let vb := K * K * spatial_varianceR h w (fun r c => st_light a r c + st_dsnu a r c) in
  let u := K * pixel_meanR h w (st_light a) in
  e <= vd -> 2 * e <= vb - vd -> 2 * e < u ->
  unlikely C (fun o => ~ pattern_right (O o) vd vb u e) (total_odds L L' h w V M D V' M' D' e).
Proof. exact @sim_pattern. Qed.
Print Assumptions C115_simulated.

Example C115_simulated_case : forall k, (1 <= k)%nat ->
  simulated (row (2 * k)) bright_setting (striped (2 * k) bright_stripes) 2 1 (2 * k) /\
  simulated (row (2 * k)) dark_setting (striped (2 * k) dark_stripes) 2 1 (2 * k) /\
  same_but_light bright_setting dark_setting /\
  (forall r c, (r < 1)%nat -> (c < 2 * k)%nat -> st_light dark_setting r c = 0) /\
  (forall o, documented 1 (2 * k) (striped (2 * k) bright_stripes o)) /\
  (forall o, documented 1 (2 * k) (striped (2 * k) dark_stripes o)) /\
  pixel_noise (row (2 * k)) (striped (2 * k) bright_stripes) 2 1 (2 * k) (model_mean bright_setting) 16 256 7 /\
  pixel_noise (row (2 * k)) (striped (2 * k) dark_stripes) 2 1 (2 * k) (model_mean dark_setting) 0 0 1 /\
  let vd := 1 * 1 * spatial_varianceR 1 (2 * k) (st_dsnu bright_setting) in
  let vb := 1 * 1 * spatial_varianceR 1 (2 * k) (fun r c => st_light bright_setting r c + st_dsnu bright_setting r c) in
  let u := 1 * pixel_meanR 1 (2 * k) (st_light bright_setting) in
  1 / 2 <= vd /\ 2 * (1 / 2) <= vb - vd /\ 2 * (1 / 2) < u.
Proof. exact simulated_case. Qed.

(** With the temporal measurement of C102: the gain is right too, so that DSNU is right also in
    electrons. *)
Theorem C115_electrons :
  forall W (C : chance W) (O : W -> robj) B D n h w p T x Vt Mt eta K q e SB SD L L' mb md V M P V' M' P',
  measurement C O B D n h w T x Vt Mt -> linear_law T x p eta K q -> clear_points T n p e ->
  patterned C SB L h w mb V M P -> patterned C SD L' h w md V' M' P' ->
  (2 <= L)%nat -> (2 <= L')%nat -> (2 <= h * w)%nat ->
  (forall o, spatial_data_of h w (SB o) (sp_bright (o_s (O o)))) ->
  (forall o, spatial_data_of h w (SD o) (sp_dark (o_s (O o)))) -> 0 < e ->
  e <= spatial_varianceR h w md -> 2 * e <= spatial_varianceR h w mb - spatial_varianceR h w md ->
  2 * e < pixel_meanR h w mb - pixel_meanR h w md ->
  unlikely C (fun o => ~ (right_within (O o) p eta K q e /\
     pattern_right (O o) (spatial_varianceR h w md) (spatial_varianceR h w mb) (pixel_meanR h w mb - pixel_meanR h w md) e /\
     exists k d, gain (O o) = Ok k /\ DSNU1288_DN (O o) = Ok (XR d) /\ (0 < Q2R k -> DSNU1288 (O o) = Ok (XR (d / Q2R k)))))
   (INR n / INR (h * w) * ((Vt + 2 * Mt) / (e * e) + 4 * Vt / e) + total_odds L L' h w V M P V' M' P' e).
Proof. exact electrons_unlikely. Qed.
Print Assumptions C115_electrons.

Example C115_electrons_case : forall k, (1 <= k)%nat -> (Z.of_nat (2 * k) <= 2 ^ 29)%Z ->
  measurement (row (2 * k)) (striped_obj k) (row_bright (2 * k)) (row_dark (2 * k)) 4 1 (2 * k) row_truth row_light 9 648 /\
  linear_law row_truth row_light 2 (1 / 2) 1 (1 / 4) /\ clear_points row_truth 4 2 (1 / 4).
Proof. intros k k1 H. exact (conj (striped_measurement k k1 H) (conj row_law row_clear)). Qed.
