(** Property C122: DSNU and PRNU of a data set, from its files and from a generated run. *)
From Coq Require Import Ascii String List Arith ZArith QArith Qabs Qreals Reals Lia Lra.
From Verif Require Import Base_Prelude Base_Str Base_Num Base_Float Base_SumR Base_Xreal Model_Parser Model_Images Model_Loader Model_Data Model_Results
  Model_Emva Model_Camera Model_Points Model_Dataset Model_Generated
  Spec_Parser Spec_Images Spec_Data Spec_Results Spec_Camera Spec_Dataset Spec_Generated
  Spec_Chance Spec_Linear Spec_Any Spec_Near Spec_Pattern Spec_Emva Spec_Whole Spec_Figures Spec_PatternFiles Spec_RandomRun
  Proofs_Near4 Proofs_Pattern3 Proofs_Run5 Proofs_Run8 Proofs_PatternFiles Proofs_PatternRun Proofs_PatternRun2 Proofs_PatternFloat3.
Import ListNotations.
Open Scope R_scope.

(** ** From files *)
Theorem C122_files :
  forall W (C : chance W) (fs : W -> fsys) h w fname t es visit_t visit_s b d,
  any_order visit_t -> any_order visit_s -> lists fname t es -> (forall o, complete_set (fs o) h w es) ->
  spatial_pair es b d ->
  forall L L' mb md V M D V' M' D' f,
  patterned C (fun o => contents (fs o) b) L h w mb V M D ->
  patterned C (fun o => contents (fs o) d) L' h w md V' M' D' ->
  (2 <= L)%nat -> (2 <= L')%nat -> 0 < f ->
  f <= spatial_varianceR h w md -> 2 * f <= spatial_varianceR h w mb - spatial_varianceR h w md ->
  2 * f < pixel_meanR h w mb - pixel_meanR h w md -> (2 <= h * w)%nat ->
  unlikely C (fun o => ~ exists x, emva (fs o) visit_t visit_s fname (Some t) = Ok (Some x) /\
      pattern_right x (spatial_varianceR h w md) (spatial_varianceR h w mb) (pixel_meanR h w mb - pixel_meanR h w md) f)
    (total_odds L L' h w V M D V' M' D' f).
Proof. exact @files_pattern. Qed.
Print Assumptions C122_files.

(** DSNU in electrons. *)
Theorem C122_files_electrons :
  forall W (C : chance W) (fs : W -> fsys) h w fname t es visit_t visit_s b d,
  any_order visit_t -> any_order visit_s -> lists fname t es -> (forall o, complete_set (fs o) h w es) ->
  spatial_pair es b d ->
  forall L L' mb md V M D V' M' D' f,
  patterned C (fun o => contents (fs o) b) L h w mb V M D ->
  patterned C (fun o => contents (fs o) d) L' h w md V' M' D' ->
  (2 <= L)%nat -> (2 <= L')%nat -> 0 < f ->
  f <= spatial_varianceR h w md -> 2 * f <= spatial_varianceR h w mb - spatial_varianceR h w md ->
  2 * f < pixel_meanR h w mb - pixel_meanR h w md ->
  forall ps T Vt Mt p eta K q e, points_of es ps -> random_files C fs ps h w T Vt Mt ->
  linear_law T (stated_light ps) p eta K q -> clear_points T (length ps) p e -> (2 <= h * w)%nat -> 0 < e ->
  gain_error (stated_light ps 0) eta K q e < K ->
  unlikely C (fun o => ~ exists x, emva (fs o) visit_t visit_s fname (Some t) = Ok (Some x) /\
      pattern_right x (spatial_varianceR h w md) (spatial_varianceR h w mb) (pixel_meanR h w mb - pixel_meanR h w md) f /\
      reports (DSNU1288 x) (sqrt (spatial_varianceR h w md) / K)
        (quotient_error (sqrt (spatial_varianceR h w md)) (f / sqrt (spatial_varianceR h w md)) K (gain_error (stated_light ps 0) eta K q e)))
    (INR (length ps) / INR (h * w) * ((Vt + 2 * Mt) / (e * e) + 4 * Vt / e) + total_odds L L' h w V M D V' M' D' f).
Proof. exact @files_electrons. Qed.
Print Assumptions C122_files_electrons.

(** The files of a run with any number k of pairs of pixels; spatial series of three images,
    bright 9 + 2 or 9 - 2 in even and 23 + 4 or 23 - 4 in odd columns, dark 5 and 7. *)
Example C122_files_case : forall k, (1 <= k)%nat -> (Z.of_nat (2 * k) <= 2 ^ 29)%Z -> let w := (2 * k)%nat in
  (exists t ents ps b d, (forall o, written (gen_events w o) = t) /\ lists gen_file t ents /\
  (forall o, complete_set (disk_of 1 w (gen_events w o)) 1 w ents) /\ points_of ents ps /\ length ps = 4%nat /\
  random_files (row w) (fun o => disk_of 1 w (gen_events w o)) ps 1 w row_truth 9 648 /\
  linear_law row_truth (stated_light ps) 2 (1 / 2) 1 (1 / 4) /\ clear_points row_truth 4 2 (1 / 50) /\
  gain_error (stated_light ps 0) (1 / 2) 1 (1 / 4) (1 / 50) < 1 /\
  spatial_pair ents b d /\
  patterned (row w) (fun o => contents (disk_of 1 w (gen_events w o)) b) 3 1 w (stripes bright_stripes) 16 256 7 /\
  patterned (row w) (fun o => contents (disk_of 1 w (gen_events w o)) d) 3 1 w (stripes dark_stripes) 0 0 1) /\
  1 / 2 <= spatial_varianceR 1 w (stripes dark_stripes) /\
  2 * (1 / 2) <= spatial_varianceR 1 w (stripes bright_stripes) - spatial_varianceR 1 w (stripes dark_stripes) /\
  2 * (1 / 2) < pixel_meanR 1 w (stripes bright_stripes) - pixel_meanR 1 w (stripes dark_stripes).
Proof. intros k k1 kL. exact (conj (gen_files k k1 kL) (gen_pattern_bounds k k1)). Qed.
Theorem C122_enough_pixels :
  forall Vb Mb Pb Vd Md Pd f d, 0 < f -> 0 < d -> exists N0 : nat,
  forall W (C : chance W) (fs : W -> fsys) h w fname t es visit_t visit_s be de,
  any_order visit_t -> any_order visit_s -> lists fname t es -> (forall o, complete_set (fs o) h w es) ->
  spatial_pair es be de ->
  forall L L' mb md,
  patterned C (fun o => contents (fs o) be) L h w mb Vb Mb Pb ->
  patterned C (fun o => contents (fs o) de) L' h w md Vd Md Pd ->
  (2 <= L)%nat -> (2 <= L')%nat ->
  f <= spatial_varianceR h w md -> 2 * f <= spatial_varianceR h w mb - spatial_varianceR h w md ->
  2 * f < pixel_meanR h w mb - pixel_meanR h w md -> (2 <= h * w)%nat -> (N0 <= h * w)%nat ->
  unlikely C (fun o => ~ exists x, emva (fs o) visit_t visit_s fname (Some t) = Ok (Some x) /\
      pattern_right x (spatial_varianceR h w md) (spatial_varianceR h w mb) (pixel_meanR h w mb - pixel_meanR h w md) f) d.
Proof. exact files_enough. Qed.
Print Assumptions C122_enough_pixels.

Example C122_odds_case : forall w, 500000 <= INR w -> total_odds 3 3 1 w 16 256 7 0 0 1 (1 / 2) <= 1 / 2.
Proof. exact striped_odds3. Qed.

(** ** From a generated run *)
Theorem C122_generated :
  forall W (C : chance W) li c ds version format outdir L p es file bs visit_t visit_s,
  any_order visit_t -> any_order visit_s -> usable_run li c ds version format outdir L p es file -> in_order li p bs ->
  let h := c_height c in let w := c_width c in
  forall nb nd mb md Vb Mb Pb Vd Md Pd f, spatial_shots li L p nb nd ->
  patterned C (fun o => series_at c (ds o) L nb) L h w mb Vb Mb Pb ->
  patterned C (fun o => series_at c (ds o) L nd) L h w md Vd Md Pd -> 0 < f ->
  f <= spatial_varianceR h w md -> 2 * f <= spatial_varianceR h w mb - spatial_varianceR h w md ->
  2 * f < pixel_meanR h w mb - pixel_meanR h w md ->
  unlikely C (fun o => ~ exists x, emva (disk_of h w (es o)) visit_t visit_s file (Some (written (es o))) = Ok (Some x) /\
      pattern_right x (spatial_varianceR h w md) (spatial_varianceR h w mb) (pixel_meanR h w mb - pixel_meanR h w md) f)
    (total_odds L L h w Vb Mb Pb Vd Md Pd f).
Proof. exact @run_pattern. Qed.
Print Assumptions C122_generated.

Theorem C122_generated_electrons :
  forall W (C : chance W) li c ds version format outdir L p es file bs visit_t visit_s T V M,
  any_order visit_t -> any_order visit_s -> usable_run li c ds version format outdir L p es file -> in_order li p bs ->
  let h := c_height c in let w := c_width c in
  forall nb nd mb md Vb Mb Pb Vd Md Pd f, spatial_shots li L p nb nd ->
  patterned C (fun o => series_at c (ds o) L nb) L h w mb Vb Mb Pb ->
  patterned C (fun o => series_at c (ds o) L nd) L h w md Vd Md Pd -> 0 < f ->
  f <= spatial_varianceR h w md -> 2 * f <= spatial_varianceR h w mb - spatial_varianceR h w md ->
  2 * f < pixel_meanR h w mb - pixel_meanR h w md ->
  forall k eta K q s e, random_run C c ds L p bs T V M -> near_law T (listed_light li bs) k eta K q s -> 0 <= s -> 0 < e ->
  clear_points T (length bs) k (e + 2 * s) ->
  let g := gain_error (listed_light li bs 0) eta K (q + K * s) (e + s) in g < K ->
  unlikely C (fun o => ~ exists x, emva (disk_of h w (es o)) visit_t visit_s file (Some (written (es o))) = Ok (Some x) /\
      pattern_right x (spatial_varianceR h w md) (spatial_varianceR h w mb) (pixel_meanR h w mb - pixel_meanR h w md) f /\
      reports (DSNU1288 x) (sqrt (spatial_varianceR h w md) / K)
        (quotient_error (sqrt (spatial_varianceR h w md)) (f / sqrt (spatial_varianceR h w md)) K g))
    (INR (length bs) / INR (h * w) * ((V + 2 * M) / (e * e) + 4 * V / e) + total_odds L L h w Vb Mb Pb Vd Md Pd f).
Proof. exact @run_electrons. Qed.
Print Assumptions C122_generated_electrons.

Example C122_generated_case : forall k, (1 <= k)%nat -> (Z.of_nat (2 * k) <= 2 ^ 29)%Z -> let w := (2 * k)%nat in
  usable_run gen_li (gen_cam w) (gen_draws w) (lit "4.0") (lit "png") (lit "/o") 3 gen_points (gen_events w) gen_file /\
  in_order gen_li gen_points gen_shots /\ spatial_shots gen_li 3 gen_points 16 19 /\
  (patterned (row w) (fun o => series_at (gen_cam w) (gen_draws w o) 3 16) 3 1 w (stripes bright_stripes) 16 256 7 /\
   patterned (row w) (fun o => series_at (gen_cam w) (gen_draws w o) 3 19) 3 1 w (stripes dark_stripes) 0 0 1) /\
  random_run (row w) (gen_cam w) (gen_draws w) 3 gen_points gen_shots row_truth 9 648 /\
  near_law row_truth (listed_light gen_li gen_shots) 2 (1 / 2) 1 (1 / 4) gen_slack /\
  clear_points row_truth (length gen_shots) 2 (gen_error + 2 * gen_slack) /\
  gain_error (listed_light gen_li gen_shots 0) (1 / 2) 1 (1 / 4 + 1 * gen_slack) (gen_error + gen_slack) < 1.
Proof.
  intros k k1 kL w. assert (W2 : (2 <= w)%nat) by (unfold w; lia).
  exact (conj (gen_usable w W2 kL) (conj gen_order (conj gen_spatial (conj (gen_patterned k k1 kL) (conj (gen_random w W2 kL)
    (conj gen_near (conj gen_clear_small (proj1 (proj2 gen_small))))))))).
Qed.

(** A simulated camera: DSNU and PRNU are those of its settings. *)
Theorem C122_simulated :
  forall W (C : chance W) li c ds version format outdir L p es file,
  usable_run li c ds version format outdir L p es file ->
  let h := c_height c in let w := c_width c in
  forall nb nd a b Vb Mb Pb Vd Md Pd f,
  simulated C a (fun o => series_at c (ds o) L nb) L h w -> simulated C b (fun o => series_at c (ds o) L nd) L h w ->
  pixel_noise C (fun o => series_at c (ds o) L nb) L h w (model_mean a) Vb Mb Pb ->
  pixel_noise C (fun o => series_at c (ds o) L nd) L h w (model_mean b) Vd Md Pd ->
  forall visit_t visit_s bs, any_order visit_t -> any_order visit_s -> in_order li p bs -> spatial_shots li L p nb nd ->
  same_but_light a b -> (forall r j, (r < h)%nat -> (j < w)%nat -> st_light b r j = 0) -> 0 < f ->
  let K := st_K a in
  let vd := K * K * spatial_varianceR h w (st_dsnu a) in
  let vb := K * K * spatial_varianceR h w (fun r j => st_light a r j + st_dsnu a r j) in
  let u := K * pixel_meanR h w (st_light a) in
  f <= vd -> 2 * f <= vb - vd -> 2 * f < u ->
  unlikely C (fun o => ~ exists x, emva (disk_of h w (es o)) visit_t visit_s file (Some (written (es o))) = Ok (Some x) /\
      pattern_right x vd vb u f)
    (total_odds L L h w Vb Mb Pb Vd Md Pd f).
Proof. exact @run_simulated. Qed.
Print Assumptions C122_simulated.

(** The run above; a law of the images that a camera with a dark signal of 2 more electrons in odd columns has. *)
Example C122_simulated_case : forall k, (1 <= k)%nat -> (Z.of_nat (2 * k) <= 2 ^ 29)%Z -> let w := (2 * k)%nat in
  simulated (row w) bright_setting (fun o => series_at (gen_cam w) (gen_draws w o) 3 16) 3 1 w /\
  simulated (row w) dark_setting (fun o => series_at (gen_cam w) (gen_draws w o) 3 19) 3 1 w /\
  same_but_light bright_setting dark_setting /\
  (forall r c, (r < 1)%nat -> (c < w)%nat -> st_light dark_setting r c = 0) /\
  pixel_noise (row w) (fun o => series_at (gen_cam w) (gen_draws w o) 3 16) 3 1 w (model_mean bright_setting) 16 256 7 /\
  pixel_noise (row w) (fun o => series_at (gen_cam w) (gen_draws w o) 3 19) 3 1 w (model_mean dark_setting) 0 0 1 /\
  let vd := 1 * 1 * spatial_varianceR 1 w (st_dsnu bright_setting) in
  let vb := 1 * 1 * spatial_varianceR 1 w (fun r c => st_light bright_setting r c + st_dsnu bright_setting r c) in
  let u := 1 * pixel_meanR 1 w (st_light bright_setting) in
  1 / 2 <= vd /\ 2 * (1 / 2) <= vb - vd /\ 2 * (1 / 2) < u.
Proof. intros k k1 kL. exact (gen_spatial_simulated k k1 kL). Qed.
