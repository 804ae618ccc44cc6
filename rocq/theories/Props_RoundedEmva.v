(** C119: a whole evaluation in double precision, from the files to the numbers. *)
From Coq Require Import List Bool Arith ZArith QArith Qreals Reals Lia Lra.
From Verif Require Import Base_Prelude Base_Str Base_Num Base_SumR Base_Xreal Model_Images Model_Loader Model_Data
  Model_Parser Model_Results Model_Emva Model_Rounded Model_RoundedSpatial Model_RoundedFigures Model_RoundedEmva Spec_Parser Spec_Images Spec_Data
  Spec_Results Spec_Chance Spec_Linear Spec_Any Spec_Near Spec_Figures Spec_Straight Spec_Emva Spec_Whole Spec_Rounded Spec_RoundedSpatial
  Spec_RoundedFigures Spec_RoundedEmva Proofs_Near4 Proofs_Whole2 Proofs_Figures4 Proofs_Straight3 Proofs_REmva2 Proofs_REmva3 Proofs_REmva4 Props_Emva.
Import ListNotations.
Open Scope R_scope.

(** ** Every complete measurement *)
Theorem C119_near :
  forall (fs : fsys) h w visit_t visit_s fname t es (ad : additions) n b,
  any_order visit_t -> any_order visit_s -> lists fname t es -> complete_set fs h w es ->
  sound_additions ad n h w -> files_bits fs es h w b ->
  exists x y, emva fs visit_t visit_s fname (Some t) = Ok (Some x) /\
    emva_f ad fs visit_t visit_s fname (Some t) = Ok (Some y) /\ object_near b n y x /\
    (quiet_pairs_equal fs es h w -> zeros_kept y x).
Proof. exact emva_close. Qed.
Print Assumptions C119_near.

Example C119_near_case : forall w o, (2 <= w)%nat -> (Z.of_nat w <= 2 ^ 29)%Z ->
  lists set_file row_text row_entries /\ complete_set (row_fs w o) 1 w row_entries /\
  sound_additions (plain_additions 1 w) (1 * w) 1 w /\ files_bits (row_fs w o) row_entries 1 w 5.
Proof.
  intros w o W2 WL. exact (conj row_listed (conj (row_complete w W2 WL o)
    (conj (plain_additions_sound 1 w (le_n 1) (Nat.lt_le_trans 0 2 w (le_S 1 1 (le_n 1)) W2) (row_size w WL)) (row_bits w o)))).
Qed.

(** ** Random files *)
Theorem C119_gain :
  forall W (C : chance W) fs h w fname t es ps visit_t visit_s T V M (ad : additions) n b,
  any_order visit_t -> any_order visit_s -> lists fname t es -> (forall o, complete_set (fs o) h w es) ->
  points_of es ps -> random_files C fs ps h w T V M ->
  sound_additions ad n h w -> (forall o, files_bits (fs o) es h w b) ->
  forall e, 0 < e -> let E := e + Q2R (variance_error b) in noise_seen fs ps h w T E -> (2 <= h * w)%nat ->
  forall p eta K q, linear_law T (stated_light ps) p eta K q -> clear_points T (length ps) p E ->
  unlikely C (fun o => ~ exists y, emva_f ad (fs o) visit_t visit_s fname (Some t) = Ok (Some y) /\ right_within y p eta K q E)
    (INR (length ps) / INR (h * w) * ((V + 2 * M) / (e * e) + 4 * V / e)).
Proof. exact @float_gain. Qed.
Print Assumptions C119_gain.

Theorem C119_linearity :
  forall W (C : chance W) fs h w fname t es ps visit_t visit_s T V M (ad : additions) n b,
  any_order visit_t -> any_order visit_s -> lists fname t es -> (forall o, complete_set (fs o) h w es) ->
  points_of es ps -> random_files C fs ps h w T V M ->
  sound_additions ad n h w -> (forall o, files_bits (fs o) es h w b) ->
  forall e, 0 < e -> let E := e + Q2R (variance_error b) in noise_seen fs ps h w T E -> (2 <= h * w)%nat ->
  forall p eta K q, linear_law T (stated_light ps) p eta K q -> clear_points T (length ps) p E ->
  clear_range T (stated_light ps) p E -> sqrt (INR p) * signal_part (stated_light ps 0) eta K E < 1 ->
  let d := signal_part (stated_light ps 0) eta K E in
  unlikely C (fun o => ~ exists y, emva_f ad (fs o) visit_t visit_s fname (Some t) = Ok (Some y) /\
      straight_within y (low_error p d) (high_error p d))
    (INR (length ps) / INR (h * w) * ((V + 2 * M) / (e * e) + 4 * V / e)).
Proof. exact @float_linearity. Qed.
Print Assumptions C119_linearity.

Theorem C119_figures :
  forall W (C : chance W) fs h w fname t es ps visit_t visit_s T V M (ad : additions) n b,
  any_order visit_t -> any_order visit_s -> lists fname t es -> (forall o, complete_set (fs o) h w es) ->
  points_of es ps -> random_files C fs ps h w T V M ->
  sound_additions ad n h w -> (forall o, files_bits (fs o) es h w b) ->
  forall e, 0 < e -> let E := e + Q2R (variance_error b) in noise_seen fs ps h w T E -> (2 <= h * w)%nat ->
  forall p eta K q, linear_law T (stated_light ps) p eta K q -> clear_points T (length ps) p E ->
  gain_error (stated_light ps 0) eta K q E < K ->
  forall v0 d, responsivity_error (stated_light ps 0) E < K * eta ->
  dark_truth (stated_times ps) T (length ps) E v0 d -> d < Rmax (24 / 100) v0 ->
  unlikely C (fun o => ~ exists y, emva_f ad (fs o) visit_t visit_s fname (Some t) = Ok (Some y) /\ figures_right y p eta K q E v0 d)
    (INR (length ps) / INR (h * w) * ((V + 2 * M) / (e * e) + 4 * V / e)).
Proof. exact @float_figures. Qed.
Print Assumptions C119_figures.

Theorem C119_current :
  forall W (C : chance W) fs h w fname t es ps visit_t visit_s T V M (ad : additions) n b,
  any_order visit_t -> any_order visit_s -> lists fname t es -> (forall o, complete_set (fs o) h w es) ->
  points_of es ps -> random_files C fs ps h w T V M ->
  sound_additions ad n h w -> (forall o, files_bits (fs o) es h w b) ->
  forall e, 0 < e -> let E := e + Q2R (variance_error b) in noise_seen fs ps h w T E -> (2 <= h * w)%nat ->
  forall p eta K q, linear_law T (stated_light ps) p eta K q -> clear_points T (length ps) p E ->
  gain_error (stated_light ps 0) eta K q E < K ->
  forall a c, dark_rises (stated_times ps) T (length ps) a c ->
  unlikely C (fun o => ~ exists y, emva_f ad (fs o) visit_t visit_s fname (Some t) = Ok (Some y) /\
      current_right y (length ps) K (gain_error (stated_light ps 0) eta K q E) E a c)
    (INR (length ps) / INR (h * w) * ((V + 2 * M) / (e * e) + 4 * V / e)).
Proof. exact @float_current. Qed.
Print Assumptions C119_current.

(** A figure that is then shown with rounding, as in C118. *)
Theorem C119_shown :
  forall (c : nat) (f : option R) (g : res xr) t D, shows c f g -> reports g t D ->
  exists v, f = Some v /\ Rabs (v - t) <= D + INR c * / 2 ^ 53 * (Rabs t + D).
Proof. exact shown_right. Qed.
Print Assumptions C119_shown.

(** Four points of a row of any number of pixels, each grey value by the toss of a coin: 5 bits. *)
Example C119_files_case : forall w, (2 <= w)%nat -> (Z.of_nat w <= 2 ^ 29)%Z ->
  let E := row_error + Q2R (variance_error 5) in
  random_files (row w) (row_fs w) row_points 1 w row_truth 9 648 /\ 0 < row_error /\
  noise_seen (row_fs w) row_points 1 w row_truth E /\
  linear_law row_truth (stated_light row_points) 2 (1 / 2) 1 (1 / 4) /\ clear_points row_truth (length row_points) 2 E /\
  (responsivity_error (stated_light row_points 0) E < 1 * (1 / 2) /\ gain_error (stated_light row_points 0) (1 / 2) 1 (1 / 4) E < 1) /\
  dark_truth (stated_times row_points) row_truth (length row_points) E 0 (11 / 50) /\ 11 / 50 < Rmax (24 / 100) 0 /\
  dark_rises (stated_times row_points) row_truth (length row_points) 0 0 /\
  clear_range row_truth (stated_light row_points) 2 E /\
  sqrt (INR 2) * signal_part (stated_light row_points 0) (1 / 2) 1 E < 1.
Proof.
  intros w W2 WL E. unfold E. rewrite row_error_sum. exact (conj (row_files w W2 WL) (conj row_error_pos (conj (row_noise_seen w)
    (conj row_stated_law (conj row_clear_small (conj row_small (conj row_times (conj row_dark_small (conj row_rises (conj row_range row_part)))))))))).
Qed.

Example C119_shown_case : exists f g, shows 3 f g /\ reports g 2 (1 / 10) /\ f = Some 2.
Proof. exact shown_case. Qed.
