(** Property C113: from random image files to the probability of a wrong gain or responsivity. *)
From Coq Require Import List Arith ZArith QArith Qreals Reals Lia Lra.
From Verif Require Import Base_Prelude Base_SumR Model_Parser Model_Images Model_Loader Model_Data Model_Results Model_Emva
  Spec_Parser Spec_Data Spec_Results Spec_Chance Spec_Linear Spec_Any Spec_Near Spec_Emva Spec_Whole
  Proofs_Near4 Proofs_Whole Proofs_Whole2 Props_Emva.
Import ListNotations.
Open Scope R_scope.

Theorem C113_measured :
  forall W (C : chance W) fs h w fname t es ps visit_t visit_s T V M,
  any_order visit_t -> any_order visit_s -> lists fname t es -> (forall o, complete_set (fs o) h w es) ->
  points_of es ps -> random_files C fs ps h w T V M ->
  forall p eta K q e, linear_law T (stated_light ps) p eta K q -> clear_points T (length ps) p e ->
  (2 <= h * w)%nat -> 0 < e ->
  unlikely C (fun o => ~ exists x, emva (fs o) visit_t visit_s fname (Some t) = Ok (Some x) /\ right_within x p eta K q e)
    (INR (length ps) / INR (h * w) * ((V + 2 * M) / (e * e) + 4 * V / e)).
Proof. exact @whole_unlikely. Qed.
Print Assumptions C113_measured.

(** Four points of a row of any number of pixels, each grey value by the toss of a coin; the last
    point is saturated. *)
Example C113_measured_case : forall w, (2 <= w)%nat -> (Z.of_nat w <= 2 ^ 29)%Z ->
  lists set_file row_text row_entries /\ (forall o, complete_set (row_fs w o) 1 w row_entries) /\
  points_of row_entries row_points /\ random_files (row w) (row_fs w) row_points 1 w row_truth 9 648 /\
  linear_law row_truth (stated_light row_points) 2 (1 / 2) 1 (1 / 4) /\ clear_points row_truth (length row_points) 2 (1 / 4).
Proof.
  intros w W2 WL. exact (conj row_listed (conj (row_complete w W2 WL) (conj row_points_of
    (conj (row_files w W2 WL) (conj row_stated_law row_clear))))).
Qed.

Theorem C113_enough_pixels :
  forall n V M e d, 0 < e -> 0 < d -> exists N0 : nat,
  forall W (C : chance W) fs h w fname t es ps visit_t visit_s T p eta K q,
  any_order visit_t -> any_order visit_s -> lists fname t es -> (forall o, complete_set (fs o) h w es) ->
  points_of es ps -> length ps = n -> random_files C fs ps h w T V M ->
  linear_law T (stated_light ps) p eta K q -> clear_points T n p e -> (N0 <= h * w)%nat ->
  unlikely C (fun o => ~ exists x, emva (fs o) visit_t visit_s fname (Some t) = Ok (Some x) /\ right_within x p eta K q e) d.
Proof. exact whole_enough. Qed.
Print Assumptions C113_enough_pixels.

Theorem C113_simulated :
  forall W (C : chance W) fs h w fname t es ps visit_t visit_s T V M,
  any_order visit_t -> any_order visit_s -> lists fname t es -> (forall o, complete_set (fs o) h w es) ->
  points_of es ps -> random_files C fs ps h w T V M ->
  forall p eta K (a b : nat -> setting) e, (2 <= h * w)%nat -> 0 < eta -> 0 < K ->
  (forall i be de, nth_error ps i = Some (be, de) -> (i <= p)%nat ->
     simulated C (a i) (fun o => contents (fs o) be) 2 h w /\ simulated C (b i) (fun o => contents (fs o) de) 2 h w /\
     same_but_light (a i) (b i) /\ st_K (a i) = K /\
     pixel_meanR h w (fun r c => st_light (a i) r c - st_light (b i) r c) = eta * Q2R (number (e_photons be))) ->
  clear_points T (length ps) p e -> 0 < e ->
  unlikely C (fun o => ~ exists x, emva (fs o) visit_t visit_s fname (Some t) = Ok (Some x) /\ right_within x p eta K (1 / 4) e)
    (INR (length ps) / INR (h * w) * ((V + 2 * M) / (e * e) + 4 * V / e)).
Proof. exact @whole_simulated. Qed.
Print Assumptions C113_simulated.

Example C113_simulated_case : forall w, (2 <= w)%nat -> forall i be de, nth_error row_points i = Some (be, de) -> (i <= 2)%nat ->
  simulated (row w) (row_setting i) (fun o => contents (row_fs w o) be) 2 1 w /\
  simulated (row w) (row_dark_setting i) (fun o => contents (row_fs w o) de) 2 1 w /\
  same_but_light (row_setting i) (row_dark_setting i) /\ st_K (row_setting i) = 1 /\
  pixel_meanR 1 w (fun r c => st_light (row_setting i) r c - st_light (row_dark_setting i) r c) = 1 / 2 * Q2R (number (e_photons be)).
Proof. exact row_whole_simulated. Qed.
