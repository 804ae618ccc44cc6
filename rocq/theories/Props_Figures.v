(** C116: how wrong the derived figures can be, and how unlikely that is. *)
From Coq Require Import List Bool Arith ZArith QArith Qreals Reals Lia Lra.
From Verif Require Import Base_Prelude Base_Num Base_SumR Base_Xreal Model_Images Model_Loader Model_Data
  Model_Parser Model_Results Model_Emva Spec_Parser Spec_Images Spec_Data Spec_Results Spec_Chance Spec_Linear Spec_Any
  Spec_Near Spec_Figures Spec_Emva Spec_Whole Proofs_Near4 Proofs_Whole Proofs_Whole2 Proofs_Figures Proofs_Figures2
  Proofs_Figures3 Proofs_Figures4 Props_Emva.
From Verif Require Props_Results.
Import ListNotations.
Open Scope R_scope.

(** ** From gain, responsivity and dark variance *)
Theorem C116_derived :
  forall (o : robj) eta K v x dr dk dv r k s p,
  responsivity o = Ok r -> gain o = Ok k -> dark_variance o = Ok s -> u_p_sat o = Ok p ->
  Rabs (Q2R r - K * eta) <= dr -> Rabs (Q2R k - K) <= dk -> Rabs (Q2R s - v) <= dv -> Q2R p = x ->
  24 / 100 <= Q2R s -> 24 / 100 <= v -> dv < v -> dk < K -> dr < K * eta -> 0 < x ->
  derived_right o eta K v x dr dk dv.
Proof. exact derived_near. Qed.
Print Assumptions C116_derived.

(** ** From the means and variances of the points *)
Theorem C116_stable :
  forall (o : robj) T n p eta K q e v0 d,
  linear_law T (photonsR o) p eta K q -> clear_points T n p e -> measured_within o T n e ->
  shaped o n -> unforced o -> List.Forall (fun v => (0 <= v)%Q) (r_s2y (o_t o)) ->
  (forall i, (i < n)%nat -> tr_var T i = 0 -> (at_ (r_s2y (o_t o)) i == 0)%Q) ->
  dark_truth (times o) T n e v0 d ->
  responsivity_error (photonsR o 0) e < K * eta -> gain_error (photonsR o 0) eta K q e < K -> d < Rmax (24 / 100) v0 ->
  figures_right o p eta K q e v0 d.
Proof. exact stable_all. Qed.
Print Assumptions C116_stable.

Theorem C116_dark_current :
  forall (o : robj) T n e K dk a b, shaped o n -> measured_within o T n e -> dark_rises (times o) T n a b ->
  (exists k, gain o = Ok k /\ Rabs (Q2R k - K) <= dk) -> dk < K -> current_right o n K dk e a b.
Proof. exact dark_current. Qed.
Print Assumptions C116_dark_current.

(** Four exposure times, a dark current of one grey value per unit of time, errors of up to 1/50. *)
Example C116_stable_case : let o := warm_data Props_Results.sample_s in
  linear_law warm_truth (photonsR o) 2 (1 / 2) 1 0 /\ clear_points warm_truth 4 2 (1 / 50) /\
  measured_within o warm_truth 4 (1 / 50) /\ shaped o 4 /\ unforced o /\
  List.Forall (fun v => (0 <= v)%Q) (r_s2y (o_t o)) /\
  (forall i, (i < 4)%nat -> tr_var warm_truth i = 0 -> (at_ (r_s2y (o_t o)) i == 0)%Q) /\
  dark_truth (times o) warm_truth 4 (1 / 50) 1 (11 / 50) /\
  (responsivity_error (photonsR o 0) (1 / 50) < 1 * (1 / 2) /\ gain_error (photonsR o 0) (1 / 2) 1 0 (1 / 50) < 1 /\
   11 / 50 < Rmax (24 / 100) 1) /\
  dark_rises (times o) warm_truth 4 1 1 /\ slope_factor 4 (time (times o)) * (1 / 50) <= 1.
Proof.
  exact (conj (warm_law _) (conj warm_clear (conj (warm_within _) (conj (warm_shaped _) (conj eq_refl (conj (warm_nonneg _)
    (conj (warm_zero _) (conj warm_times (conj (warm_small _) (conj warm_rises (warm_slope _))))))))))).
Qed.

(** ** Probability *)
Theorem C116_measured :
  forall W (C : chance W) O B D n h w p T x V M eta K q e v0 d ts,
  measurement C O B D n h w T x V M -> linear_law T x p eta K q -> clear_points T n p e ->
  (2 <= h * w)%nat -> 0 < e -> (forall o, times (O o) = ts) ->
  responsivity_error (x 0%nat) e < K * eta -> gain_error (x 0%nat) eta K q e < K ->
  dark_truth ts T n e v0 d -> d < Rmax (24 / 100) v0 ->
  unlikely C (fun o => ~ figures_right (O o) p eta K q e v0 d)
    (INR n / INR (h * w) * ((V + 2 * M) / (e * e) + 4 * V / e)).
Proof. exact @figures_unlikely. Qed.
Print Assumptions C116_measured.

Theorem C116_files :
  forall W (C : chance W) fs h w fname t es ps visit_t visit_s T V M,
  any_order visit_t -> any_order visit_s -> lists fname t es -> (forall o, complete_set (fs o) h w es) ->
  points_of es ps -> random_files C fs ps h w T V M ->
  forall p eta K q e, linear_law T (stated_light ps) p eta K q -> clear_points T (length ps) p e ->
  (2 <= h * w)%nat -> 0 < e ->
  responsivity_error (stated_light ps 0) e < K * eta -> gain_error (stated_light ps 0) eta K q e < K ->
  forall v0 d, dark_truth (stated_times ps) T (length ps) e v0 d -> d < Rmax (24 / 100) v0 ->
  unlikely C (fun o => ~ exists x, emva (fs o) visit_t visit_s fname (Some t) = Ok (Some x) /\ figures_right x p eta K q e v0 d)
    (INR (length ps) / INR (h * w) * ((V + 2 * M) / (e * e) + 4 * V / e)).
Proof. exact @file_figures. Qed.
Print Assumptions C116_files.

Theorem C116_files_current :
  forall W (C : chance W) fs h w fname t es ps visit_t visit_s T V M,
  any_order visit_t -> any_order visit_s -> lists fname t es -> (forall o, complete_set (fs o) h w es) ->
  points_of es ps -> random_files C fs ps h w T V M ->
  forall p eta K q e, linear_law T (stated_light ps) p eta K q -> clear_points T (length ps) p e ->
  (2 <= h * w)%nat -> 0 < e -> gain_error (stated_light ps 0) eta K q e < K ->
  forall a b, dark_rises (stated_times ps) T (length ps) a b ->
  unlikely C (fun o => ~ exists x, emva (fs o) visit_t visit_s fname (Some t) = Ok (Some x) /\
      current_right x (length ps) K (gain_error (stated_light ps 0) eta K q e) e a b)
    (INR (length ps) / INR (h * w) * ((V + 2 * M) / (e * e) + 4 * V / e)).
Proof. exact @file_current. Qed.
Print Assumptions C116_files_current.

(** Four points of a row of any number of pixels, each grey value by the toss of a coin. *)
Example C116_files_case : forall w, (2 <= w)%nat -> (Z.of_nat w <= 2 ^ 29)%Z ->
  lists set_file row_text row_entries /\ (forall o, complete_set (row_fs w o) 1 w row_entries) /\
  points_of row_entries row_points /\ random_files (row w) (row_fs w) row_points 1 w row_truth 9 648 /\
  linear_law row_truth (stated_light row_points) 2 (1 / 2) 1 (1 / 4) /\ clear_points row_truth (length row_points) 2 (1 / 50) /\
  (responsivity_error (stated_light row_points 0) (1 / 50) < 1 * (1 / 2) /\
   gain_error (stated_light row_points 0) (1 / 2) 1 (1 / 4) (1 / 50) < 1) /\
  dark_truth (stated_times row_points) row_truth (length row_points) (1 / 50) 0 (11 / 50) /\
  dark_rises (stated_times row_points) row_truth (length row_points) 0 0.
Proof.
  intros w W2 WL. exact (conj row_listed (conj (row_complete w W2 WL) (conj row_points_of
    (conj (row_files w W2 WL) (conj row_stated_law (conj row_clear_small (conj row_small (conj row_times row_rises)))))))).
Qed.
