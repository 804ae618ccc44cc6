(** C117: how large the linearity error of a nearly linear sensor can be. *)
From Coq Require Import List Bool Arith ZArith QArith Qreals Reals Lia Lra.
From Verif Require Import Base_Prelude Base_Num Base_SumR Base_Xreal Model_Images Model_Loader Model_Data
  Model_Parser Model_Results Model_Emva Spec_Parser Spec_Images Spec_Data Spec_Results Spec_Chance Spec_Linear Spec_Any
  Spec_Near Spec_Figures Spec_Straight Spec_Emva Spec_Whole Proofs_Near4 Proofs_Whole Proofs_Whole2
  Proofs_Figures4 Proofs_Straight2 Proofs_Straight3 Proofs_Straight4 Props_Emva.
From Verif Require Props_Results.
Import ListNotations.
Open Scope R_scope.

(** The reported errors lie on both sides of 0. *)
Theorem C117_sides :
  forall (o : robj) n lo hi, shaped o n -> index_linearity_min o = Ok lo -> index_linearity_max o = Ok hi ->
  (forall i, in_range lo hi i -> ~ (sig o i == 0)%Q) ->
  (exists i j, in_range lo hi i /\ in_range lo hi j /\ ~ (photons o i == photons o j)%Q) ->
  forall mn mx, LE_min o = Ok (Some mn) -> LE_max o = Ok (Some mx) -> Q2R mn <= 0 <= Q2R mx.
Proof. exact error_sides. Qed.
Print Assumptions C117_sides.

(** If any line misses every point of the range by little, so do the errors. *)
Theorem C117_line :
  forall (o : robj) n lo hi, shaped o n -> index_linearity_min o = Ok lo -> index_linearity_max o = Ok hi ->
  (forall i, in_range lo hi i -> ~ (sig o i == 0)%Q) ->
  (exists i j, in_range lo hi i /\ in_range lo hi j /\ ~ (photons o i == photons o j)%Q) ->
  forall c e d N, (S (hi - lo) <= N)%nat -> 0 <= d -> sqrt (INR N) * d < 1 ->
  (forall i, in_range lo hi i -> Rabs (Q2R (sig o i) - (c * Q2R (photons o i) + e)) <= d * Rabs (Q2R (sig o i))) ->
  straight_within o (low_error N d) (high_error N d).
Proof. exact error_line. Qed.
Print Assumptions C117_line.

Example C117_line_case :
  shaped bent_data 5 /\ index_linearity_min bent_data = Ok 0%nat /\ index_linearity_max bent_data = Ok 2%nat /\
  (forall i, in_range 0 2 i -> ~ (sig bent_data i == 0)%Q) /\
  (exists i j, in_range 0 2 i /\ in_range 0 2 j /\ ~ (photons bent_data i == photons bent_data j)%Q) /\
  sqrt (INR 3) * (1 / 21) < 1 /\
  (forall i, in_range 0 2 i -> Rabs (Q2R (sig bent_data i) - (1 * Q2R (photons bent_data i) + 0)) <= 1 / 21 * Rabs (Q2R (sig bent_data i))) /\
  exists mn mx, LE_min bent_data = Ok (Some mn) /\ LE_max bent_data = Ok (Some mx).
Proof. destruct bent_range as (H1 & H2 & H3 & H4 & H5 & H6 & H7). exact (conj H1 (conj H2 (conj H3 (conj H4 (conj H5 (conj H6 (conj H7 bent_reported))))))). Qed.

(** ** A measured sensor *)
Theorem C117_stable :
  forall (o : robj) T n p eta K q e,
  linear_law T (photonsR o) p eta K q -> clear_points T n p e -> measured_within o T n e ->
  shaped o n -> unforced o -> List.Forall (fun v => (0 <= v)%Q) (r_s2y (o_t o)) ->
  (forall i, (i < n)%nat -> tr_var T i = 0 -> (at_ (r_s2y (o_t o)) i == 0)%Q) ->
  clear_range T (photonsR o) p e ->
  sqrt (INR p) * signal_part (photonsR o 0) eta K e < 1 ->
  straight_within o (low_error p (signal_part (photonsR o 0) eta K e)) (high_error p (signal_part (photonsR o 0) eta K e)).
Proof. exact stable_straight. Qed.
Print Assumptions C117_stable.

Example C117_stable_case : let o := warm_data Props_Results.sample_s in
  linear_law warm_truth (photonsR o) 2 (1 / 2) 1 0 /\ clear_points warm_truth 4 2 (1 / 50) /\
  measured_within o warm_truth 4 (1 / 50) /\ shaped o 4 /\ unforced o /\
  List.Forall (fun v => (0 <= v)%Q) (r_s2y (o_t o)) /\
  (forall i, (i < 4)%nat -> tr_var warm_truth i = 0 -> (at_ (r_s2y (o_t o)) i == 0)%Q) /\
  clear_range warm_truth (photonsR o) 2 (1 / 50) /\
  sqrt (INR 2) * signal_part (photonsR o 0) (1 / 2) 1 (1 / 50) < 1.
Proof.
  exact (conj (warm_law _) (conj warm_clear (conj (warm_within _) (conj (warm_shaped _) (conj eq_refl (conj (warm_nonneg _)
    (conj (warm_zero _) (conj (warm_range _) (warm_part _))))))))).
Qed.

(** ** Probability *)
Theorem C117_measured :
  forall W (C : chance W) O B D n h w p T x V M eta K q e,
  measurement C O B D n h w T x V M -> linear_law T x p eta K q -> clear_points T n p e ->
  (2 <= h * w)%nat -> 0 < e -> clear_range T x p e ->
  sqrt (INR p) * signal_part (x 0%nat) eta K e < 1 ->
  let d := signal_part (x 0%nat) eta K e in
  unlikely C (fun o => ~ straight_within (O o) (low_error p d) (high_error p d))
    (INR n / INR (h * w) * ((V + 2 * M) / (e * e) + 4 * V / e)).
Proof. exact @straight_unlikely. Qed.
Print Assumptions C117_measured.

Theorem C117_files :
  forall W (C : chance W) fs h w fname t es ps visit_t visit_s T V M,
  any_order visit_t -> any_order visit_s -> lists fname t es -> (forall o, complete_set (fs o) h w es) ->
  points_of es ps -> random_files C fs ps h w T V M ->
  forall p eta K q e, linear_law T (stated_light ps) p eta K q -> clear_points T (length ps) p e ->
  (2 <= h * w)%nat -> 0 < e -> clear_range T (stated_light ps) p e ->
  sqrt (INR p) * signal_part (stated_light ps 0) eta K e < 1 ->
  let d := signal_part (stated_light ps 0) eta K e in
  unlikely C (fun o => ~ exists x, emva (fs o) visit_t visit_s fname (Some t) = Ok (Some x) /\
      straight_within x (low_error p d) (high_error p d))
    (INR (length ps) / INR (h * w) * ((V + 2 * M) / (e * e) + 4 * V / e)).
Proof. exact @file_straight. Qed.
Print Assumptions C117_files.

(** Four points of a row of any number of pixels, each grey value by the toss of a coin. *)
Example C117_files_case : forall w, (2 <= w)%nat -> (Z.of_nat w <= 2 ^ 29)%Z ->
  lists set_file row_text row_entries /\ (forall o, complete_set (row_fs w o) 1 w row_entries) /\
  points_of row_entries row_points /\ random_files (row w) (row_fs w) row_points 1 w row_truth 9 648 /\
  linear_law row_truth (stated_light row_points) 2 (1 / 2) 1 (1 / 4) /\ clear_points row_truth (length row_points) 2 (1 / 50) /\
  clear_range row_truth (stated_light row_points) 2 (1 / 50) /\
  sqrt (INR 2) * signal_part (stated_light row_points 0) (1 / 2) 1 (1 / 50) < 1.
Proof.
  intros w W2 WL. exact (conj row_listed (conj (row_complete w W2 WL) (conj row_points_of
    (conj (row_files w W2 WL) (conj row_stated_law (conj row_clear_small (conj row_range row_part))))))).
Qed.
