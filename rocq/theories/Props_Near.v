(** C101, C102: data that nearly follow the linear model, and how unlikely wrong results are. *)
From Coq Require Import List Bool Arith ZArith QArith Qreals Reals Lia Lra.
From Verif Require Import Base_Prelude Base_Num Base_Sum Base_SumR Base_Xreal Model_Images Model_Loader Model_Data
  Model_Results Spec_Images Spec_Data Spec_Results Spec_Chance Spec_Linear Spec_Any Spec_Near
  Proofs_Near Proofs_Near2 Proofs_Near3 Proofs_Near4.
From Verif Require Props_Results.
Import ListNotations.
Open Scope R_scope.

(** ** C101: small errors change the results little *)
Theorem C101_near :
  forall (o : robj) n p eta K e f, near_linear o n p eta K e f ->
  exists m r k,
  index_sensitivity_max o = Ok m /\ (m < p)%nat /\ responsivity o = Ok r /\ gain o = Ok k /\
  Rabs (Q2R r - K * eta) <= e / averageR (S m) (photonsR o) /\
  Rabs (Q2R k - K) <= f / averageR (S m) (sigR o) /\
  0 < averageR (S m) (photonsR o) /\ 0 < averageR (S m) (sigR o) /\
  (f / averageR (S m) (sigR o) <= K / 2 ->
   exists y, QE o = Ok (XR y) /\
     Rabs (y - 100 * eta) <= 200 / K * (e / averageR (S m) (photonsR o) + eta * (f / averageR (S m) (sigR o)))).
Proof. exact near_figures. Qed.
Print Assumptions C101_near.

Example C101_near_case :
  near_linear (off_data Props_Results.sample_s) 4 2 (1 / 2) 1 (2 * (1 / 4)) (2 * (1 / 4) * (1 + 1) + 1 / 4).
Proof. exact (off_near _). Qed.

Theorem C101_stable :
  forall (o : robj) T n p eta K q e,
  linear_law T (photonsR o) p eta K q -> clear_points T n p e -> measured_within o T n e ->
  shaped o n -> unforced o -> Forall (fun v => (0 <= v)%Q) (r_s2y (o_t o)) ->
  (forall i, (i < n)%nat -> tr_var T i = 0 -> (at_ (r_s2y (o_t o)) i == 0)%Q) ->
  fst (index_u_ysat o) = Ok (Z.of_nat p) /\
  near_linear o n p eta K (2 * e) (2 * e * (1 + K) + q) /\
  right_within o p eta K q e.
Proof. exact stable_obj. Qed.
Print Assumptions C101_stable.

Example C101_stable_case : let o := off_data Props_Results.sample_s in
  linear_law row_truth (photonsR o) 2 (1 / 2) 1 (1 / 4) /\ clear_points row_truth 4 2 (1 / 4) /\
  measured_within o row_truth 4 (1 / 4) /\ shaped o 4 /\ unforced o /\
  Forall (fun v => (0 <= v)%Q) (r_s2y (o_t o)) /\
  (forall i, (i < 4)%nat -> tr_var row_truth i = 0 -> (at_ (r_s2y (o_t o)) i == 0)%Q).
Proof.
  exact (conj (off_law _) (conj row_clear (conj (off_within _) (conj (off_shaped _) (conj eq_refl
    (conj (off_nonneg _) (off_zero _))))))).
Qed.

(** ** C102: with more pixels wrong results become unlikely *)
Theorem C102_mean :
  forall W (C : chance W) S h w mu s2 V M, noisy_pair C S h w mu s2 V M ->
  forall T, (2 <= h * w)%nat -> (forall o A B, S o = [A; B] -> pair_ok h w A B) ->
  (forall o, temporal_data_of (S o) (T o)) ->
  forall e, 0 < e ->
  unlikely C (fun o => e < Rabs (Q2R (td_mean (h * w) (T o)) - pixel_meanR h w mu)) (V / (2 * INR (h * w) * (e * e))).
Proof. exact @pair_mean. Qed.
Print Assumptions C102_mean.

Theorem C102_variance :
  forall W (C : chance W) S h w mu s2 V M, noisy_pair C S h w mu s2 V M ->
  forall T, (2 <= h * w)%nat -> (forall o A B, S o = [A; B] -> pair_ok h w A B) ->
  (forall o, temporal_data_of (S o) (T o)) ->
  forall e, 0 < e ->
  unlikely C (fun o => e < Rabs (Q2R (td_s2 (h * w) (T o)) - pixel_meanR h w (both s2)))
    (M / (INR (h * w) * (e * e)) + 2 * V / (INR (h * w) * e)).
Proof. exact @pair_var. Qed.
Print Assumptions C102_variance.

(** A row of any number w of pixels with grey values 14 + 3 and 14 - 3, each by the toss of a coin. *)
Example C102_pair_case : forall w, (2 <= w)%nat -> (Z.of_nat w <= 2 ^ 29)%Z ->
  noisy_pair (row w) (toss_pair w 14 3) 1 w (fun _ _ => 14) (fun _ _ _ => 3 * 3) 9 648 /\
  (forall o A B, toss_pair w 14 3 o = [A; B] -> pair_ok 1 w A B) /\
  (forall o, temporal_data_of (toss_pair w 14 3 o) (the_data (toss_pair w 14 3 o))).
Proof.
  intros w W2 WL. split; [apply (toss_noisy w 14 3); lra|]. split; [apply toss_ok; lia|]. apply toss_summary; lia.
Qed.

Theorem C102_measured :
  forall W (C : chance W) O B D n h w p T x V M eta K q e,
  measurement C O B D n h w T x V M -> linear_law T x p eta K q -> clear_points T n p e ->
  (2 <= h * w)%nat -> 0 < e ->
  unlikely C (fun o => ~ right_within (O o) p eta K q e)
    (INR n / INR (h * w) * ((V + 2 * M) / (e * e) + 4 * V / e)).
Proof. exact @measured_unlikely. Qed.
Print Assumptions C102_measured.

(** Four points of a row of any number of pixels; the last point is saturated. *)
Example C102_measured_case : forall w, (2 <= w)%nat -> (Z.of_nat w <= 2 ^ 29)%Z ->
  measurement (row w) (row_data Props_Results.sample_s w) (row_bright w) (row_dark w) 4 1 w row_truth row_light 9 648 /\
  linear_law row_truth row_light 2 (1 / 2) 1 (1 / 4) /\ clear_points row_truth 4 2 (1 / 4).
Proof. intros w W2 WL. exact (conj (row_measurement _ w W2 WL) (conj row_law row_clear)). Qed.

Theorem C102_enough_pixels :
  forall n V M e d, 0 < e -> 0 < d -> exists N0 : nat,
  forall W (C : chance W) O B D h w T x p eta K q,
  measurement C O B D n h w T x V M -> linear_law T x p eta K q -> clear_points T n p e ->
  (2 <= h * w)%nat -> (N0 <= h * w)%nat ->
  unlikely C (fun o => ~ right_within (O o) p eta K q e) d.
Proof. exact pixels_suffice. Qed.
Print Assumptions C102_enough_pixels.

Theorem C102_simulated :
  forall W (C : chance W) O B D n h w T x V M p eta K (a d : nat -> setting) e,
  measurement C O B D n h w T x V M -> (2 <= h * w)%nat -> 0 < eta -> 0 < K ->
  (forall i, (i <= p)%nat -> simulated C (a i) (B i) 2 h w /\ simulated C (d i) (D i) 2 h w /\
     same_but_light (a i) (d i) /\ st_K (a i) = K /\
     pixel_meanR h w (fun r c => st_light (a i) r c - st_light (d i) r c) = eta * x i) ->
  clear_points T n p e -> 0 < e ->
  unlikely C (fun o => ~ right_within (O o) p eta K (1 / 4) e)
    (INR n / INR (h * w) * ((V + 2 * M) / (e * e) + 4 * V / e)).
Proof. exact simulated_unlikely. Qed.
Print Assumptions C102_simulated.

Example C102_simulated_case : forall w, (2 <= w)%nat -> forall i, (i <= 2)%nat ->
  simulated (row w) (row_setting i) (row_bright w i) 2 1 w /\ simulated (row w) (row_dark_setting i) (row_dark w i) 2 1 w /\
  same_but_light (row_setting i) (row_dark_setting i) /\ st_K (row_setting i) = 1 /\
  pixel_meanR 1 w (fun r c => st_light (row_setting i) r c - st_light (row_dark_setting i) r c) = 1 / 2 * row_light i.
Proof. exact row_simulation. Qed.
