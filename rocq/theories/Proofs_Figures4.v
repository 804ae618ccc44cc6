(** A case for C116: four exposure times, a dark current, and measured values slightly off. *)
From Coq Require Import List Bool Arith ZArith QArith Qreals Reals Lia Lra.
From Verif Require Import Base_Prelude Base_Str Base_Num Base_SumR Model_Images Model_Loader Model_Data
  Model_Parser Model_Results Model_Emva Spec_Parser
  Spec_Images Spec_Data Spec_Results Spec_Chance Spec_Linear Spec_Any Spec_Near Spec_Figures Spec_Emva Spec_Whole
  Proofs_Results2 Proofs_Near Proofs_Near3 Proofs_Near4 Proofs_Whole Proofs_Whole2.
Import ListNotations.
Open Scope R_scope.
Set Bullet Behavior "Strict Subproofs".

Definition warm_signal (i : nat) : R := match i with O => 1 | S O => 4 | S (S O) => 9 | _ => 12 end.
Definition warm_truth : truth :=
  mkTruth (fun i => 6 + INR i + warm_signal i) (fun i => if (i <? 3)%nat then 2 + INR i + warm_signal i else 0)
    (fun i => 6 + INR i) (fun i => 2 + INR i).
(** Exposure times 1 to 4; the true dark mean is 5 plus the time, the true dark variance 1 plus the time. *)
Definition warm_data (sp : spatial) : robj :=
  mkObj (mkRT [1; 2; 3; 4]%Q [2; 8; 18; 40]%Q [351 # 50; 11; 849 # 50; 21]%Q [3; 349 # 50; 13; 0]%Q
    [6; 351 # 50; 8; 9]%Q [99 # 50; 3; 4; 251 # 50]%Q) sp None None.

Ltac cases4 i Hi := do 4 (destruct i as [|i]; [unfold Q2R; cbn; try apply Rabs_le; try lra; try lia|]); lia.
Lemma warm_law sp : linear_law warm_truth (photonsR (warm_data sp)) 2 (1 / 2) 1 0.
Proof. constructor; try lra; intros i Hi; unfold photonsR, photons; cases4 i Hi. Qed.
Lemma warm_clear : clear_points warm_truth 4 2 (1 / 50).
Proof. constructor; try lia; try lra; try (intros i Hi; cases4 i Hi); cbn; lra. Qed.
Lemma warm_within sp : measured_within (warm_data sp) warm_truth 4 (1 / 50).
Proof. constructor; intros i Hi; cases4 i Hi. Qed.
Lemma warm_shaped sp : shaped (warm_data sp) 4.
Proof. repeat split. Qed.
Lemma warm_nonneg sp : List.Forall (fun v => (0 <= v)%Q) (r_s2y (o_t (warm_data sp))).
Proof. repeat constructor; discriminate. Qed.
Lemma warm_zero sp i : (i < 4)%nat -> tr_var warm_truth i = 0 -> (at_ (r_s2y (o_t (warm_data sp))) i == 0)%Q.
Proof. intros Hi. do 4 (destruct i as [|i]; [cbn; intros; try reflexivity; lra|]). lia. Qed.

Lemma many_times l : (unique_count l <=? 2)%nat = false -> ~ at_most_two l.
Proof. intros H G. apply unique_count_le2 in G. congruence. Qed.
Lemma warm_times : dark_truth [1; 2; 3; 4]%Q warm_truth 4 (1 / 50) 1 (11 / 50).
Proof.
  right. split; [apply many_times; reflexivity|]. split; [intros i Hi; unfold time; cases4 i Hi|]. split.
  - exists 1. intros i Hi. unfold time. cases4 i Hi.
  - unfold offset_factor, spread, time, Q2R. cbn. field.
Qed.
Lemma warm_rises : dark_rises [1; 2; 3; 4]%Q warm_truth 4 1 1.
Proof.
  split; [apply many_times; reflexivity|]. split; [intros i Hi; unfold time; cases4 i Hi|].
  exists 5, 1. intros i Hi. unfold time. do 4 (destruct i as [|i]; [unfold Q2R; cbn; split; lra|]); lia.
Qed.
Lemma warm_small sp : responsivity_error (photonsR (warm_data sp) 0) (1 / 50) < 1 * (1 / 2) /\
  gain_error (photonsR (warm_data sp) 0) (1 / 2) 1 0 (1 / 50) < 1 /\ 11 / 50 < Rmax (24 / 100) 1.
Proof.
  unfold responsivity_error, gain_error, photonsR, photons, Q2R. cbn. split; [lra|]. split; [lra|].
  rewrite Rmax_right; lra.
Qed.
Lemma warm_slope sp : slope_factor 4 (time (times (warm_data sp))) * (1 / 50) <= 1.
Proof. unfold slope_factor, spread, times, time, Q2R. cbn. lra. Qed.

(** The row of pixels, smaller errors. *)
Lemma row_clear_small : clear_points row_truth 4 2 (1 / 50).
Proof.
  constructor; try lia; try lra; try (intros i Hi; do 4 (destruct i as [|i]; [cbn; try lra; try lia|]); lia); try (cbn; lra).
Qed.
Lemma row_small : responsivity_error (row_light 0) (1 / 50) < 1 * (1 / 2) /\
  gain_error (row_light 0) (1 / 2) 1 (1 / 4) (1 / 50) < 1.
Proof. unfold responsivity_error, gain_error, row_light, Q2R. cbn. split; lra. Qed.
Lemma row_times : dark_truth (stated_times row_points) row_truth (length row_points) (1 / 50) 0 (11 / 50).
Proof.
  change (stated_times row_points) with [1; 2; 3; 4]%Q. change (length row_points) with 4%nat.
  right. split; [apply many_times; reflexivity|]. split; [intros i Hi; unfold time; cases4 i Hi|]. split.
  - exists 0. intros i Hi. unfold time. cases4 i Hi.
  - unfold offset_factor, spread, time, Q2R. cbn. field.
Qed.
Lemma row_rises : dark_rises (stated_times row_points) row_truth (length row_points) 0 0.
Proof.
  change (stated_times row_points) with [1; 2; 3; 4]%Q. change (length row_points) with 4%nat.
  split; [apply many_times; reflexivity|]. split; [intros i Hi; unfold time; cases4 i Hi|].
  exists 5, 0. intros i Hi. unfold time. do 4 (destruct i as [|i]; [unfold Q2R; cbn; split; lra|]); lia.
Qed.
