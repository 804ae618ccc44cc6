(** The figures of the simulated row of pixels. *)
From Coq Require Import Ascii String List Bool Arith ZArith QArith Qreals Reals Lia Lra.
From Verif Require Import Base_Prelude Base_Str Base_Num Base_Float Base_SumR Model_Parser Model_Images Model_Data Model_Results
  Model_Camera Model_Points Model_Dataset Model_Rounded Model_RoundedEmva Spec_Dataset Spec_Results Spec_Linear Spec_Near Spec_Emva Spec_Whole
  Spec_Figures Spec_Straight Spec_Rounded Spec_RoundedEmva Spec_RandomRun
  Proofs_Near4 Proofs_Whole2 Proofs_Figures4 Proofs_Straight3 Proofs_Run5 Proofs_REmva4.
Import ListNotations.
Open Scope R_scope.
Set Bullet Behavior "Strict Subproofs".

(** Slack of the listed photons; what is left of errors of 1/50. *)
Definition gen_slack : R := 3 / 10000.
Definition gen_error : R := 1 / 50 - 2 * gen_slack.

Lemma gen_first_light : listed_light gen_li gen_shots 0 = 2.
Proof. rewrite gen_listed by lia. unfold row_light, Q2R. cbn. lra. Qed.
Lemma gen_times : dark_truth (listed_times gen_shots) row_truth (length gen_shots) (gen_error + gen_slack) 0 (11 * (gen_error + gen_slack)).
Proof.
  assert (E : listed_times gen_shots = stated_times row_points) by (vm_compute; reflexivity).
  destruct row_times as [(A & _)|(A & B & D & F)]; [exfalso; apply (proj1 row_rises); exact A|]. rewrite E.
  right. split; [exact A|]. split; [exact B|]. split; [exact D|].
  change (length gen_shots) with (length row_points). set (o := offset_factor _ _) in *. replace o with 11 by lra. reflexivity.
Qed.
Lemma gen_rises : dark_rises (listed_times gen_shots) row_truth (length gen_shots) 0 0.
Proof. replace (listed_times gen_shots) with (stated_times row_points) by (vm_compute; reflexivity). exact row_rises. Qed.
Lemma gen_sum : gen_error + 2 * gen_slack = 1 / 50.
Proof. unfold gen_error. lra. Qed.
Lemma gen_clear_small : clear_points row_truth (length gen_shots) 2 (gen_error + 2 * gen_slack).
Proof. rewrite gen_sum. exact row_clear_small. Qed.
Lemma gen_range : clear_range row_truth (listed_light gen_li gen_shots) 2 (gen_error + 2 * gen_slack).
Proof.
  rewrite gen_sum. split; [cbn; lra|]. exists 0%nat, 1%nat. split; [lia|]. split; [|cbn; split; lra].
  rewrite !gen_listed by lia. unfold row_light, Q2R. cbn. lra.
Qed.
Lemma gen_part : sqrt (INR 2) * signal_part (listed_light gen_li gen_shots 0) (1 / 2) 1 (gen_error + gen_slack) < 1.
Proof.
  assert (S := sqrt_two). assert (P := sqrt_pos (INR 2)). rewrite gen_first_light. unfold signal_part, gen_error, gen_slack.
  set (x := _ / _). assert (0 <= x <= 1 / 24) by (unfold x; lra).
  apply Rle_lt_trans with (3 / 2 * (1 / 24)); [apply Rmult_le_compat; lra|lra].
Qed.
Lemma gen_small : responsivity_error (listed_light gen_li gen_shots 0) (gen_error + gen_slack) < 1 * (1 / 2) /\
  gain_error (listed_light gen_li gen_shots 0) (1 / 2) 1 (1 / 4 + 1 * gen_slack) (gen_error + gen_slack) < 1 /\
  11 * (gen_error + gen_slack) < Rmax (24 / 100) 0.
Proof.
  rewrite gen_first_light. unfold responsivity_error, gain_error, gen_error, gen_slack. rewrite Rmax_left by lra. lra.
Qed.

(** In double precision: 8 bits. *)
Definition gen_error_f : R := gen_error - Q2R (variance_error 8).
Lemma gen_error_f_pos : 0 < gen_error_f.
Proof.
  unfold gen_error_f, gen_error, gen_slack. change (variance_error 8) with (inject_Z 65536 / inject_Z 1125899906842624)%Q.
  rewrite Q2R_div by discriminate. unfold Q2R, inject_Z. cbn [Qnum Qden]. lra.
Qed.
Lemma gen_error_f_sum : gen_error_f + Q2R (variance_error 8) = gen_error.
Proof. unfold gen_error_f. lra. Qed.
Lemma gen_resolved w : noise_resolved (gen_cam w) (gen_draws w) 3 gen_points gen_shots row_truth gen_error.
Proof.
  intros i b d n N D. pose proof (gen_index i b d N) as Hi. split.
  - unfold gen_error, gen_slack. do 4 (destruct i as [|i]; [cbn [row_truth tr_var row_level snd]; try (right; lra); left; lra|]). lia.
  - right. intros o r j Hr Hj. rewrite (gen_dark i b d n N D).
    cbn [gen_cam c_height c_width] in Hr, Hj. replace r with 0%nat by lia. rewrite !gen_picture by exact Hj.
    do 4 (destruct i as [|i]; [destruct (o j) as (u, v); destruct u, v; reflexivity|]). lia.
Qed.
