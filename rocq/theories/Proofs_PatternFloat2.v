(** The striped images of the example run, evaluated in double precision. *)
From Coq Require Import Ascii String List Bool Arith ZArith QArith Qreals Reals Lia Lra FunctionalExtensionality.
From Verif Require Import Base_Prelude Base_Str Base_Num Base_Float Base_SumR Model_Parser Model_Images Model_Data Model_Results
  Model_Camera Model_Points Model_Dataset Model_Generated Model_Rounded Model_RoundedEmva Spec_Parser Spec_Images Spec_Data Spec_Results Spec_Camera Spec_Dataset Spec_Generated
  Spec_Chance Spec_Linear Spec_Any Spec_Near Spec_Pattern Spec_Emva Spec_Whole Spec_Figures Spec_PatternFiles Spec_RandomRun
  Spec_Rounded Spec_RoundedSpatial Spec_RoundedEmva Spec_PatternFloat Proofs_Near4 Proofs_Figures4 Proofs_Pattern3 Proofs_Run5 Proofs_Run8 Proofs_PatternRun2 Proofs_Fit Proofs_Float Proofs_REmva3 Proofs_PatternFloat.
Import ListNotations.
Open Scope R_scope.
Set Bullet Behavior "Strict Subproofs".

Lemma gen_rounding w : (Z.of_nat w <= 2 ^ 29)%Z -> 0 <= rounding_part 8 (1 * w) <= 1 / 4.
Proof.
  intro H. unfold rounding_part, spatial_bound. rewrite Nat.mul_1_l. rewrite Q2R_div by (unfold Qeq, inject_Z; cbn [Qnum Qden]; lia).
  rewrite !Q2R_inject_Z, mult_IZR, plus_IZR. change (2 ^ (2 * 8))%Z with 65536%Z. change (2 ^ 49)%Z with 562949953421312%Z.
  change (2 ^ 29)%Z with 536870912%Z in H. assert (IZR (Z.of_nat w) <= 536870912) by (apply IZR_le, H).
  assert (0 <= IZR (Z.of_nat w)) by (apply IZR_le; lia). lra.
Qed.
Definition gen_error_50 : R := 1 / 50 - Q2R (variance_error 8).
Lemma gen_error_50_pos : 0 < gen_error_50.
Proof.
  unfold gen_error_50. change (variance_error 8) with (inject_Z 65536 / inject_Z 1125899906842624)%Q.
  rewrite Q2R_div by discriminate. unfold Q2R, inject_Z. cbn [Qnum Qden]. lra.
Qed.
Lemma gen_error_50_sum : gen_error_50 + Q2R (variance_error 8) = 1 / 50.
Proof. unfold gen_error_50. lra. Qed.
Lemma gen_resolved_50 w : noise_resolved (gen_cam w) (gen_draws w) 3 gen_points gen_shots row_truth (1 / 50).
Proof.
  intros i b d n N D. destruct (gen_resolved w i b d n N D) as (_ & [X|X]); (split; [|try (right; exact X)]).
  - pose proof (gen_index i b d N) as Hi. do 4 (destruct i as [|i]; [cbn [row_truth tr_var row_level snd]; try (right; lra); left; lra|]). lia.
  - pose proof (gen_index i b d N) as Hi. exfalso. unfold gen_error, gen_slack in X.
    do 4 (destruct i as [|i]; [cbn [row_truth tr_dark_var row_level snd] in X; lra|]). lia.
  - pose proof (gen_index i b d N) as Hi. do 4 (destruct i as [|i]; [cbn [row_truth tr_var row_level snd]; try (right; lra); left; lra|]). lia.
Qed.

Section Case.
Variable k : nat.
Let w := (2 * k)%nat.
Hypothesis k1 : (1 <= k)%nat.
Hypothesis kL : (Z.of_nat (2 * k) <= 2 ^ 29)%Z.
Let W2 : (2 <= w)%nat.
Proof. unfold w. lia. Qed.

Lemma gen_float_bounds : let F := 1 / 4 + rounding_part 8 (1 * w) in
  F <= spatial_varianceR 1 w (stripes dark_stripes) /\
  2 * F <= spatial_varianceR 1 w (stripes bright_stripes) - spatial_varianceR 1 w (stripes dark_stripes) /\
  2 * F < pixel_meanR 1 w (stripes bright_stripes) - pixel_meanR 1 w (stripes dark_stripes).
Proof. intro F. pose proof (gen_pattern_bounds k k1) as B. fold w in B. pose proof (gen_rounding w kL). unfold F. lra. Qed.

Lemma gen_float_files : exists t ents ps b d, (forall o, written (gen_events w o) = t) /\ lists gen_file t ents /\
  (forall o, complete_set (disk_of 1 w (gen_events w o)) 1 w ents) /\ Spec_Whole.points_of ents ps /\ length ps = 4%nat /\
  random_files (row w) (fun o => disk_of 1 w (gen_events w o)) ps 1 w row_truth 9 648 /\
  (forall o, files_bits (disk_of 1 w (gen_events w o)) ents 1 w 8) /\
  noise_seen (fun o => disk_of 1 w (gen_events w o)) ps 1 w row_truth (gen_error_50 + Q2R (variance_error 8)) /\
  linear_law row_truth (stated_light ps) 2 (1 / 2) 1 (1 / 4) /\ clear_points row_truth 4 2 (gen_error_50 + Q2R (variance_error 8)) /\
  gain_error (stated_light ps 0) (1 / 2) 1 (1 / 4) (gen_error_50 + Q2R (variance_error 8)) < 1 /\
  spatial_pair ents b d /\
  patterned (row w) (fun o => contents (disk_of 1 w (gen_events w o)) b) 3 1 w (stripes bright_stripes) 16 256 7 /\
  patterned (row w) (fun o => contents (disk_of 1 w (gen_events w o)) d) 3 1 w (stripes dark_stripes) 0 0 1.
Proof.
  rewrite gen_error_50_sum.
  destruct (run_files_bits (row w) _ _ _ _ _ _ _ _ _ _ _ (gen_usable w W2 kL) gen_order 16 19 gen_spatial)
    as (t & ents & ps & b & d & WR & LI & CS & SP & FB & C1 & C2 & PS & LN & LE & RF & NS).
  exists t, ents, ps, b, d. destruct (gen_patterned k k1 kL) as (P1 & P2).
  split; [exact WR|]. split; [exact LI|]. split; [exact CS|]. split; [exact PS|]. split; [exact LN|].
  split; [exact (RF _ _ _ (gen_random w W2 kL))|]. split; [exact FB|]. split; [exact (NS _ _ (gen_resolved_50 w))|].
  rewrite LE. split.
  { destruct row_law as [A1 A2 A3 A4]. constructor; auto. intros i Hi. rewrite gen_listed by lia. auto. }
  split; [exact row_clear_small|]. split; [rewrite gen_listed by lia; apply row_small|]. split; [exact SP|].
  split.
  - replace (fun o => contents (disk_of 1 w (gen_events w o)) b) with (fun o => series_at (gen_cam w) (gen_draws w o) 3 16); [exact P1|].
    apply functional_extensionality. intro o. symmetry. apply C1.
  - replace (fun o => contents (disk_of 1 w (gen_events w o)) d) with (fun o => series_at (gen_cam w) (gen_draws w o) 3 19); [exact P2|].
    apply functional_extensionality. intro o. symmetry. apply C2.
Qed.
End Case.

Lemma striped_odds4 w : 2000000 <= INR w -> total_odds 3 3 1 w 16 256 7 0 0 1 (1 / 4) <= 1 / 2.
Proof.
  intros H. unfold total_odds, pattern_odds, level_odds. rewrite Nat.mul_1_l. replace (INR 3) with 3 by (simpl; lra).
  match goal with |- ?x <= _ => replace x with ((16 * (128 * 49 * 16 / 3 + 32 * 256) + 32 * 16 / 3 + 16 * 16 / 3) / INR w) by (field; lra) end.
  apply (Rmult_le_reg_r (INR w)); [lra|]. unfold Rdiv at 1. rewrite Rmult_assoc, Rinv_l by lra. lra.
Qed.
