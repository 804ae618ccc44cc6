(** Proofs for C119: rows of coin tosses meet the hypotheses. *)
From Coq Require Import Ascii String List Bool Arith ZArith QArith Qabs Qreals Reals Lia Lra.
From Verif Require Import Base_Prelude Base_Str Base_Num Base_Order Base_Sum Base_SumR Base_Xreal Model_Images Model_Loader Model_Data
  Model_Parser Model_Results Model_Emva Model_Rounded Model_RoundedSpatial Model_RoundedEmva Spec_Parser
  Spec_Images Spec_Data Spec_Results Spec_Chance Spec_Linear Spec_Any Spec_Near Spec_Figures Spec_Straight Spec_Emva Spec_Whole
  Spec_Rounded Spec_RoundedSpatial Model_RoundedFigures Spec_RoundedFigures Spec_RoundedEmva Proofs_Rounded5 Proofs_RSpatial4 Proofs_Near4 Proofs_Whole Proofs_Whole2 Props_Emva.
Import ListNotations.
Open Scope R_scope.
Set Bullet Behavior "Strict Subproofs".

(** Every sum from left to right. *)
Definition plain_additions (h w : nat) : additions := mkAdditions left_to_right (plain_orders h w) (plain_orders h w).
Lemma plain_additions_sound h w : (0 < h)%nat -> (0 < w)%nat -> (Z.of_nat (h * w) <= 2 ^ 29)%Z ->
  sound_additions (plain_additions h w) (h * w) h w.
Proof. intros A B S. split; [apply left_to_right_sound|]. split; apply plain_sound; assumption. Qed.

Lemma row_bits w o : files_bits (row_fs w o) row_entries 1 w 5.
Proof.
  split; [lia|]. intros e f im r c _ _ F _ _. change (2 ^ 5)%Z with 32%Z. unfold row_fs in F.
  repeat match type of F with context [match ?x with _ => _ end] => destruct x; try discriminate F end;
    injection F as <-; cbn [toss_image px]; unfold toss_value; destruct (toss _ _); lia.
Qed.

Lemma row_noise_seen w : noise_seen (row_fs w) row_points 1 w row_truth (1 / 50).
Proof.
  intros i b d N. split.
  - do 4 (destruct i as [|i]; [cbn [row_truth tr_var row_level snd]; try (right; lra); left; lra|]). destruct i; discriminate.
  - right. intros o x y E r c _ _.
    assert (D : d = ent Temporal 1 0 ["a"; "b"]%string \/ d = ent Temporal 2 0 ["a"; "b"]%string \/
                d = ent Temporal 3 0 ["a"; "b"]%string \/ d = ent Temporal 4 0 ["a"; "b"]%string).
    { do 4 (destruct i as [|i]; [injection N as _ <-; tauto|]). destruct i; discriminate. }
    assert (K : contents (row_fs w o) d = [toss_image w 5 0 0 o; toss_image w 5 0 1 o]) by (destruct D as [->|[->|[->| ->]]]; reflexivity).
    rewrite K in E. injection E as <- <-. cbn [toss_image px]. unfold toss_value. destruct (toss 0 _), (toss 1 _); reflexivity.
Qed.

Definition row_error : R := 1 / 50 - Q2R (variance_error 5).
Lemma row_error_pos : 0 < row_error.
Proof.
  unfold row_error. change (variance_error 5) with (inject_Z 1024 / inject_Z 1125899906842624)%Q.
  rewrite Q2R_div by discriminate. unfold Q2R, inject_Z. cbn [Qnum Qden]. lra.
Qed.
Lemma row_error_sum : row_error + Q2R (variance_error 5) = 1 / 50.
Proof. unfold row_error. lra. Qed.
Lemma row_size w : (Z.of_nat w <= 2 ^ 29)%Z -> (Z.of_nat (1 * w) <= 2 ^ 29)%Z.
Proof. rewrite Nat.mul_1_l. auto. Qed.
Lemma row_dark_small : 11 / 50 < Rmax (24 / 100) 0.
Proof. rewrite Rmax_left; lra. Qed.

Lemma shown_right c f g t D : shows c f g -> reports g t D -> exists v, f = Some v /\ Rabs (v - t) <= D + INR c * / 2 ^ 53 * (Rabs t + D).
Proof.
  intros (v & y & F & G & R) (y' & G' & K). rewrite G in G'. injection G' as <-. exists v. split; [exact F|]. unfold right_to in R.
  replace (v - t) with ((v - y) + (y - t)) by ring. eapply Rle_trans; [apply Rabs_triang|].
  assert (Y : Rabs y <= Rabs t + D).
  { replace y with ((y - t) + t) by ring. eapply Rle_trans; [apply Rabs_triang|]. lra. }
  assert (P : 0 <= INR c * / 2 ^ 53).
  { apply Rmult_le_pos; [apply pos_INR|]. apply Rlt_le, Rinv_0_lt_compat, pow_lt. lra. }
  pose proof (Rmult_le_compat_l _ _ _ P Y). lra.
Qed.
Lemma shown_case : exists f g, shows 3 f g /\ reports g 2 (1 / 10) /\ f = Some 2.
Proof.
  exists (Some 2), (Ok (XR 2)). split; [|split; [|reflexivity]].
  - exists 2, 2. split; [reflexivity|]. split; [reflexivity|]. unfold right_to. rewrite Rminus_eq_0, Rabs_R0.
    apply Rmult_le_pos; [|apply Rabs_pos]. apply Rmult_le_pos; [apply pos_INR|]. apply Rlt_le, Rinv_0_lt_compat, pow_lt. lra.
  - exists 2. split; [reflexivity|]. rewrite Rminus_eq_0, Rabs_R0. lra.
Qed.
