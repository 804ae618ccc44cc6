(** The rounding error of the temporal estimators. *)
From Coq Require Import List Bool Arith ZArith QArith Qabs Qreals Reals Lia Lra Permutation.
From Flocq Require Import Core Relative.
From Verif Require Import Base_Prelude Base_Num Base_Order Base_Sum Base_Float Spec_Num Proofs_Round
  Proofs_Num Proofs_Float Model_Images Model_Loader Model_Data Model_Hist Model_Rounded Spec_Images
  Spec_Data Proofs_Images Proofs_Hist2 Proofs_Data Proofs_Data2 Proofs_Rounded.
Import ListNotations.
Open Scope R_scope.

Lemma ulp1_pos : 0 < ulp1 <= / 1000.
Proof.
  unfold ulp1. split; [apply Rinv_0_lt_compat, IZR_lt; lia|].
  apply Rinv_le; [lra|]. apply IZR_le. lia.
Qed.

Lemma tiny_small : 0 < tiny <= ulp1 / 1000.
Proof.
  unfold tiny, ulp1. split; [apply Rinv_0_lt_compat, IZR_lt; lia|].
  unfold Rdiv. rewrite <- Rinv_mult, <- mult_IZR. apply Rinv_le; [apply IZR_lt; lia|].
  apply IZR_le. lia.
Qed.

Lemma rn_abs x B : Rabs x <= B -> Rabs (rn x - x) <= ulp1 * B + tiny.
Proof.
  intro H. eapply Rle_trans; [apply rn_err|]. pose proof ulp1_pos.
  apply Rplus_le_compat_r. apply Rmult_le_compat_l; lra.
Qed.

Ltac absd := repeat match goal with
  | H : Rabs _ <= _ |- _ => apply Rabs_le_inv in H
  | |- Rabs _ <= _ => apply Rabs_le
  end.

(** [P] pseudo-variance total, [F] four times the number of pixels. *)
Lemma s2_error M P F a b : 1 <= M -> 1 <= F -> 0 <= P <= F * (M * M / 2) ->
  0 <= a <= M -> 0 <= b <= M ->
  let D := rn (rn b - rn a) in
  let x := rn (rn P / F) in
  let h := rn (rn (D * D) / 2) in
  Rabs D <= 2 * M /\ Rabs x <= M * M /\ Rabs h <= M * M /\ Rabs (rn P / F) <= M * M /\
  Rabs (rn (D * D)) <= 4 * (M * M) /\
  Rabs (rn b - rn a) <= 2 * M /\
  Rabs (rn (x - h) - (P / F - (b - a) * (b - a) / 2)) <= 8 * ulp1 * (M * M).
Proof.
  intros HM HF HP Ha Hb D x h. pose proof ulp1_pos as U. pose proof tiny_small as T.
  set (u := ulp1) in *. set (e := tiny) in *.
  set (W := M * M). assert (HW : M <= W) by (unfold W; nra).
  assert (TM : e <= u * M / 1000) by nra.
  assert (TW : u * M <= u * W) by nra.
  assert (UM : u * M <= M / 1000) by nra. assert (UW : u * W <= W / 1000) by nra.
  pose proof (rn_abs a M ltac:(rewrite Rabs_pos_eq; lra)) as Ea. fold u e in Ea.
  pose proof (rn_abs b M ltac:(rewrite Rabs_pos_eq; lra)) as Eb. fold u e in Eb.
  assert (Ed : Rabs (rn b - rn a) <= 11 / 10 * M) by (absd; lra).
  pose proof (rn_abs _ _ Ed) as ED. fold D u e in ED.
  assert (DD : Rabs (D - (b - a)) <= 32 / 10 * (u * M)) by (absd; lra).
  assert (AD : Rabs D <= 11 / 10 * M) by (absd; lra).
  assert (Ad : Rabs (b - a) <= M) by (absd; lra).
  assert (SQ : Rabs (D * D - (b - a) * (b - a)) <= 672 / 100 * (u * W)).
  { replace (D * D - (b - a) * (b - a)) with ((D - (b - a)) * (D + (b - a))) by ring.
    rewrite Rabs_mult. apply Rle_trans with ((32 / 10 * (u * M)) * (21 / 10 * M)).
    - apply Rmult_le_compat; try apply Rabs_pos; auto.
      eapply Rle_trans; [apply Rabs_triang|]. lra.
    - unfold W. nra. }
  assert (D2 : Rabs (D * D) <= 121 / 100 * W).
  { rewrite Rabs_mult. apply Rle_trans with ((11 / 10 * M) * (11 / 10 * M)).
    - apply Rmult_le_compat; try apply Rabs_pos; auto.
    - unfold W. lra. }
  pose proof (rn_abs _ _ D2) as EQ. fold u e in EQ. set (q := rn (D * D)) in *.
  assert (Aq : Rabs (q / 2) <= 61 / 100 * W) by (absd; lra).
  pose proof (rn_abs _ _ Aq) as EH. fold h u e in EH.
  assert (d2 : 0 <= (b - a) * (b - a) <= W).
  { absd. split; [apply Rle_0_sqr|]. unfold W. nra. }
  set (d := (b - a) * (b - a)) in *.
  assert (V : 0 <= P / F <= W / 2).
  { split; [apply Rmult_le_pos; [lra|left; apply Rinv_0_lt_compat; lra]|].
    apply Rmult_le_reg_r with F; [lra|]. unfold Rdiv at 1. rewrite Rmult_assoc, Rinv_l by lra.
    fold W in HP. lra. }
  pose proof (rn_err P) as EP. fold u e in EP. rewrite (Rabs_pos_eq P) in EP by lra.
  assert (Ev : Rabs (rn P / F - P / F) <= u * (P / F) + e).
  { replace (rn P / F - P / F) with ((rn P - P) * / F) by (unfold Rdiv; ring).
    rewrite Rabs_mult, (Rabs_pos_eq (/ F)) by (left; apply Rinv_0_lt_compat; lra).
    apply Rle_trans with ((u * P + e) * / F).
    - apply Rmult_le_compat_r; auto. left. apply Rinv_0_lt_compat. lra.
    - assert (/ F <= 1) by (rewrite <- Rinv_1; apply Rinv_le; lra).
      rewrite Rmult_plus_distr_r. unfold Rdiv. rewrite <- Rmult_assoc.
      apply Rplus_le_compat_l. nra. }
  assert (uV : u * (P / F) <= u * W / 2) by nra.
  assert (Av : Rabs (rn P / F) <= 51 / 100 * W) by (absd; lra).
  pose proof (rn_abs _ _ Av) as EX. fold x u e in EX.
  assert (Adiff : Rabs (x - h) <= 7 / 10 * W) by (absd; lra).
  pose proof (rn_abs _ _ Adiff) as EF. fold u e in EF.
  repeat split; absd; lra.
Qed.
