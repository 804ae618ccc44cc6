(** Proofs for C118: decibels and bits. *)
From Coq Require Import List Bool QArith Qreals Reals ZArith Lia Lra Arith Psatz.
From Flocq Require Import Core Relative.
From Verif Require Import Base_Prelude Base_Num Base_Xreal Model_Data Model_Results Model_RoundedFigures Spec_Results Spec_Figures
  Spec_RoundedFigures Proofs_Results2 Proofs_RFigures Proofs_RFigures2.
Open Scope R_scope.
Set Bullet Behavior "Strict Subproofs".

Lemma ln_le_sub x : 0 < x -> ln x <= x - 1.
Proof. intros P. destruct (Req_dec x 1) as [->|N]; [rewrite ln_1; lra|]. 
  assert (L : ln x <> 0). { intros E. apply N. rewrite <- (exp_ln x P), E. apply exp_0. }
  pose proof (exp_ineq1 (ln x) L) as H. rewrite exp_ln in H by exact P. lra. Qed.

Lemma ln2_half : 1 / 2 <= ln 2.
Proof. pose proof (ln_le_sub (/ 2) ltac:(lra)) as H. rewrite ln_Rinv in H by lra. lra. Qed.

Lemma ln_near d : Rabs d <= 1 / 2 -> Rabs (ln (1 + d)) <= 2 * Rabs d.
Proof.
  intros H. assert (B : - (1 / 2) <= d <= 1 / 2) by (revert H; unfold Rabs; destruct (Rcase_abs d); lra).
  pose proof (ln_le_sub (1 + d) ltac:(lra)) as U.
  assert (I : 0 < / (1 + d)) by (apply Rinv_0_lt_compat; lra).
  pose proof (ln_le_sub (/ (1 + d)) I) as L. rewrite ln_Rinv in L by lra.
  assert (E : / (1 + d) * (1 + d) = 1) by (apply Rinv_l; lra).
  assert (V : / (1 + d) - 1 <= 2 * Rabs d).
  { replace (/ (1 + d) - 1) with (- d * / (1 + d)) by (field; lra).
    assert (I2 : / (1 + d) <= 2) by nra. pose proof (Rle_abs (- d)) as A. rewrite Rabs_Ropp in A.
    apply Rle_trans with (Rabs d * / (1 + d)); [apply Rmult_le_compat_r; lra|]. rewrite Rmult_comm. apply Rmult_le_compat_r; [apply Rabs_pos|lra]. }
  pose proof (Rle_abs d). pose proof (Rabs_pos d). apply Rabs_le. lra.
Qed.

(** The logarithm of a figure that is right up to c units. *)
Lemma log_moves c v y : (c <= 1000)%nat -> 0 < y -> right_to c v y -> 0 < v /\ Rabs (ln v - ln y) <= 2 * (INR c * unit).
Proof.
  intros C Y H. unfold right_to in H. rewrite unit_eq, (Rabs_pos_eq y) in H by lra.
  assert (CI : 0 <= INR c <= 1000). { split; [apply pos_INR|]. replace 1000 with (INR 1000) by (rewrite INR_IZR_INZ; reflexivity). apply le_INR, C. }
  pose proof unit_small as US. set (d := (v - y) / y). assert (E : v = y * (1 + d)) by (unfold d; field; lra).
  assert (D : Rabs d <= INR c * unit).
  { unfold d, Rdiv. rewrite Rabs_mult, (Rabs_pos_eq (/ y)) by (left; apply Rinv_0_lt_compat; exact Y).
    apply Rmult_le_reg_r with y; [exact Y|]. rewrite Rmult_assoc, Rinv_l, Rmult_1_r by lra. exact H. }
  assert (S : INR c * unit <= 1 / 2) by nra.
  assert (DB : - (1 / 2) <= d) by (assert (Rabs d <= 1 / 2) by lra; revert H0; unfold Rabs; destruct (Rcase_abs d); lra).
  rewrite E. split; [apply Rmult_lt_0_compat; lra|]. rewrite ln_mult by lra.
  replace (ln y + ln (1 + d) - ln y) with (ln (1 + d)) by ring. pose proof (ln_near d ltac:(lra)). lra.
Qed.

Lemma ln_ordinary y : 0 < y -> ordinary y -> Rabs (ln y) <= 100 * ln 2.
Proof.
  intros Y (L & U). rewrite Rabs_pos_eq in L, U by lra.
  assert (P : ln (2 ^ 100) = 100 * ln 2).
  { rewrite ln_pow by lra. replace (INR 100) with 100 by (rewrite INR_IZR_INZ; reflexivity). reflexivity. }
  assert (PP : 0 < 2 ^ 100) by (apply pow_lt; lra).
  apply Rabs_le. split.
  - rewrite <- P, <- ln_Rinv by exact PP. destruct L as [L| <-]; [|lra]. left. apply ln_increasing; [apply Rinv_0_lt_compat; exact PP|exact L].
  - rewrite <- P. destruct U as [U| ->]; [|lra]. left. apply ln_increasing; assumption.
Qed.

Lemma log_shows b lg c v y : 2 <= b -> (c <= 1000)%nat -> good_log b lg -> 0 < y -> ordinary y -> right_to c v y ->
  0 < v /\ Rabs (lg v - ln y / ln b) <= (204 + 4 * INR c) * unit /\ Rabs (lg v) <= 102.
Proof.
  intros B C G Y O R. destruct (log_moves c v y C Y R) as (V & M). split; [exact V|].
  pose proof (ln_ordinary y Y O) as LO. pose proof ln2_half as L2.
  assert (LB : ln 2 <= ln b). { destruct B as [B| <-]; [left; apply ln_increasing; lra|lra]. }
  assert (CI : 0 <= INR c <= 1000). { split; [apply pos_INR|]. replace 1000 with (INR 1000) by (rewrite INR_IZR_INZ; reflexivity). apply le_INR, C. }
  pose proof unit_small as US. specialize (G v V). rewrite unit_eq in G.
  assert (IB : 0 < / ln b) by (apply Rinv_0_lt_compat; lra).
  assert (I1 : / ln b * ln b = 1) by (apply Rinv_l; lra).
  assert (Y1 : Rabs (ln y / ln b) <= 100).
  { unfold Rdiv. rewrite Rabs_mult, (Rabs_pos_eq (/ ln b)) by lra.
    apply Rle_trans with (100 * ln 2 * / ln b); [apply Rmult_le_compat_r; lra|]. nra. }
  assert (D1 : Rabs (ln v / ln b - ln y / ln b) <= 4 * (INR c * unit)).
  { replace (ln v / ln b - ln y / ln b) with ((ln v - ln y) * / ln b) by (field; lra).
    rewrite Rabs_mult, (Rabs_pos_eq (/ ln b)) by lra. assert (/ ln b <= 2) by nra.
    apply Rle_trans with (2 * (INR c * unit) * 2); [|lra]. apply Rmult_le_compat; [apply Rabs_pos|lra|exact M|assumption]. }
  assert (CU : 4 * (INR c * unit) <= 1 / 1000) by nra.
  set (a := ln v / ln b) in *. set (t := ln y / ln b) in *.
  assert (A : Rabs a <= 101). { replace a with ((a - t) + t) by ring. eapply Rle_trans; [apply Rabs_triang|]. lra. }
  assert (GA : Rabs (lg v - a) <= 2 * unit * 102) by (eapply Rle_trans; [exact G|apply Rmult_le_compat_l; lra]).
  split.
  - replace (lg v - t) with ((lg v - a) + (a - t)) by ring. eapply Rle_trans; [apply Rabs_triang|]. lra.
  - replace (lg v) with ((lg v - a) + a) by ring. eapply Rle_trans; [apply Rabs_triang|]. lra.
Qed.

Lemma bit_rounded lg c f g y : (c <= 1000)%nat -> good_log 2 lg -> shows c f g -> g = Ok (XR y) -> 0 < y -> ordinary y ->
  shows_abs (204 + 4 * INR c) (r_log lg f) (s <- g ;; Ok (xlog2 s)).
Proof.
  intros C G (v & y' & -> & E & R) -> Y O. injection E as <-.
  destruct (log_shows 2 lg c v y ltac:(lra) C G Y O R) as (V & D & _).
  exists (lg v), (ln y / ln 2). split; [|split].
  - unfold r_log. cbn [obind]. destruct (Rle_dec v 0) as [L|_]; [lra|reflexivity].
  - cbn [bind]. unfold xlog2, xlog. destruct (Rlt_dec 0 y) as [_|N]; [reflexivity|lra].
  - rewrite unit_eq. exact D.
Qed.

Lemma fl_abs a : Rabs a <= 10000 -> exists v, fl a = Some v /\ Rabs (v - a) <= unit * Rabs a + unit.
Proof.
  intros A. destruct (Relative.error_N_FLT radix2 (-1074) 53 ltac:(lia) (fun x => negb (Z.even x)) a) as (eps & eta & E1 & E2 & _ & E).
  fold (nearest a) in E. change (round radix2 (FLT_exp (-1074) 53) (Znearest (fun x => negb (Z.even x))) a) with (nearest a) in E.
  assert (U1 : Rabs eps <= unit).
  { eapply Rle_trans; [exact E1|]. unfold unit. change (/ 2) with (bpow radix2 (-1)). rewrite <- bpow_plus. apply bpow_le. lia. }
  assert (U2 : Rabs eta <= unit).
  { eapply Rle_trans; [exact E2|]. unfold unit. change (/ 2) with (bpow radix2 (-1)). rewrite <- bpow_plus. apply bpow_le. lia. }
  pose proof unit_small as US. pose proof (Rabs_pos a).
  assert (D : Rabs (nearest a - a) <= unit * Rabs a + unit).
  { rewrite E. replace (a * (1 + eps) + eta - a) with (eps * a + eta) by ring. eapply Rle_trans; [apply Rabs_triang|].
    rewrite Rabs_mult. apply Rplus_le_compat; [apply Rmult_le_compat_r; [apply Rabs_pos|exact U1]|exact U2]. }
  exists (nearest a). split; [|exact D]. unfold fl. destruct (Rlt_dec _ _) as [_|N]; [reflexivity|exfalso]. apply N.
  replace (nearest a) with ((nearest a - a) + a) by ring. eapply Rle_lt_trans; [apply Rabs_triang|].
  apply Rlt_le_trans with (bpow radix2 20); [|apply bpow_le; lia]. cbn. nra.
Qed.

Lemma db_rounded lg c f g y : (c <= 1000)%nat -> good_log 10 lg -> shows c f g -> g = Ok (XR y) -> 0 < y -> ordinary y ->
  shows_abs (6121 + 80 * INR c) (r_dB lg f) (s <- g ;; Ok (xmul (xq 20) (xlog10 s))).
Proof.
  intros C G (v & y' & -> & E & R) -> Y O. injection E as <-.
  destruct (log_shows 10 lg c v y ltac:(lra) C G Y O R) as (V & D & B).
  assert (A20 : Rabs (20 * lg v) = 20 * Rabs (lg v)) by (rewrite Rabs_mult, (Rabs_pos_eq 20) by lra; reflexivity).
  destruct (fl_abs (20 * lg v)) as (w & Ew & Dw); [rewrite A20; lra|].
  exists w, (20 * (ln y / ln 10)). split; [|split].
  - unfold r_dB, r_log. cbn [obind]. destruct (Rle_dec v 0) as [L|_]; [lra|]. exact Ew.
  - cbn [bind]. unfold xlog10, xlog. destruct (Rlt_dec 0 y) as [_|N]; [|lra]. unfold xq, xmul. do 2 f_equal.
    f_equal. unfold Q2R. cbn. field.
  - rewrite unit_eq. pose proof unit_small as US. rewrite A20 in Dw. pose proof (Rabs_pos (lg v)).
    replace (w - 20 * (ln y / ln 10)) with ((w - 20 * lg v) + 20 * (lg v - ln y / ln 10)) by ring.
    eapply Rle_trans; [apply Rabs_triang|]. rewrite (Rabs_mult 20), (Rabs_pos_eq 20) by lra.
    assert (unit * (20 * Rabs (lg v)) <= unit * 2040) by (apply Rmult_le_compat_l; lra). nra.
Qed.

(** ** Correctly rounded numbers meet the hypotheses *)
Lemma nearest_right e x : size e x -> (e <= 1000)%Z -> right_to 1 (nearest x) x.
Proof.
  intros (L & _) E. unfold right_to. rewrite unit_eq. change (INR 1) with 1. rewrite Rmult_1_l.
  eapply Rle_trans; [apply (relative_error_N_FLT radix2 (-1074) 53 ltac:(lia) (fun x => negb (Z.even x)))|].
  - eapply Rle_trans; [|exact L]. apply bpow_le. lia.
  - apply Rmult_le_compat_r; [apply Rabs_pos|]. unfold unit. change (/ 2) with (bpow radix2 (-1)). rewrite <- bpow_plus. apply bpow_le. lia.
Qed.
Lemma nearest_ordinary x : ordinary x -> right_to 1 (nearest x) x.
Proof. intros O. apply (nearest_right 100); [apply ordinary_size, O|lia]. Qed.
Lemma nearest_square : good_square (fun y => nearest (y * y)).
Proof.
  intros y O. assert (H : right_to 1 (nearest (y * y)) (y * y)).
  { apply (nearest_right 200); [|lia]. destruct (ordinary_size y O) as (L & U). split; rewrite Rabs_mult.
    - change (- (200))%Z with (- (100) + - (100))%Z. rewrite bpow_plus. apply Rmult_le_compat; try apply bpow_ge_0; assumption.
    - change 200%Z with (100 + 100)%Z. rewrite bpow_plus. apply Rmult_le_compat; try apply Rabs_pos; assumption. }
  unfold right_to in *. eapply Rle_trans; [exact H|]. apply Rmult_le_compat_r; [apply Rabs_pos|]. rewrite unit_eq.
  pose proof unit_small. change (INR 1) with 1. change (INR 2) with 2. lra.
Qed.
Lemma nearest_log b : good_log b (fun x => nearest (ln x / ln b)).
Proof.
  intros x _. rewrite unit_eq. set (a := ln x / ln b).
  destruct (Relative.error_N_FLT radix2 (-1074) 53 ltac:(lia) (fun x => negb (Z.even x)) a) as (eps & eta & E1 & E2 & _ & E).
  change (round radix2 (FLT_exp (-1074) 53) (Znearest (fun x => negb (Z.even x))) a) with (nearest a) in E.
  assert (U1 : Rabs eps <= unit).
  { eapply Rle_trans; [exact E1|]. unfold unit. change (/ 2) with (bpow radix2 (-1)). rewrite <- bpow_plus. apply bpow_le. lia. }
  assert (U2 : Rabs eta <= unit).
  { eapply Rle_trans; [exact E2|]. unfold unit. change (/ 2) with (bpow radix2 (-1)). rewrite <- bpow_plus. apply bpow_le. lia. }
  pose proof unit_small as US. pose proof (Rabs_pos a).
  rewrite E. replace (a * (1 + eps) + eta - a) with (eps * a + eta) by ring. eapply Rle_trans; [apply Rabs_triang|].
  rewrite Rabs_mult. assert (Rabs eps * Rabs a <= unit * Rabs a) by (apply Rmult_le_compat_r; assumption). nra.
Qed.

Lemma middling x : 1 / 100 <= x <= 100 -> ordinary x.
Proof.
  intros (L & U). unfold ordinary. rewrite Rabs_pos_eq by lra.
  assert (P : 100 <= 2 ^ 100). { apply Rle_trans with (2 ^ 7); [cbn [pow]; lra|]. apply Rle_pow; [lra|lia]. }
  split; [|lra]. apply Rle_trans with (/ 100); [apply Rinv_le_contravar; lra|lra].
Qed.
