(** C118: how much the roundings of binary64 change the derived figures. *)
From Coq Require Import List Bool QArith Qreals Reals ZArith Lia Lra.
From Verif Require Import Base_Prelude Base_Num Base_Xreal Model_Data Model_Results Model_RoundedFigures Spec_Results
  Spec_RoundedFigures Proofs_Figures4 Proofs_RFigures Proofs_RFigures2 Proofs_RFigures3 Proofs_RFigures4.
From Verif Require Props_Results Proofs_Results2.
Import ListNotations.
Open Scope R_scope.

(** ** Gain, quantum efficiency, noise, sensitivity threshold, saturation, SNR, dynamic range *)
Theorem C118_figures :
  forall (o : robj) (pw : R -> R) (r k s p : Q) (s0 R0 K S X : R) (m : nat),
  (m <= 100)%nat ->
  responsivity o = Ok r -> gain o = Ok k -> dark_variance o = Ok s -> Q2R s = Rmax (24 / 100) s0 -> u_p_sat o = Ok p ->
  0 < Q2R r -> 0 < Q2R k -> 0 < Q2R p ->
  ordinary (Q2R r) -> ordinary (Q2R k) -> ordinary (Q2R s) -> ordinary (Q2R p) ->
  right_to m R0 (Q2R r) -> right_to m K (Q2R k) -> right_to m S s0 -> right_to m X (Q2R p) ->
  good_square pw ->
  figures_kept o pw R0 K S X m.
Proof. exact figures_rounded. Qed.
Print Assumptions C118_figures.

(** ** Dark current *)
Theorem C118_dark_current :
  forall (o : robj) (k : Q) (fm fv : Q * Q) (K Fm Fv : R) (m : nat), (m <= 100)%nat ->
  ~ at_most_two (r_texp (o_t o)) -> gain o = Ok k ->
  linear_b (r_texp (o_t o)) (r_uydark (o_t o)) = Ok fm -> linear_b (r_texp (o_t o)) (r_s2ydark (o_t o)) = Ok fv ->
  0 <= Q2R (fst fv) -> ordinary (Q2R k) -> ordinary (Q2R (fst fm)) -> ordinary (Q2R (fst fv)) ->
  right_to m K (Q2R k) -> right_to m Fm (Q2R (fst fm)) -> right_to m Fv (Q2R (fst fv)) ->
  current_kept o K Fm Fv m.
Proof. exact current_rounded. Qed.
Print Assumptions C118_dark_current.

(** ** DSNU and PRNU, whole and by rows, columns and pixels *)
Theorem C118_spatial :
  forall (o : robj) (k : Q) (K : R) (m : nat), (m <= 100)%nat -> gain o = Ok k -> ordinary (Q2R k) -> right_to m K (Q2R k) ->
  (dark_kept (Ok (s_2_y_dark o)) (DSNU1288 o) K m /\ dark_kept (s_2_y_row_dark o) (DSNU1288_row o) K m /\
   dark_kept (s_2_y_col_dark o) (DSNU1288_col o) K m /\ dark_kept (s_2_y_pixel_dark o) (DSNU1288_pixel o) K m) /\
  (light_kept o (Ok (s_2_y o)) (Ok (s_2_y_dark o)) (PRNU1288 o) m /\
   light_kept o (s_2_y_row o) (s_2_y_row_dark o) (PRNU1288_row o) m /\
   light_kept o (s_2_y_col o) (s_2_y_col_dark o) (PRNU1288_col o) m /\
   light_kept o (s_2_y_pixel o) (s_2_y_pixel_dark o) (PRNU1288_pixel o) m).
Proof. exact spatial_rounded. Qed.
Print Assumptions C118_spatial.

(** ** Figures per area: one more division *)
Theorem C118_per_area :
  forall (c : nat) (f : option R) (g : res xr) (area : Q), (c <= 900)%nat -> shows c f g -> ordinary (Q2R area) ->
  (forall y, g = Ok (XR y) -> / 2 ^ 500 <= Rabs y <= 2 ^ 500) ->
  exists v y, r_per_area (Q2R area) f = Some v /\ per_area (Some area) g = Ok (Some (XR y)) /\ right_to (c + 3) v y.
Proof. exact area_rounded. Qed.
Print Assumptions C118_per_area.

(** ** Decibels and bits *)
Theorem C118_ratio_dB :
  forall (o : robj) (lg : R -> R) (c : nat) (f : option R) (y : R), (c <= 1000)%nat -> good_log 10 lg ->
  shows c f (SNR_max o) -> SNR_max o = Ok (XR y) -> 0 < y -> ordinary y ->
  shows_abs (6121 + 80 * INR c) (r_dB lg f) (SNR_max_dB o).
Proof. exact (fun o lg c f y => db_rounded lg c f (SNR_max o) y). Qed.
Print Assumptions C118_ratio_dB.

Theorem C118_range_dB :
  forall (o : robj) (lg : R -> R) (c : nat) (f : option R) (y : R), (c <= 1000)%nat -> good_log 10 lg ->
  shows c f (DR o) -> DR o = Ok (XR y) -> 0 < y -> ordinary y ->
  shows_abs (6121 + 80 * INR c) (r_dB lg f) (DR_dB o).
Proof. exact (fun o lg c f y => db_rounded lg c f (DR o) y). Qed.
Print Assumptions C118_range_dB.

Theorem C118_ratio_bit :
  forall (o : robj) (lg : R -> R) (c : nat) (f : option R) (y : R), (c <= 1000)%nat -> good_log 2 lg ->
  shows c f (SNR_max o) -> SNR_max o = Ok (XR y) -> 0 < y -> ordinary y ->
  shows_abs (204 + 4 * INR c) (r_log lg f) (SNR_max_bit o).
Proof. exact (fun o lg c f y => bit_rounded lg c f (SNR_max o) y). Qed.
Print Assumptions C118_ratio_bit.

(** ** Correctly rounded results of a small measurement meet the hypotheses *)
Example C118_figures_case :
  let o := warm_data Props_Results.sample_s in
  exists (r k s p : Q), let n q := nearest (Q2R q) in
  figures_kept o (fun y => nearest (y * y)) (n r) (n k) (n s) (n p) 1 /\
  responsivity o = Ok r /\ gain o = Ok k /\ dark_variance o = Ok s /\ u_p_sat o = Ok p /\ Q2R p = 18.
Proof.
  exists (84700 # 170000)%Q, (659406250000000 # 659406250000000)%Q, (121250000 # 125000000)%Q, 18%Q.
  assert (A : responsivity (warm_data Props_Results.sample_s) = Ok (84700 # 170000)%Q) by reflexivity.
  assert (B : gain (warm_data Props_Results.sample_s) = Ok (659406250000000 # 659406250000000)%Q) by reflexivity.
  assert (C : dark_variance (warm_data Props_Results.sample_s) = Ok (121250000 # 125000000)%Q) by reflexivity.
  assert (D : u_p_sat (warm_data Props_Results.sample_s) = Ok 18%Q) by reflexivity.
  assert (E1 : Q2R (84700 # 170000) = 847 / 1700) by (unfold Q2R; cbn [Qnum Qden]; field).
  assert (E2 : Q2R (659406250000000 # 659406250000000) = 1) by (unfold Q2R; cbn [Qnum Qden]; field).
  assert (E3 : Q2R (121250000 # 125000000) = 97 / 100) by (unfold Q2R; cbn [Qnum Qden]; field).
  assert (E4 : Q2R 18 = 18) by (unfold Q2R; cbn; field).
  split; [|repeat (split; [assumption|]); exact E4].
  apply (C118_figures _ _ _ _ _ 18%Q (Q2R (121250000 # 125000000)) _ _ _ _ 1%nat ltac:(lia) A B C);
    try exact D; try exact nearest_square; try (apply nearest_ordinary); try apply middling; rewrite ?E1, ?E2, ?E3, ?E4; try lra.
  rewrite Rmax_right; lra.
Qed.

Example C118_dark_current_case :
  let o := warm_data Props_Results.sample_s in
  exists (k : Q) (fm fv : Q * Q),
  current_kept o (nearest (Q2R k)) (nearest (Q2R (fst fm))) (nearest (Q2R (fst fv))) 1 /\ Q2R (fst fm) = 499 / 500.
Proof.
  exists (659406250000000 # 659406250000000)%Q, (49900 # 50000, 250500 # 50000)%Q, (126500000 # 125000000, 121250000 # 125000000)%Q.
  assert (B : gain (warm_data Props_Results.sample_s) = Ok (659406250000000 # 659406250000000)%Q) by reflexivity.
  assert (E2 : Q2R (659406250000000 # 659406250000000) = 1) by (unfold Q2R; cbn [Qnum Qden]; field).
  cbn [fst].
  assert (E3 : Q2R (49900 # 50000) = 499 / 500) by (unfold Q2R; cbn [Qnum Qden]; field).
  assert (E4 : Q2R (126500000 # 125000000) = 253 / 250) by (unfold Q2R; cbn [Qnum Qden]; field).
  split; [|exact E3].
  apply (C118_dark_current _ (659406250000000 # 659406250000000)%Q (49900 # 50000, 250500 # 50000)%Q (126500000 # 125000000, 121250000 # 125000000)%Q _ _ _ 1%nat ltac:(lia));
    try exact B; try reflexivity; cbn [fst]; try (apply nearest_ordinary); try apply middling; rewrite ?E2, ?E3, ?E4; try lra.
  intros H. apply Proofs_Results2.unique_count_le2 in H. discriminate H.
Qed.

Example C118_spatial_case :
  let o := warm_data Props_Results.sample_s in
  shows 7 (r_DSNU (nearest 1) (nearest (5 / 2))) (DSNU1288 o) /\ shows 10 (r_PRNU (nearest (11 / 2)) (nearest 10)) (PRNU1288 o).
Proof.
  assert (B : gain (warm_data Props_Results.sample_s) = Ok (659406250000000 # 659406250000000)%Q) by reflexivity.
  assert (E2 : Q2R (659406250000000 # 659406250000000) = 1) by (unfold Q2R; cbn [Qnum Qden]; field).
  assert (O1 : ordinary 1) by (apply middling; lra).
  destruct (C118_spatial (warm_data Props_Results.sample_s) _ (nearest 1) 1 ltac:(lia) B) as ((D & _) & (P & _)).
  - rewrite E2. exact O1.
  - rewrite E2. apply nearest_ordinary, O1.
  - assert (E3 : Q2R (10 # 4) = 5 / 2) by (unfold Q2R; cbn [Qnum Qden]; field).
    assert (E4 : Q2R (32 # 4) = 8) by (unfold Q2R; cbn [Qnum Qden]; field).
    split.
    + apply (D (10 # 4)%Q (nearest (5 / 2)) eq_refl); rewrite E3; try lra; try apply nearest_ordinary; apply middling; lra.
    + assert (E5 : Q2R (32 # 4) - Q2R (10 # 4) = 11 / 2) by lra.
      assert (E6 : Q2R (sd_avg_mean (bright (warm_data Props_Results.sample_s))) - Q2R (sd_avg_mean (dark (warm_data Props_Results.sample_s))) = 10).
      { change (Q2R 11 - Q2R 1 = 10). unfold Q2R. cbn. field. }
      apply (P (32 # 4)%Q (10 # 4)%Q (nearest (11 / 2)) (nearest 10) eq_refl eq_refl); rewrite ?E5, ?E6; try lra;
        try apply nearest_ordinary; apply middling; lra.
Qed.

Example C118_per_area_case : exists (f : option R) (g : res xr), shows 3 f g /\ ordinary (Q2R 25) /\
  (forall y, g = Ok (XR y) -> / 2 ^ 500 <= Rabs y <= 2 ^ 500) /\ g = Ok (XR 18).
Proof.
  exists (Some 18), (Ok (XR 18)). split; [|split; [|split; [|reflexivity]]].
  - exists 18, 18. split; [reflexivity|]. split; [reflexivity|]. unfold right_to. rewrite Rminus_diag_eq, Rabs_R0 by reflexivity.
    apply Rmult_le_pos; [|apply Rabs_pos]. apply Rmult_le_pos; [apply pos_INR|]. left. apply Rinv_0_lt_compat, pow_lt. lra.
  - apply middling. unfold Q2R. cbn. lra.
  - intros y E. injection E as <-. destruct (middling 18) as (L & U); [lra|].
    assert (P : 2 ^ 100 <= 2 ^ 500) by (apply Rle_pow; [lra|lia]). assert (P0 : 0 < 2 ^ 100) by (apply pow_lt; lra).
    split; [|lra]. apply Rle_trans with (/ 2 ^ 100); [apply Rinv_le_contravar; assumption|exact L].
Qed.

Example C118_dB_case : good_log 10 (fun x => nearest (ln x / ln 10)) /\ good_log 2 (fun x => nearest (ln x / ln 2)) /\
  let o := warm_data Props_Results.sample_s in
  exists f y, shows 12 f (SNR_max o) /\ SNR_max o = Ok (XR y) /\ y = 3 * sqrt (847 / 850) /\ 0 < y /\ ordinary y.
Proof.
  split; [apply nearest_log|]. split; [apply nearest_log|]. cbv zeta.
  destruct C118_figures_case as (r & k & s & p & F & _). pose proof (fk_ratio _ _ _ _ _ _ _ F) as H.
  assert (Y : SNR_max (warm_data Props_Results.sample_s) = Ok (XR (3 * sqrt (847 / 850)))).
  { assert (A : responsivity (warm_data Props_Results.sample_s) = Ok (84700 # 170000)%Q) by reflexivity.
    assert (B : gain (warm_data Props_Results.sample_s) = Ok (659406250000000 # 659406250000000)%Q) by reflexivity.
    assert (D : u_p_sat (warm_data Props_Results.sample_s) = Ok 18%Q) by reflexivity.
    assert (E1 : Q2R (84700 # 170000) = 847 / 1700) by (unfold Q2R; cbn [Qnum Qden]; field).
    assert (E2 : Q2R (659406250000000 # 659406250000000) = 1) by (unfold Q2R; cbn [Qnum Qden]; field).
    assert (E4 : Q2R 18 = 18) by (unfold Q2R; cbn; field). assert (E5 : Q2R 100 = 100) by (unfold Q2R; cbn; field).
    unfold SNR_max, u_e_sat, QE. rewrite A, B, D. cbn [bind]. unfold xq. rewrite E1, E2, E4, E5. unfold xmul.
    rewrite xdiv_fin by lra. rewrite xdiv_fin by lra. rewrite xsqrt_fin by lra. do 2 f_equal.
    replace (100 * (847 / 1700) / 1 * 18 / 100) with (3 * 3 * (847 / 850)) by field.
    rewrite sqrt_mult by lra. rewrite sqrt_square by lra. reflexivity. }
  assert (L : 9 / 10 <= sqrt (847 / 850) <= 1).
  { split; [|rewrite <- sqrt_1; apply sqrt_le_1; lra]. rewrite <- (sqrt_square (9 / 10)) by lra. apply sqrt_le_1; lra. }
  eexists. exists (3 * sqrt (847 / 850)). split; [exact H|]. split; [exact Y|]. split; [reflexivity|]. split; [lra|]. apply middling. lra.
Qed.
