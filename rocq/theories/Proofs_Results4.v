(** Proofs for C28, C32-C35. *)
From Coq Require Import List Bool Arith ZArith QArith Reals Qreals Rpower Lia Lra Field.
From Verif Require Import Base_Prelude Base_Sum Base_Xreal Model_Images Model_Data Model_Results Spec_Results
  Proofs_Results Proofs_Fit Proofs_Results2.
Import ListNotations.
Open Scope R_scope.

Local Arguments xdiv : simpl never.
Local Arguments xsqrt : simpl never.
Local Arguments xlog : simpl never.

Lemma Q2R_100 : Q2R 100 = 100.
Proof. unfold Q2R; simpl; field. Qed.
Lemma Q2R_20 : Q2R 20 = 20.
Proof. unfold Q2R; simpl; field. Qed.
Lemma Q2R_half : Q2R (1 # 2) = 1 / 2.
Proof. unfold Q2R; simpl; field. Qed.

Section Sensitivity.
  Variables (o : robj) (k r : Q).
  Hypothesis (HK : gain o = Ok k) (HR : responsivity o = Ok r).
  Hypothesis (NK : ~ (k == 0)%Q).

  Lemma k_nz : Q2R k <> 0.
  Proof. apply Q2R_neq0. auto. Qed.

  Lemma QE_value : QE o = Ok (XR (100 * Q2R r / Q2R k)).
  Proof.
    unfold QE. rewrite HR, HK. cbn [bind]. unfold xq. cbn [xmul].
    rewrite xdiv_fin by apply k_nz. rewrite Q2R_100. reflexivity.
  Qed.

  Lemma inverse_K_value : inverse_K o = Ok (XR (1 / Q2R k)).
  Proof.
    unfold inverse_K. rewrite HK. cbn [bind]. unfold xq. rewrite xdiv_fin by apply k_nz.
    rewrite Q2R_1'. reflexivity.
  Qed.

  Hypothesis (NR : ~ (r == 0)%Q).
  Lemma r_nz : Q2R r <> 0.
  Proof. apply Q2R_neq0. auto. Qed.

  Lemma qe_nz : 100 * Q2R r / Q2R k <> 0.
  Proof.
    assert (A := k_nz). assert (B := r_nz). intro E. apply B.
    replace (Q2R r) with (100 * Q2R r / Q2R k * Q2R k / 100) by (field; auto). rewrite E. field.
  Qed.

  Variable s : R.
  Hypothesis (HS : sigma_y_dark o = Ok (XR s)).

  Lemma u_p_min_value : u_p_min o = Ok (XR (Q2R k / Q2R r * (s / Q2R k + 1 / 2))).
  Proof.
    unfold u_p_min. rewrite QE_value, HS, HK. cbn [bind]. unfold xq.
    rewrite !xdiv_fin by (apply qe_nz || apply k_nz). cbn [xadd xmul].
    do 2 f_equal. rewrite Q2R_100, Q2R_half. field. split; (apply r_nz || apply k_nz).
  Qed.

  Lemma u_e_min_value : u_e_min o = Ok (XR (s / Q2R k + 1 / 2)).
  Proof.
    unfold u_e_min. rewrite QE_value, u_p_min_value. cbn [bind xmul]. unfold xq.
    rewrite xdiv_fin by (rewrite Q2R_100; lra). do 2 f_equal. rewrite Q2R_100. field.
    split; (apply r_nz || apply k_nz).
  Qed.

  Variable p : Q.
  Hypothesis (HP : u_p_sat o = Ok p).
  Lemma u_e_sat_value : u_e_sat o = Ok (XR (Q2R r / Q2R k * Q2R p)).
  Proof.
    unfold u_e_sat. rewrite QE_value, HP. cbn [bind]. unfold xq. cbn [xmul].
    rewrite xdiv_fin by (rewrite Q2R_100; lra). do 2 f_equal. rewrite Q2R_100. field. apply k_nz.
  Qed.

  Lemma DR_value :
    s / Q2R k + 1 / 2 <> 0 ->
    DR o = Ok (XR (Q2R p / (Q2R k / Q2R r * (s / Q2R k + 1 / 2)))) /\
    DR o = Ok (XR ((Q2R r / Q2R k * Q2R p) / (s / Q2R k + 1 / 2))).
  Proof.
    intro N. assert (A := k_nz). assert (B := r_nz).
    assert (D : Q2R k / Q2R r * (s / Q2R k + 1 / 2) <> 0).
    { intro E. apply N.
      replace (s / Q2R k + 1 / 2) with (Q2R r / Q2R k * (Q2R k / Q2R r * (s / Q2R k + 1 / 2)))
        by (field; auto).
      rewrite E. ring. }
    assert (E : DR o = Ok (XR (Q2R p / (Q2R k / Q2R r * (s / Q2R k + 1 / 2))))).
    { unfold DR. rewrite HP, u_p_min_value. cbn [bind]. unfold xq. rewrite xdiv_fin by auto. reflexivity. }
    split; auto. rewrite E. do 2 f_equal. clear E D.
    set (t := s / Q2R k + 1 / 2) in *. clearbody t. field. auto.
  Qed.
End Sensitivity.

(** The theorem-shaped statements. *)
Lemma sensitivity_identities o k r s p :
  gain o = Ok k -> responsivity o = Ok r -> ~ (k == 0)%Q -> ~ (r == 0)%Q ->
  sigma_y_dark o = Ok (XR s) -> u_p_sat o = Ok p ->
  exists qe upmin uemin uesat invk,
    QE o = Ok (XR qe) /\ u_p_min o = Ok (XR upmin) /\ u_e_min o = Ok (XR uemin) /\
    u_e_sat o = Ok (XR uesat) /\ inverse_K o = Ok (XR invk) /\
    qe * Q2R k = 100 * Q2R r /\
    uemin = s / Q2R k + 1 / 2 /\ uemin = qe * upmin / 100 /\
    uesat = qe * Q2R p / 100 /\ invk * Q2R k = 1.
Proof.
  intros HK HR NK NR HS HP.
  assert (A := k_nz k NK). assert (B := r_nz r NR).
  do 5 eexists. rewrite (QE_value o k r), (u_p_min_value o k r HK HR NK NR s HS),
    (u_e_min_value o k r HK HR NK NR s HS), (u_e_sat_value o k r HK HR NK p HP),
    (inverse_K_value o k HK NK) by auto.
  do 5 (split; [reflexivity|]). repeat split; field; auto.
Qed.

Lemma snr_identities o u :
  u_e_sat o = Ok (XR u) -> 0 < u ->
  exists m db bit inv,
    SNR_max o = Ok (XR m) /\ SNR_max_dB o = Ok (XR db) /\ SNR_max_bit o = Ok (XR bit) /\
    inverse_SNR_max o = Ok (XR inv) /\
    0 < m /\ m * m = u /\ db = 10 * (ln u / ln 10) /\ Rpower 2 (2 * bit) = u /\ inv * m = 100.
Proof.
  intros H P. assert (S : 0 < sqrt u) by (apply sqrt_lt_R0; auto).
  assert (SS : sqrt u * sqrt u = u) by (apply sqrt_sqrt; lra).
  assert (LN : ln u = 2 * ln (sqrt u)) by (rewrite <- SS at 1; rewrite ln_mult by auto; ring).
  assert (L10 : ln 10 <> 0) by (assert (0 < ln 10) by (rewrite <- ln_1; apply ln_increasing; lra); lra).
  assert (L2 : ln 2 <> 0) by (assert (0 < ln 2) by (rewrite <- ln_1; apply ln_increasing; lra); lra).
  exists (sqrt u), (20 * (ln (sqrt u) / ln 10)), (ln (sqrt u) / ln 2), (100 / sqrt u).
  assert (E : SNR_max o = Ok (XR (sqrt u))).
  { unfold SNR_max. rewrite H. cbn [bind]. rewrite xsqrt_fin by lra. reflexivity. }
  split; auto. split.
  { unfold SNR_max_dB. rewrite E. cbn [bind]. unfold xlog10. rewrite xlog_fin by auto.
    unfold xq. cbn [xmul]. rewrite Q2R_20. reflexivity. }
  split. { unfold SNR_max_bit. rewrite E. cbn [bind]. unfold xlog2. rewrite xlog_fin by auto. reflexivity. }
  split. { unfold inverse_SNR_max. rewrite E. cbn [bind]. unfold xq.
           rewrite xdiv_fin by lra. rewrite Q2R_100. reflexivity. }
  split; auto. split; auto. split; [rewrite LN; field; auto|]. split.
  - unfold Rpower. replace (2 * (ln (sqrt u) / ln 2) * ln 2) with (ln u) by (rewrite LN; field; auto).
    apply exp_ln. auto.
  - field. lra.
Qed.

Lemma dr_identities o k r s p :
  gain o = Ok k -> responsivity o = Ok r -> (0 < k)%Q -> (0 < r)%Q ->
  sigma_y_dark o = Ok (XR s) -> 0 < s -> u_p_sat o = Ok p -> (0 < p)%Q ->
  exists d upmin uemin uesat,
    DR o = Ok (XR d) /\ u_p_min o = Ok (XR upmin) /\ u_e_min o = Ok (XR uemin) /\
    u_e_sat o = Ok (XR uesat) /\ 0 < upmin /\ 0 < uemin /\
    d = Q2R p / upmin /\ d = uesat / uemin /\
    DR_dB o = Ok (XR (20 * (ln d / ln 10))).
Proof.
  intros HK HR PK PR HS PS HP PP.
  assert (NK : ~ (k == 0)%Q) by (intro E; rewrite E in PK; discriminate).
  assert (NR : ~ (r == 0)%Q) by (intro E; rewrite E in PR; discriminate).
  apply Qlt_Rlt in PK, PR, PP. rewrite Q2R_0' in *.
  assert (SK : 0 < s / Q2R k) by (apply Rdiv_lt_0_compat; auto).
  assert (KR : 0 < Q2R k / Q2R r) by (apply Rdiv_lt_0_compat; auto).
  assert (UP : 0 < Q2R k / Q2R r * (s / Q2R k + 1 / 2)) by (apply Rmult_lt_0_compat; lra).
  destruct (DR_value o k r HK HR NK NR s HS p HP ltac:(lra)) as (D1 & D2).
  exists (Q2R p / (Q2R k / Q2R r * (s / Q2R k + 1 / 2))). do 3 eexists.
  rewrite (u_p_min_value o k r HK HR NK NR s HS),
    (u_e_min_value o k r HK HR NK NR s HS), (u_e_sat_value o k r HK HR NK p HP).
  split; auto. do 3 (split; [reflexivity|]). split; auto. split; [lra|]. split; auto. split.
  - rewrite D1 in D2. injection D2 as D2. exact D2.
  - unfold DR_dB. rewrite D1. cbn [bind]. unfold xlog10.
    rewrite xlog_fin by (apply Rdiv_lt_0_compat; auto). unfold xq. cbn [xmul]. rewrite Q2R_20. reflexivity.
Qed.

(** ** C32 *)
Open Scope Q_scope.
Lemma mn_zero (M N : nat) :
  (0 < M)%nat -> (0 < N)%nat ->
  (Z.of_nat M * Z.of_nat N - Z.of_nat M - Z.of_nat N = 0)%Z -> M = 2%nat /\ N = 2%nat.
Proof.
  intros HM HN H.
  assert (E : ((Z.of_nat M - 1) * (Z.of_nat N - 1) = 1)%Z) by nia.
  assert (A := Z.mul_eq_1 _ _ E). rewrite Z.mul_comm in E. assert (B := Z.mul_eq_1 _ _ E). lia.
Qed.

Lemma decompose (M N : nat) total cav rav :
  (0 < M)%nat -> (0 < N)%nat -> ~ (M = 2%nat /\ N = 2%nat) ->
  let m := Z.of_nat M in let n := Z.of_nat N in
  let d := (m * n - m - n)%Z in
  let col := (inject_Z (m * n - m) / inject_Z d) * cav - (inject_Z n / inject_Z d) * (total - rav) in
  let row := (inject_Z (m * n - n) / inject_Z d) * rav - (inject_Z m / inject_Z d) * (total - cav) in
  let pixel := (inject_Z (m * n) / inject_Z d) * (total - cav - rav) in
  (d =? 0)%Z = false /\
  decomposition M N total cav rav row col pixel /\
  forall row' col' pixel', decomposition M N total cav rav row' col' pixel' ->
    row' == row /\ col' == col /\ pixel' == pixel.
Proof.
  intros HM HN H22 m n d col row pixel.
  assert (D0 : d <> 0%Z) by (intro E; apply H22; apply mn_zero; auto).
  assert (ED : inject_Z d == qn M * qn N - qn M - qn N).
  { unfold d, qn. unfold Z.sub. rewrite !inject_Z_plus, !inject_Z_opp, inject_Z_mult. reflexivity. }
  assert (ND : ~ qn M * qn N - qn M - qn N == 0).
  { rewrite <- ED. intro E. apply D0. unfold Qeq in E. simpl in E. lia. }
  assert (NM := qn_neq0 M HM). assert (NN := qn_neq0 N HN).
  assert (Ec : col == ((qn M * qn N - qn M) * cav - qn N * (total - rav)) / (qn M * qn N - qn M - qn N)).
  { unfold col. rewrite ED. unfold m, n, Z.sub. rewrite inject_Z_plus, inject_Z_opp, inject_Z_mult.
    fold (qn M) (qn N). field. auto. }
  assert (Er : row == ((qn M * qn N - qn N) * rav - qn M * (total - cav)) / (qn M * qn N - qn M - qn N)).
  { unfold row. rewrite ED. unfold m, n, Z.sub. rewrite inject_Z_plus, inject_Z_opp, inject_Z_mult.
    fold (qn M) (qn N). field. auto. }
  assert (Ep : pixel == (qn M * qn N * (total - cav - rav)) / (qn M * qn N - qn M - qn N)).
  { unfold pixel. rewrite ED. unfold m, n. rewrite inject_Z_mult. fold (qn M) (qn N). field. auto. }
  split; [apply Z.eqb_neq; auto|]. split.
  - unfold decomposition. rewrite Ec, Er, Ep. repeat split; field; auto.
  - intros row' col' pixel' (A & B & C). rewrite Ec, Er, Ep.
    assert (P : pixel' == qn M * qn N * (total - cav - rav) / (qn M * qn N - qn M - qn N)).
    { rewrite <- A, B, C. field. auto. }
    rewrite B in P |- *. rewrite C in P |- *.
    split; [|split]; auto.
    + rewrite <- A. field. auto.
    + rewrite <- A. field. auto.
Qed.

Lemma decompose_bright o total cav rav :
  s_2_y o = Some total -> s_2_y_cav o = Some cav -> s_2_y_rav o = Some rav ->
  (0 < sd_M (bright o))%nat -> (0 < sd_N (bright o))%nat ->
  (sd_M (bright o) = 2%nat /\ sd_N (bright o) = 2%nat ->
     s_2_y_row o = Err ZeroDivisionError /\ s_2_y_col o = Err ZeroDivisionError /\
     s_2_y_pixel o = Err ZeroDivisionError) /\
  (~ (sd_M (bright o) = 2%nat /\ sd_N (bright o) = 2%nat) ->
   exists row col pixel,
     s_2_y_row o = Ok (Some row) /\ s_2_y_col o = Ok (Some col) /\ s_2_y_pixel o = Ok (Some pixel) /\
     decomposition (sd_M (bright o)) (sd_N (bright o)) total cav rav row col pixel /\
     forall row' col' pixel',
       decomposition (sd_M (bright o)) (sd_N (bright o)) total cav rav row' col' pixel' ->
       row' == row /\ col' == col /\ pixel' == pixel).
Proof.
  intros E1 E2 E3 HM HN. split.
  - intros (A & B). unfold s_2_y_row, s_2_y_col, s_2_y_pixel, dimM, dimN. rewrite A, B.
    repeat split.
  - intro H22. destruct (decompose _ _ total cav rav HM HN H22) as (Z & D & U).
    do 3 eexists. split; [|split; [|split; [|split; [exact D|exact U]]]].
    + unfold s_2_y_row, zdivz, dimM, dimN. rewrite Z. cbn [bind]. rewrite E1, E2, E3. reflexivity.
    + unfold s_2_y_col, zdivz, dimM, dimN. rewrite Z. cbn [bind]. rewrite E1, E2, E3. reflexivity.
    + unfold s_2_y_pixel, zdivz, dimM, dimN. rewrite Z. cbn [bind]. rewrite E1, E2, E3. reflexivity.
Qed.

Lemma decompose_dark o total cav rav :
  s_2_y_dark o = Some total -> s_2_y_cav_dark o = Some cav -> s_2_y_rav_dark o = Some rav ->
  (0 < sd_M (dark o))%nat -> (0 < sd_N (dark o))%nat ->
  (sd_M (dark o) = 2%nat /\ sd_N (dark o) = 2%nat ->
     s_2_y_row_dark o = Err ZeroDivisionError /\ s_2_y_col_dark o = Err ZeroDivisionError /\
     s_2_y_pixel_dark o = Err ZeroDivisionError) /\
  (~ (sd_M (dark o) = 2%nat /\ sd_N (dark o) = 2%nat) ->
   exists row col pixel,
     s_2_y_row_dark o = Ok (Some row) /\ s_2_y_col_dark o = Ok (Some col) /\
     s_2_y_pixel_dark o = Ok (Some pixel) /\
     decomposition (sd_M (dark o)) (sd_N (dark o)) total cav rav row col pixel /\
     forall row' col' pixel',
       decomposition (sd_M (dark o)) (sd_N (dark o)) total cav rav row' col' pixel' ->
       row' == row /\ col' == col /\ pixel' == pixel).
Proof.
  intros E1 E2 E3 HM HN. split.
  - intros (A & B). unfold s_2_y_row_dark, s_2_y_col_dark, s_2_y_pixel_dark, dimM, dimN. rewrite A, B.
    repeat split.
  - intro H22. destruct (decompose _ _ total cav rav HM HN H22) as (Z & D & U).
    do 3 eexists. split; [|split; [|split; [|split; [exact D|exact U]]]].
    + unfold s_2_y_row_dark, zdivz, dimM, dimN. rewrite Z. cbn [bind]. rewrite E1, E2, E3. reflexivity.
    + unfold s_2_y_col_dark, zdivz, dimM, dimN. rewrite Z. cbn [bind]. rewrite E1, E2, E3. reflexivity.
    + unfold s_2_y_pixel_dark, zdivz, dimM, dimN. rewrite Z. cbn [bind]. rewrite E1, E2, E3. reflexivity.
Qed.

(** The total: spatial variance minus the temporal variance left in the average. *)
Lemma total_variances o :
  (forall am vm, sd_avg_var (bright o) = Some am -> sd_var_mean (bright o) = Some vm ->
     s_2_y o = Some (am - vm / qn (sd_L (bright o)))) /\
  (forall am vm, sd_avg_var (dark o) = Some am -> sd_var_mean (dark o) = Some vm ->
     s_2_y_dark o = Some (am - vm / qn (sd_L (dark o)))).
Proof.
  split; intros am vm E1 E2.
  - unfold s_2_y, s_2_y_measured, sigma_2_y_stack. rewrite E1, E2. reflexivity.
  - unfold s_2_y_dark, s_2_y_measured_dark, sigma_2_y_stack_dark. rewrite E1, E2. reflexivity.
Qed.
Close Scope Q_scope.

(** ** C33 *)
Lemma dsnu_of_figure o k v :
  gain o = Ok k -> ~ (k == 0)%Q -> root_figure (dsnu_of o (Some v)) (Q2R k) v.
Proof.
  intros HK NK. apply Q2R_neq0 in NK. unfold root_figure, dsnu_of. cbn [xoq]. split.
  - intro H. apply Qlt_Rlt in H. rewrite Q2R_0' in H. unfold xq. cbn [xlt0].
    destruct (Rlt_dec (Q2R v) 0); [reflexivity|lra].
  - intro H. apply Qle_Rle in H. rewrite Q2R_0' in H. unfold xq at 1. cbn [xlt0].
    destruct (Rlt_dec (Q2R v) 0); [lra|]. rewrite HK. cbn [bind]. unfold xq.
    rewrite xsqrt_fin, xdiv_fin by auto. eexists. split; [reflexivity|].
    unfold sq. replace (sqrt (Q2R v) / Q2R k * Q2R k) with (sqrt (Q2R v)) by (field; auto).
    apply sqrt_sqrt. auto.
Qed.

Lemma dsnu_figures o k :
  gain o = Ok k -> ~ (k == 0)%Q ->
  (forall v, s_2_y_dark o = Some v -> root_figure (DSNU1288 o) (Q2R k) v) /\
  (forall v, s_2_y_row_dark o = Ok (Some v) -> root_figure (DSNU1288_row o) (Q2R k) v) /\
  (forall v, s_2_y_col_dark o = Ok (Some v) -> root_figure (DSNU1288_col o) (Q2R k) v) /\
  (forall v, s_2_y_pixel_dark o = Ok (Some v) -> root_figure (DSNU1288_pixel o) (Q2R k) v) /\
  (forall v, s_2_y_dark o = Some v -> root_figure (DSNU1288_DN o) 1 v).
Proof.
  intros HK NK. repeat split; intros.
  1-8: first [unfold DSNU1288; rewrite H | unfold DSNU1288_row; rewrite H
             | unfold DSNU1288_col; rewrite H | unfold DSNU1288_pixel; rewrite H]; cbn [bind];
       apply (dsnu_of_figure o k v); auto.
  - unfold DSNU1288_DN. rewrite H. cbn [xoq]. unfold xq. cbn [xlt0].
    apply Qlt_Rlt in H0. rewrite Q2R_0' in H0. destruct (Rlt_dec (Q2R v) 0); [reflexivity|lra].
  - unfold DSNU1288_DN. rewrite H. cbn [xoq]. unfold xq. cbn [xlt0].
    apply Qle_Rle in H0. rewrite Q2R_0' in H0. destruct (Rlt_dec (Q2R v) 0); [lra|].
    rewrite xsqrt_fin by auto. eexists. split; [reflexivity|]. unfold sq. rewrite Rmult_1_r.
    apply sqrt_sqrt. auto.
Qed.

Lemma prnu_of_figure o v d :
  ~ (sd_avg_mean (bright o) - sd_avg_mean (dark o) == 0)%Q ->
  root_figure (Ok (prnu_of o (Some v) (Some d)))
    (Q2R (sd_avg_mean (bright o) - sd_avg_mean (dark o)) / 100) (v - d).
Proof.
  intro N. apply Q2R_neq0 in N. rewrite Q2R_minus in *.
  unfold root_figure, prnu_of. cbn [xoq]. unfold xq, xsub. cbn [xneg xadd].
  replace (Q2R v + - Q2R d) with (Q2R (v - d)) by (rewrite Q2R_minus; ring). split.
  - intro H. apply Qlt_Rlt in H. rewrite Q2R_0' in H. rewrite xsqrt_neg by auto. reflexivity.
  - intro H. apply Qle_Rle in H. rewrite Q2R_0' in H. rewrite xsqrt_fin by auto. cbn [xmul].
    rewrite xdiv_fin by (intro E; apply N; lra). eexists. split; [reflexivity|].
    unfold sq. rewrite Q2R_100.
    set (D := Q2R (sd_avg_mean (bright o)) - Q2R (sd_avg_mean (dark o))) in *.
    replace (Q2R (sd_avg_mean (bright o)) + - Q2R (sd_avg_mean (dark o))) with D by (unfold D; ring).
    replace (sqrt (Q2R (v - d)) * 100 / D * (D / 100)) with (sqrt (Q2R (v - d))) by (field; auto).
    apply sqrt_sqrt. auto.
Qed.

Lemma prnu_figures o :
  ~ (sd_avg_mean (bright o) - sd_avg_mean (dark o) == 0)%Q ->
  let u := Q2R (sd_avg_mean (bright o) - sd_avg_mean (dark o)) / 100 in
  (forall v d, s_2_y o = Some v -> s_2_y_dark o = Some d -> root_figure (PRNU1288 o) u (v - d)) /\
  (forall v d, s_2_y_row o = Ok (Some v) -> s_2_y_row_dark o = Ok (Some d) ->
     root_figure (PRNU1288_row o) u (v - d)) /\
  (forall v d, s_2_y_col o = Ok (Some v) -> s_2_y_col_dark o = Ok (Some d) ->
     root_figure (PRNU1288_col o) u (v - d)) /\
  (forall v d, s_2_y_pixel o = Ok (Some v) -> s_2_y_pixel_dark o = Ok (Some d) ->
     root_figure (PRNU1288_pixel o) u (v - d)).
Proof.
  intros N u. split; [|split; [|split]]; intros v d E1 E2.
  - unfold PRNU1288. rewrite E1, E2. apply prnu_of_figure. auto.
  - unfold PRNU1288_row. rewrite E1, E2. cbn [bind]. apply prnu_of_figure. auto.
  - unfold PRNU1288_col. rewrite E1, E2. cbn [bind]. apply prnu_of_figure. auto.
  - unfold PRNU1288_pixel. rewrite E1, E2. cbn [bind]. apply prnu_of_figure. auto.
Qed.

(** ** C34 *)
Lemma per_area_figure area v : area_figure area v (per_area area v).
Proof.
  unfold area_figure, per_area. split; [intros ->; reflexivity|]. split.
  - intros a -> H. apply Qeq_eq_bool in H. rewrite H. reflexivity.
  - intros a -> H. assert (F : Qeq_bool a 0 = false) by (apply Qeq_bool_false; auto). rewrite F.
    split; [|split].
    + intros x ->. cbn [bind]. unfold xq. rewrite xdiv_fin by (apply Q2R_neq0; auto). reflexivity.
    + intros e ->. reflexivity.
    + destruct v; discriminate.
Qed.

(** ** C35 *)
Lemma snr_bound e c : 0 <= e -> 0 < c -> e / sqrt (c + e) <= sqrt e.
Proof.
  intros He Hc. assert (S : 0 < sqrt (c + e)) by (apply sqrt_lt_R0; lra).
  apply Rmult_le_reg_r with (sqrt (c + e)); auto.
  replace (e / sqrt (c + e) * sqrt (c + e)) with e by (field; lra).
  rewrite <- sqrt_mult by lra. rewrite <- (sqrt_square e) at 1 by auto.
  apply sqrt_le_1; nra.
Qed.

Section Curves.
  Variables (o : robj) (k r : Q) (s : R).
  Hypothesis (HK : gain o = Ok k) (HR : responsivity o = Ok r).
  Hypothesis (PK : (0 < k)%Q) (PR : (0 < r)%Q).
  Hypothesis (HS : sigma_y_dark o = Ok (XR s)) (PS : 0 < s) (S24 : 24 / 100 <= s * s).

  Let e x := Q2R r / Q2R k * x.
  Let c := s / Q2R k * (s / Q2R k).

  Lemma kpos : 0 < Q2R k.
  Proof. apply Qlt_Rlt in PK. rewrite Q2R_0' in PK. auto. Qed.
  Lemma rpos : 0 < Q2R r.
  Proof. apply Qlt_Rlt in PR. rewrite Q2R_0' in PR. auto. Qed.
  Lemma knz : ~ (k == 0)%Q.
  Proof. intro E. rewrite E in PK. discriminate. Qed.
  Lemma rnz : ~ (r == 0)%Q.
  Proof. intro E. rewrite E in PR. discriminate. Qed.

  Lemma cpos : 0 < c.
  Proof. unfold c. assert (0 < s / Q2R k) by (apply Rdiv_lt_0_compat; [auto|apply kpos]). nra. Qed.

  Lemma electrons x : xmul (xdiv (XR (100 * Q2R r / Q2R k)) (xq 100)) (XR x) = XR (e x).
  Proof.
    unfold xq. rewrite xdiv_fin by (rewrite Q2R_100; lra). cbn [xmul]. f_equal. unfold e.
    rewrite Q2R_100. field. assert (H := kpos). lra.
  Qed.

  Lemma noise_floor :
    exists d, sigma_d o = Ok (XR d) /\
      xadd (xsq (XR d)) (xdiv (xq s2q) (xsq (xq k))) = XR c.
  Proof.
    assert (K := kpos). destruct (sigma_d_value o s k HS S24 HK knz) as (d & E & F).
    exists d. split; auto. unfold xsq, xq. cbn [xmul]. rewrite xdiv_fin by nra. cbn [xadd]. f_equal.
    rewrite Q2R_s2q. unfold c.
    replace (s / Q2R k * (s / Q2R k)) with (s * s / (Q2R k * Q2R k)) by (field; lra).
    rewrite F. field. lra.
  Qed.

  Lemma theoretical_value x :
    0 <= x -> snr_theoretical o x = Ok (XR (e x / sqrt (c + e x))).
  Proof.
    intro Hx. assert (K := kpos). assert (R := rpos). assert (C := cpos).
    assert (E0 : 0 <= e x).
    { unfold e. apply Rmult_le_pos; auto. apply Rlt_le. apply Rdiv_lt_0_compat; auto. }
    destruct noise_floor as (d & D & F).
    unfold snr_theoretical. rewrite (QE_value o k r HK HR knz), D, HK. cbn [bind].
    rewrite electrons, F. cbn [xadd]. rewrite xsqrt_fin by lra.
    assert (0 < sqrt (c + e x)) by (apply sqrt_lt_R0; lra).
    rewrite xdiv_fin by lra. reflexivity.
  Qed.

  Lemma total_value x ds pr :
    0 <= x -> DSNU1288 o = Ok (XR ds) -> PRNU1288 o = Ok (XR pr) ->
    snr_total o x = Ok (XR (e x / sqrt (c + e x + ds * ds + sq (pr / 100 * e x)))).
  Proof.
    intros Hx HD HP. assert (K := kpos). assert (R := rpos). assert (C := cpos).
    assert (E0 : 0 <= e x).
    { unfold e. apply Rmult_le_pos; auto. apply Rlt_le. apply Rdiv_lt_0_compat; auto. }
    destruct noise_floor as (d & D & F).
    unfold snr_total. rewrite (QE_value o k r HK HR knz), D, HK, HD, HP. cbn [bind].
    rewrite electrons, F. unfold xq. rewrite !xdiv_fin by (rewrite Q2R_100; lra).
    unfold xsq. cbn [xmul xadd]. rewrite Q2R_100.
    replace (pr / 100 * (100 * Q2R r / Q2R k / 100) * x * (pr / 100 * (100 * Q2R r / Q2R k / 100) * x))
      with (sq (pr / 100 * e x)) by (unfold sq, e; field; lra).
    assert (0 <= sq (pr / 100 * e x)) by (unfold sq; nra).
    rewrite xsqrt_fin by nra.
    assert (0 < sqrt (c + e x + ds * ds + sq (pr / 100 * e x))) by (apply sqrt_lt_R0; nra).
    rewrite xdiv_fin by lra. reflexivity.
  Qed.

  Lemma curves_ordered x ds pr :
    0 <= x -> DSNU1288 o = Ok (XR ds) -> PRNU1288 o = Ok (XR pr) ->
    exists qe th tot, QE o = Ok (XR qe) /\
      snr_theoretical o x = Ok (XR th) /\ snr_total o x = Ok (XR tot) /\
      snr_ideal x = XR (sqrt x) /\
      0 <= tot <= th /\ th <= sqrt (qe / 100 * x) /\ (qe <= 100 -> th <= sqrt x).
  Proof.
    intros Hx HD HP. assert (K := kpos). assert (R := rpos). assert (C := cpos).
    assert (E0 : 0 <= e x).
    { unfold e. apply Rmult_le_pos; auto. apply Rlt_le. apply Rdiv_lt_0_compat; auto. }
    do 3 eexists. rewrite (QE_value o k r HK HR knz), theoretical_value, (total_value x ds pr) by auto.
    do 3 (split; [reflexivity|]). split; [unfold snr_ideal; rewrite xsqrt_fin by auto; reflexivity|].
    assert (Q : 100 * Q2R r / Q2R k / 100 * x = e x) by (unfold e; field; lra).
    rewrite Q. assert (B := snr_bound (e x) c E0 C).
    assert (S1 : 0 < sqrt (c + e x)) by (apply sqrt_lt_R0; lra).
    assert (T0 : 0 <= sq (pr / 100 * e x)) by (unfold sq; nra).
    assert (S2 : sqrt (c + e x) <= sqrt (c + e x + ds * ds + sq (pr / 100 * e x)))
      by (apply sqrt_le_1; nra).
    split; [split|split; auto].
    - unfold Rdiv. apply Rmult_le_pos; auto. apply Rlt_le. apply Rinv_0_lt_compat. lra.
    - unfold Rdiv. apply Rmult_le_compat_l; auto. apply Rinv_le_contravar; auto.
    - intro H. apply Rle_trans with (sqrt (e x)); auto. apply sqrt_le_1; auto.
      rewrite <- Q. assert (100 * Q2R r / Q2R k / 100 <= 1) by lra. nra.
  Qed.

  Lemma threshold_snr :
    exists um th, u_p_min o = Ok (XR um) /\ snr_theoretical o um = Ok (XR th) /\
      sqrt (1 / 2) <= th < 1.
  Proof.
    assert (K := kpos). assert (R := rpos).
    rewrite (u_p_min_value o k r HK HR knz rnz s HS).
    assert (T : 0 < s / Q2R k) by (apply Rdiv_lt_0_compat; auto).
    assert (U : 0 <= Q2R k / Q2R r * (s / Q2R k + 1 / 2)).
    { apply Rmult_le_pos; [apply Rlt_le; apply Rdiv_lt_0_compat; auto|lra]. }
    do 2 eexists. split; [reflexivity|]. split; [apply theoretical_value; auto|].
    set (t := s / Q2R k) in *.
    assert (E : e (Q2R k / Q2R r * (t + 1 / 2)) = t + 1 / 2) by (unfold e; field; lra).
    rewrite E. unfold c. fold t.
    set (D := t * t + (t + 1 / 2)).
    assert (D0 : 0 < D) by (unfold D; nra).
    assert (S : 0 < sqrt D) by (apply sqrt_lt_R0; auto).
    assert (S2 : sqrt D * sqrt D = D) by (apply sqrt_sqrt; lra).
    split.
    - apply Rmult_le_reg_r with (sqrt D); auto.
      replace ((t + 1 / 2) / sqrt D * sqrt D) with (t + 1 / 2) by (field; lra).
      rewrite <- sqrt_mult by lra. rewrite <- (sqrt_square (t + 1 / 2)) by lra.
      apply sqrt_le_1; unfold D; nra.
    - apply Rmult_lt_reg_r with (sqrt D); auto.
      replace ((t + 1 / 2) / sqrt D * sqrt D) with (t + 1 / 2) by (field; lra).
      rewrite Rmult_1_l. rewrite <- (sqrt_square (t + 1 / 2)) by lra.
      apply sqrt_lt_1; unfold D; nra.
  Qed.
End Curves.
