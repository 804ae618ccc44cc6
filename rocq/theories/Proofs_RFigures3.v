(** Proofs for C118: dark current, non-uniformities, figures per area. *)
From Coq Require Import List Bool QArith Qreals Reals ZArith Lia Lra Arith.
From Flocq Require Import Core.
From Verif Require Import Base_Prelude Base_Num Base_Xreal Model_Data Model_Results Model_RoundedFigures Spec_Results Spec_Figures
  Spec_RoundedFigures Proofs_Results2 Proofs_Figures Proofs_Figures2 Proofs_RFigures Proofs_RFigures2.
Open Scope R_scope.
Set Bullet Behavior "Strict Subproofs".

Lemma ordinary_near m a A : (m <= 100)%nat -> ordinary A -> right_to m a A -> near (m + 1) 100 a A.
Proof. intros M O H. split; [|apply ordinary_size, O]. rewrite Nat.add_1_r. apply right_rel; [lia|exact H]. Qed.

Lemma giga : Q2R (inject_Z (10 ^ 9)) = 10 ^ 9.
Proof. unfold Q2R, inject_Z. cbn [Qnum Qden]. rewrite Rinv_1, Rmult_1_r. change (10 ^ 9)%Z with 1000000000%Z. cbn [pow]. lra. Qed.

Lemma current_rounded o k fm fv K Fm Fv m : (m <= 100)%nat ->
  ~ at_most_two (r_texp (o_t o)) -> gain o = Ok k ->
  linear_b (r_texp (o_t o)) (r_uydark (o_t o)) = Ok fm -> linear_b (r_texp (o_t o)) (r_s2ydark (o_t o)) = Ok fv ->
  0 <= Q2R (fst fv) -> ordinary (Q2R k) -> ordinary (Q2R (fst fm)) -> ordinary (Q2R (fst fv)) ->
  right_to m K (Q2R k) -> right_to m Fm (Q2R (fst fm)) -> right_to m Fv (Q2R (fst fv)) ->
  current_kept o K Fm Fv m.
Proof.
  intros M TW EK Em Ev Pv Ok_ Om Ov NK Nm Nv.
  assert (nk := ordinary_near m K _ M Ok_ NK). assert (nm := ordinary_near m Fm _ M Om Nm). assert (nv := ordinary_near m Fv _ M Ov Nv).
  assert (U : (unique_count (r_texp (o_t o)) <=? 2)%nat = false).
  { destruct (unique_count _ <=? 2)%nat eqn:E; [|reflexivity]. exfalso. apply TW, unique_count_le2. exact E. }
  assert (KN : Q2R k <> 0) by apply (size_nz _ _ (ordinary_size _ Ok_)).
  assert (LE : negb (Qle_bool 0 (fst fv)) = false).
  { apply negb_false_iff, Qle_bool_iff, Rle_Qle. replace (Q2R 0) with 0 by (unfold Q2R; simpl; field). exact Pv. }
  assert (V1 : u_I_mean_DN o = Ok (XR (Q2R (fst fm) * 10 ^ 9))).
  { unfold u_I_mean_DN. rewrite U, Em. cbn [bind]. unfold xq, xmul. rewrite giga. reflexivity. }
  assert (V2 : u_I_mean o = Ok (XR (Q2R (fst fm) * 10 ^ 9 / Q2R k))).
  { unfold u_I_mean. rewrite V1. cbn [bind]. rewrite EK. cbn [bind]. unfold xq. rewrite xdiv_fin by exact KN. reflexivity. }
  assert (V3 : u_I_var_DN o = Ok (XR (Q2R (fst fv) / Q2R k * 10 ^ 9))).
  { unfold u_I_var_DN. rewrite U, Ev. cbn [bind]. rewrite LE, EK. cbn [bind]. unfold xq. rewrite xdiv_fin by exact KN.
    unfold xmul. rewrite giga. reflexivity. }
  assert (V4 : u_I_var o = Ok (XR (Q2R (fst fv) / Q2R k * 10 ^ 9 / Q2R k))).
  { unfold u_I_var. rewrite V3. cbn [bind]. rewrite EK. cbn [bind]. unfold xq. rewrite xdiv_fin by exact KN. reflexivity. }
  destruct (mul_near _ _ _ _ _ _ _ _ nm (near_const _ _ size_giga)) as (a & Ea & Na); [lia|lia|].
  destruct (div_near _ _ _ _ _ _ _ _ Na nk) as (b & Eb & Nb); [lia|lia|].
  destruct (div_near _ _ _ _ _ _ _ _ nv nk) as (c & Ec & Nc); [lia|lia|].
  destruct (mul_near _ _ _ _ _ _ _ _ Nc (near_const _ _ size_giga)) as (d & Ed & Nd); [lia|lia|].
  destruct (div_near _ _ _ _ _ _ _ _ Nd nk) as (e & Ee & Ne); [lia|lia|].
  constructor.
  - eapply near_shows; [exact Ea|exact Na|exact V1|lia|lia].
  - eapply near_shows; [|exact Nb|exact V2|lia|lia]. unfold r_u_I_mean, r_u_I_mean_DN. rewrite Ea. exact Eb.
  - eapply near_shows; [|exact Nd|exact V3|lia|lia]. unfold r_u_I_var_DN. rewrite Ec. exact Ed.
  - eapply near_shows; [|exact Ne|exact V4|lia|lia]. unfold r_u_I_var, r_u_I_var_DN. rewrite Ec. cbn [obind]. rewrite Ed. exact Ee.
Qed.

Lemma dsnu_rounded o k K m d f : (m <= 100)%nat -> gain o = Ok k -> ordinary (Q2R k) -> right_to m K (Q2R k) ->
  (forall v, d = Ok (Some v) -> f = dsnu_of o (Some v)) -> dark_kept d f K m.
Proof.
  intros M EK OK NK F v V Ed Pv Ov NV. rewrite (F v Ed).
  assert (nk := ordinary_near m K _ M OK NK). assert (nv := ordinary_near m V _ M Ov NV).
  assert (KN : Q2R k <> 0) by apply (size_nz _ _ (ordinary_size _ OK)).
  destruct (sqrt_near_f _ _ _ _ Pv nv) as (a & Ea & Na); [lia|lia|].
  destruct (div_near _ _ _ _ _ _ _ _ Na nk) as (b & Eb & Nb); [lia|lia|].
  eapply near_shows; [|exact Nb| |lia|lia].
  - unfold r_DSNU. rewrite Ea. exact Eb.
  - unfold dsnu_of. unfold xoq, xq, xlt0. destruct (Rlt_dec (Q2R v) 0) as [L|L]; [lra|].
    rewrite EK. cbn [bind]. rewrite xsqrt_fin by lra. rewrite xdiv_fin by exact KN. reflexivity.
Qed.

Lemma prnu_rounded o m b d f : (m <= 100)%nat ->
  (forall v w, b = Ok (Some v) -> d = Ok (Some w) -> f = Ok (prnu_of o (Some v) (Some w))) -> light_kept o b d f m.
Proof.
  intros M F. unfold light_kept. set (mean := Q2R (sd_avg_mean (bright o)) - _). intros v w V E Eb Ed Pv Ov Om NV NE. rewrite (F v w Eb Ed).
  assert (nv := ordinary_near m V _ M Ov NV). assert (ne := ordinary_near m E _ M Om NE).
  assert (KN : mean <> 0) by apply (size_nz _ _ (ordinary_size _ Om)).
  destruct (fl_near _ _ _ _ nv) as (a & Ea & Na); [lia|lia|].
  destruct (sqrt_near_f _ _ _ _ Pv Na) as (c & Ec & Nc); [lia|lia|].
  destruct (mul_near _ _ _ _ _ _ _ _ Nc (near_const _ _ size_100)) as (g & Eg & Ng); [lia|lia|].
  destruct (fl_near _ _ _ _ ne) as (h & Eh & Nh); [lia|lia|].
  destruct (div_near _ _ _ _ _ _ _ _ Ng Nh) as (z & Ez & Nz); [lia|lia|].
  eapply near_shows; [|exact Nz| |lia|lia].
  - unfold r_PRNU. rewrite Ea. cbn [obind]. rewrite Ec. cbn [obind]. rewrite Eg. cbn [obind]. rewrite Eh. exact Ez.
  - unfold prnu_of, xoq, xq, xsub, xneg, xadd. f_equal.
    replace (Q2R v + - Q2R w) with (Q2R v - Q2R w) by ring. rewrite xsqrt_fin by lra. unfold xmul.
    rewrite (Q2R_c 100 1). change (Q2R (sd_avg_mean (bright o)) + - Q2R (sd_avg_mean (dark o))) with mean.
    rewrite xdiv_fin by exact KN. do 2 f_equal. field.
Qed.

Lemma spatial_rounded o k K m : (m <= 100)%nat -> gain o = Ok k -> ordinary (Q2R k) -> right_to m K (Q2R k) ->
  (dark_kept (Ok (s_2_y_dark o)) (DSNU1288 o) K m /\ dark_kept (s_2_y_row_dark o) (DSNU1288_row o) K m /\
   dark_kept (s_2_y_col_dark o) (DSNU1288_col o) K m /\ dark_kept (s_2_y_pixel_dark o) (DSNU1288_pixel o) K m) /\
  (light_kept o (Ok (s_2_y o)) (Ok (s_2_y_dark o)) (PRNU1288 o) m /\
   light_kept o (s_2_y_row o) (s_2_y_row_dark o) (PRNU1288_row o) m /\
   light_kept o (s_2_y_col o) (s_2_y_col_dark o) (PRNU1288_col o) m /\
   light_kept o (s_2_y_pixel o) (s_2_y_pixel_dark o) (PRNU1288_pixel o) m).
Proof.
  intros M EK OK NK. split; (split; [|split; [|split]]).
  - apply (dsnu_rounded o k); try assumption. intros v E. unfold DSNU1288. injection E as ->. reflexivity.
  - apply (dsnu_rounded o k); try assumption. intros v E. unfold DSNU1288_row. rewrite E. reflexivity.
  - apply (dsnu_rounded o k); try assumption. intros v E. unfold DSNU1288_col. rewrite E. reflexivity.
  - apply (dsnu_rounded o k); try assumption. intros v E. unfold DSNU1288_pixel. rewrite E. reflexivity.
  - apply prnu_rounded; [exact M|]. intros v w E F. unfold PRNU1288. injection E as ->. injection F as ->. reflexivity.
  - apply prnu_rounded; [exact M|]. intros v w E F. unfold PRNU1288_row. rewrite E, F. reflexivity.
  - apply prnu_rounded; [exact M|]. intros v w E F. unfold PRNU1288_col. rewrite E, F. reflexivity.
  - apply prnu_rounded; [exact M|]. intros v w E F. unfold PRNU1288_pixel. rewrite E, F. reflexivity.
Qed.

(** Per area: one more rounding. *)
Lemma area_rounded c f g area : (c <= 900)%nat -> shows c f g -> ordinary (Q2R area) ->
  (forall y, g = Ok (XR y) -> / 2 ^ 500 <= Rabs y <= 2 ^ 500) ->
  exists v y, r_per_area (Q2R area) f = Some v /\ per_area (Some area) g = Ok (Some (XR y)) /\ right_to (c + 3) v y.
Proof.
  intros C (v & y & -> & -> & R) OA SZ. specialize (SZ y eq_refl).
  assert (SA := ordinary_size _ OA). assert (AN : Q2R area <> 0) by apply (size_nz _ _ SA).
  assert (SY : size 500 y).
  { unfold size. rewrite bpow_opp. rewrite bpow_powerRZ. change (powerRZ (IZR radix2) 500) with (2 ^ 500). exact SZ. }
  destruct (div_near _ _ _ _ _ _ _ _ (conj (right_rel c v y ltac:(lia) R) SY) (near_const _ _ SA)) as (w & Ew & Nw); [lia|lia|].
  exists w, (y / Q2R area). split; [exact Ew|]. split.
  - unfold per_area. destruct (Qeq_bool area 0) eqn:Z.
    + exfalso. apply AN. apply Qeq_bool_iff in Z. rewrite (Qeq_eqR _ _ Z). unfold Q2R. simpl. field.
    + cbn [bind]. unfold xq. rewrite xdiv_fin by exact AN. reflexivity.
  - replace (c + 3)%nat with (S (S (S c + 0))) by lia. apply rel_right; [lia|]. destruct Nw as (H & _). exact H.
Qed.
