(** The computed row, column and pixel variances against the exact ones. *)
From Coq Require Import List Bool Arith ZArith QArith Qabs Qreals Reals Lia Lra.
From Flocq Require Import Core.
From Verif Require Import Base_Prelude Base_Num Base_Order Base_Sum Base_Float Spec_Num Proofs_Round
  Proofs_Num Proofs_Float Model_Images Model_Loader Model_Data Model_Hist Model_Rounded
  Model_RoundedSpatial Model_RoundedLines Model_Results Spec_Images Spec_Data Spec_Rounded Spec_RoundedSpatial Spec_RoundedLines Proofs_Images Proofs_Hist2
  Proofs_Rounded Proofs_Rounded2 Proofs_Rounded3 Proofs_Rounded4 Proofs_RSpatial Proofs_RSpatial2 Proofs_RSpatial3 Proofs_RSpatial4 Proofs_RLines Proofs_RLines2.
Import ListNotations.
Open Scope R_scope.
Set Bullet Behavior "Strict Subproofs".

Lemma within_near e q x : within e q x -> near (Q2R e) x (Q2R q).
Proof.
  intros (z & -> & H). exists (Q2R z). split; [exists z; auto|]. apply Qle_Rle in H.
  rewrite Q2R_Qabs, Q2R_minus in H. exact H.
Qed.

Lemma bound_value b d : (0 <= b)%Z ->
  Q2R (spatial_bound b d) = 16 * ((INR d + 3) * (ulp1 * (IZR (2 ^ b) * IZR (2 ^ b)))).
Proof.
  intro Hb. unfold spatial_bound. rewrite Q2R_div, !Q2R_inject_Z, mult_IZR, plus_IZR, <- INR_IZR_INZ
    by (intro Q; apply Qeq_eqR in Q; rewrite Q2R_inject_Z in Q; unfold Q2R in Q; simpl in Q; lra).
  replace (2 * b)%Z with (b + b)%Z by ring. rewrite Z.pow_add_r, mult_IZR by lia.
  unfold ulp1. change (2 ^ 53)%Z with (16 * 2 ^ 49)%Z. rewrite mult_IZR. field. apply IZR_neq. lia.
Qed.

Lemma inner_Q b h w imgs : stack_bits b h w imgs -> (0 < inner_pixels h w)%Z ->
  (2 <= h)%nat /\ (2 <= w)%nat /\ ~ (inject_Z (inner_pixels h w) == 0)%Q.
Proof.
  intros S P. pose proof (size_pos b h w imgs S) as (H1 & H2). unfold inner_pixels in *.
  split; [|split]; try nia. intro E. unfold Qeq in E. cbn [inject_Z Qnum Qden] in E. lia.
Qed.

Section All.
Variables (b : Z) (h w d : nat) (imgs : list image) (o : sum_orders).
Hypothesis HS : stack_bits b h w imgs.
Hypothesis HO : sound_orders d h w o.
Hypothesis HD : (0 < inner_pixels h w)%Z.

Lemma parts_computed : exists r f, get_int_imgs imgs = Ok r /\ get_spatial_data_f o h w r = Ok f /\
  within (part_bound b d h w) (true_spatial h w imgs) (s_2_y_f f) /\
  exists col row pixel, s_2_y_col_f f = Ok col /\ s_2_y_row_f f = Ok row /\ s_2_y_pixel_f f = Ok pixel /\
    within (part_bound b d h w) (column_part h w imgs) col /\
    within (part_bound b d h w) (row_part h w imgs) row /\
    within (part_bound b d h w) (pixel_part h w imgs) pixel.
Proof.
  destruct (spatial_computed b h w d imgs o HS HO) as (r0 & s & f0 & E0 & Es & Ef & (C1 & C2 & C3 & C4 & _)).
  destruct (figures_computed b h w d imgs o HS HO) as (r & f & E & Ff & _ & Nvm & Nv & Ncav & Nrav).
  rewrite E in E0. injection E0 as <-. rewrite Ff in Ef. injection Ef as <-.
  exists r, f. split; [exact E|]. split; [exact Ff|].
  pose proof HS as (HL & Hsh & Hb & Hbb & Hhw & Hn). destruct (inner_Q _ _ _ _ HS HD) as (h2 & w2 & DQ).
  assert (dims : fs_L f = length imgs /\ fs_M f = h /\ fs_N f = w).
  { destruct (documented_exact h w imgs (stack_documented b h w imgs HS)) as (r' & E' & EL & _).
    rewrite E in E'. injection E' as <-. revert Ff. unfold get_spatial_data_f. rewrite EL.
    destruct (length imgs =? 0)%nat; [discriminate|]. destruct (w =? 0)%nat; [discriminate|].
    destruct (h =? 0)%nat; [discriminate|]. cbv zeta. intro Q. injection Q as <-. auto. }
  destruct dims as (FL & FM & FN).
  set (B := IZR (2 ^ b)). set (W := B * B). set (e := Q2R (spatial_bound b d)).
  set (D := inner_pixels h w) in *. set (k := INR (h * w) / IZR D).
  assert (B1 : 1 <= B).
  { apply (IZR_le 1). change 1%Z with (2 ^ 0)%Z. apply Z.pow_le_mono_r; lia. }
  assert (B2 : B <= IZR (2 ^ 16)) by (apply IZR_le, Z.pow_le_mono_r; lia).
  assert (W1 : 1 <= W <= IZR (2 ^ 32)).
  { unfold W. split; [nra|]. change (2 ^ 32)%Z with (2 ^ 16 * 2 ^ 16)%Z. rewrite mult_IZR. apply Rmult_le_compat; lra. }
  pose proof ulp1_pos as U. pose proof (pos_INR d) as D0.
  assert (uW : 0 < ulp1 * W) by (apply Rmult_lt_0_compat; lra).
  assert (dB : INR d + 3 <= IZR (2 ^ 31)).
  { rewrite INR_IZR_INZ. rewrite <- (plus_IZR _ 3). apply IZR_le. pose proof (O_chain _ _ _ _ HO). lia. }
  assert (SB : e = 16 * ((INR d + 3) * (ulp1 * W))) by (apply bound_value; lia).
  assert (eW : 48 * (ulp1 * W) <= e <= W / 1000).
  { rewrite SB. split; [assert (0 <= INR d * (ulp1 * W)) by (apply Rmult_le_pos; lra); lra|].
    assert ((INR d + 3) * (ulp1 * W) <= IZR (2 ^ 31) * (ulp1 * W)) by (apply Rmult_le_compat_r; lra).
    assert (16 * (IZR (2 ^ 31) * ulp1) <= / 1000).
    { unfold ulp1. change (2 ^ 53)%Z with (2 ^ 31 * 2 ^ 22)%Z. rewrite mult_IZR.
      replace (16 * (IZR (2 ^ 31) * / (IZR (2 ^ 31) * IZR (2 ^ 22)))) with (16 / IZR (2 ^ 22)) by (field; split; apply IZR_neq; lia).
      assert (16000 <= IZR (2 ^ 22)) by (apply IZR_le; lia).
      apply Rmult_le_reg_r with (1000 * IZR (2 ^ 22)); [lra|]. field_simplify; lra. }
    assert (16 * (IZR (2 ^ 31) * ulp1) * W <= / 1000 * W) by (apply Rmult_le_compat_r; lra). lra. }
  assert (D1 : 1 <= IZR D) by (apply (IZR_le 1); lia).
  assert (n1 : IZR D <= INR (h * w)) by (rewrite INR_IZR_INZ; apply IZR_le; unfold D, inner_pixels; lia).
  assert (n2 : INR (h * w) <= IZR (2 ^ 29)) by (rewrite INR_IZR_INZ; apply IZR_le; lia).
  assert (ID : 0 < / IZR D <= 1) by (split; [apply Rinv_0_lt_compat; lra|rewrite <- Rinv_1; apply Rinv_le_contravar; lra]).
  assert (k1 : 1 <= k <= IZR (2 ^ 30)).
  { unfold k, Rdiv. split.
    - rewrite <- (Rinv_r (IZR D)) by lra. apply Rmult_le_compat_r; lra.
    - apply Rle_trans with (INR (h * w) * 1); [apply Rmult_le_compat_l; lra|]. assert (IZR (2 ^ 29) <= IZR (2 ^ 30)) by (apply IZR_le; lia). lra. }
  assert (kt : 1 <= k <= top).
  { split; [lra|]. apply Rle_trans with (IZR (2 ^ 30)); [lra|]. unfold top. apply IZR_le. lia. }
  assert (RN : forall a, (0 <= a <= Z.of_nat (h * w))%Z ->
    near (11 / 10 * (ulp1 * k)) (fdiv (f_int a) (f_int D)) (IZR a / IZR D) /\ 0 <= IZR a / IZR D <= k).
  { intros a Ha. assert (Q : IZR a / IZR D <= k).
    { unfold k, Rdiv. apply Rmult_le_compat_r; [lra|]. rewrite INR_IZR_INZ. apply IZR_le. lia. }
    destruct (ratio_near a D k) as (X & Y); try assumption; try (unfold D, inner_pixels in *; lia). split; [exact X|lra]. }
  assert (QB : Q2R (inject_Z (2 ^ b) * inject_Z (2 ^ b))%Q = W) by (rewrite Q2R_mult, Q2R_inject_Z; reflexivity).
  assert (Rvm : 0 <= Q2R (temporal_noise h w imgs) <= 2 * W).
  { destruct (temporal_range b h w imgs HS) as (X & Y). apply Qle_Rle in X. apply Qle_Rle in Y.
    rewrite Q2R_mult, QB in Y. replace (Q2R 2) with 2 in Y by (unfold Q2R; simpl; lra). replace (Q2R 0) with 0 in X by (unfold Q2R; simpl; lra). lra. }
  assert (Rv : 0 <= Q2R (spatial_noise h w imgs) <= 2 * W).
  { destruct (spatial_range b h w imgs HS) as (X & Y). apply Qle_Rle in X. apply Qle_Rle in Y.
    rewrite Q2R_mult, QB in Y. replace (Q2R 2) with 2 in Y by (unfold Q2R; simpl; lra). replace (Q2R 0) with 0 in X by (unfold Q2R; simpl; lra). lra. }
  assert (Rcav : - W <= Q2R (column_noise h w imgs) <= W).
  { destruct (column_range b h w imgs HS) as (X & Y). apply Qle_Rle in X. apply Qle_Rle in Y. rewrite Q2R_opp, QB in X. rewrite QB in Y. lra. }
  assert (Rrav : - W <= Q2R (row_noise h w imgs) <= W).
  { destruct (row_range b h w imgs HS) as (X & Y). apply Qle_Rle in X. apply Qle_Rle in Y. rewrite Q2R_opp, QB in X. rewrite QB in Y. lra. }
  apply within_near in Nvm, Nv, Ncav, Nrav. fold e in Nvm, Nv, Ncav, Nrav.
  assert (TS : Q2R (true_spatial h w imgs) = Q2R (spatial_noise h w imgs) - Q2R (temporal_noise h w imgs) / INR (length imgs)).
  { unfold true_spatial. rewrite Q2R_minus, Q2R_div, Q2R_qn_INR by (apply qn_nz; lia). reflexivity. }
  assert (PB : Q2R (part_bound b d h w) = 4 * k * e).
  { unfold part_bound. rewrite !Q2R_mult, Q2R_div, Q2R_qn_INR, Q2R_inject_Z by exact DQ. fold D e k.
    replace (Q2R 4) with 4 by (unfold Q2R; simpl; lra). reflexivity. }
  assert (kD : forall a, Q2R (qn a) / IZR D = IZR (Z.of_nat a) / IZR D) by (intro a; rewrite Q2R_qn_INR, INR_IZR_INZ; reflexivity).
  assert (Z1 : (Z.of_nat h * Z.of_nat w - Z.of_nat h - Z.of_nat w = D)%Z) by (unfold D, inner_pixels; lia).
  assert (D0' : (D =? 0)%Z = false) by (apply Z.eqb_neq; lia).
  set (vm := fs_var_mean f) in *. set (v := fs_avg_var f) in *. set (cav := fs_avg_var_cav f) in *. set (rav := fs_avg_var_rav f) in *.
  assert (S2 : s_2_y_f f = fsub v (fdiv vm (f_int (Z.of_nat (length imgs))))) by (unfold s_2_y_f; rewrite FL; reflexivity).
  split.
  { eapply near_within; [|rewrite TS, S2; eapply (s2y_near W e k); eauto; lia]. rewrite PB.
    assert (1 * e <= k * e) by (apply Rmult_le_compat_r; lra). lra. }
  assert (QD : forall x y, (Q2R (qn x * y / inject_Z D) = IZR (Z.of_nat x) / IZR D * Q2R y)%R).
  { intros x y. rewrite Q2R_div, Q2R_mult, Q2R_qn_INR, Q2R_inject_Z, INR_IZR_INZ by exact DQ. unfold Rdiv. ring. }
  assert (QD2 : forall x y z t, (Q2R ((qn x * y - qn z * t) / inject_Z D) = IZR (Z.of_nat x) / IZR D * Q2R y - IZR (Z.of_nat z) / IZR D * Q2R t)%R).
  { intros x y z t. rewrite Q2R_div, Q2R_minus, !Q2R_mult, !Q2R_qn_INR, Q2R_inject_Z, !INR_IZR_INZ by exact DQ. unfold Rdiv. ring. }
  do 3 eexists.
  split; [unfold s_2_y_col_f, int_ratio; rewrite FM, FN, Z1, D0'; cbn [bind]; reflexivity|].
  split; [unfold s_2_y_row_f, int_ratio; rewrite FM, FN, Z1, D0'; cbn [bind]; reflexivity|].
  split; [unfold s_2_y_pixel_f, int_ratio; rewrite FM, FN, Z1, D0'; cbn [bind]; reflexivity|].
  assert (hw : (Z.of_nat (h * w - h) = Z.of_nat h * Z.of_nat w - Z.of_nat h)%Z /\ (Z.of_nat (h * w - w) = Z.of_nat h * Z.of_nat w - Z.of_nat w)%Z) by (rewrite !Nat2Z.inj_sub by nia; lia).
  destruct hw as (hw1 & hw2). rewrite S2.
  split; [|split].
  - eapply near_within; [apply Req_le; symmetry; exact PB|]. unfold column_part. fold D. rewrite QD2, Q2R_minus, TS, hw1.
    eapply (line_part W e k); eauto; try lia; try (apply RN; nia).
  - eapply near_within; [apply Req_le; symmetry; exact PB|]. unfold row_part. fold D. rewrite QD2, Q2R_minus, TS, hw2.
    eapply (line_part W e k); eauto; try lia; try (apply RN; nia).
  - eapply near_within; [apply Req_le; symmetry; exact PB|]. unfold pixel_part. fold D. rewrite QD, !Q2R_minus, TS, <- (Nat2Z.inj_mul h w).
    eapply (single_part W e k); eauto; try lia; try (apply RN; nia).
Qed.
End All.
