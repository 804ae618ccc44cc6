(** The exact row, column and pixel variances, their sum, and images of two by two pixels. *)
From Coq Require Import List Bool Arith ZArith QArith Qabs Lia Lqa.
From Verif Require Import Base_Prelude Base_Num Base_Order Base_Sum Base_Float Spec_Num
  Model_Images Model_Loader Model_Data Model_Rounded
  Model_RoundedSpatial Model_RoundedLines Model_Results Spec_Images Spec_Data Spec_Rounded Spec_RoundedSpatial Spec_RoundedLines Proofs_Data2
  Proofs_Rounded4 Proofs_RSpatial3 Proofs_RSpatial4 Proofs_RLines Proofs_RLines3.
Import ListNotations.
Open Scope Q_scope.

Section Exact.
Variables (b : Z) (h w : nat) (imgs : list image).
Hypothesis HS : stack_bits b h w imgs.
Hypothesis HD : (0 < inner_pixels h w)%Z.

Lemma parts_add_up : column_part h w imgs + row_part h w imgs + pixel_part h w imgs == true_spatial h w imgs.
Proof.
  destruct (inner_Q _ _ _ _ HS HD) as (h2 & w2 & DQ).
  unfold column_part, row_part, pixel_part.
  assert (E1 : qn (h * w - h) == qn (h * w) - qn h) by (unfold qn; rewrite Nat2Z.inj_sub by nia; unfold Z.sub; rewrite inject_Z_plus, inject_Z_opp; reflexivity).
  assert (E2 : qn (h * w - w) == qn (h * w) - qn w) by (unfold qn; rewrite Nat2Z.inj_sub by nia; unfold Z.sub; rewrite inject_Z_plus, inject_Z_opp; reflexivity).
  assert (ED : inject_Z (inner_pixels h w) == qn (h * w) - qn h - qn w) by (unfold inner_pixels, Z.sub, qn; rewrite !inject_Z_plus, !inject_Z_opp; reflexivity).
  rewrite E1, E2. rewrite ED in *. field. exact DQ.
Qed.

Lemma entries_exact r s : get_int_imgs imgs = Ok r -> get_spatial_data h w r = Ok s ->
  sd_L s = length imgs /\ sd_M s = h /\ sd_N s = w /\
  exists vm v cav rav, sd_var_mean s = Some vm /\ sd_avg_var s = Some v /\ sd_avg_var_cav s = Some cav /\ sd_avg_var_rav s = Some rav /\
    vm == temporal_noise h w imgs /\ v == spatial_noise h w imgs /\ cav == column_noise h w imgs /\ rav == row_noise h w imgs.
Proof.
  intros E Es. pose proof HS as (HL & Hsh & Hb & Hbb & Hhw & Hn).
  destruct (spatial_statistics h w imgs) as (r' & s' & E' & Es' & A & B & C & Q & T); try lia.
  { eapply stack_documented; exact HS. }
  rewrite E in E'. injection E' as <-. rewrite Es in Es'. injection Es' as <-.
  destruct T as (vm & v & cav & rav & T1 & T2 & T3 & T4 & V1 & V2 & V3 & V4).
  split; [auto|]. split; [auto|]. split; [auto|].
  exists vm, v, cav, rav. do 4 (split; [assumption|]). split; [exact V1|]. split; [exact V2|].
  unfold column_noise, row_noise, temporal_noise. split; [rewrite V3, V1|rewrite V4, V1]; reflexivity.
Qed.

Lemma split_exact L vm v cav rav : L = length imgs ->
  vm == temporal_noise h w imgs -> v == spatial_noise h w imgs -> cav == column_noise h w imgs -> rav == row_noise h w imgs ->
  let M := Z.of_nat h in let N := Z.of_nat w in let s := olift2 Qminus (Some v) (omap (fun x => x / qn L) (Some vm)) in
  exact_parts h w imgs s
   (para_1 <- zdivz (M * N - M) (M * N - M - N) ;; para_2 <- zdivz N (M * N - M - N) ;;
    Ok (olift2 (fun a b => para_1 * a - para_2 * b) (Some cav) (olift2 Qminus s (Some rav))))
   (para_1 <- zdivz (M * N - N) (M * N - M - N) ;; para_2 <- zdivz M (M * N - M - N) ;;
    Ok (olift2 (fun a b => para_1 * a - para_2 * b) (Some rav) (olift2 Qminus s (Some cav))))
   (para <- zdivz (M * N) (M * N - M - N) ;;
    Ok (omap (fun x => para * x) (olift2 Qminus (olift2 Qminus s (Some cav)) (Some rav)))).
Proof.
  intros -> V1 V2 V3 V4 M N s. destruct (inner_Q _ _ _ _ HS HD) as (h2 & w2 & DQ).
  assert (Z1 : (M * N - M - N = inner_pixels h w)%Z) by (unfold M, N, inner_pixels; lia).
  assert (D0 : (inner_pixels h w =? 0)%Z = false) by (apply Z.eqb_neq; lia).
  assert (E1 : (M * N - M = Z.of_nat (h * w - h))%Z) by (unfold M, N; rewrite Nat2Z.inj_sub by nia; lia).
  assert (E2 : (M * N - N = Z.of_nat (h * w - w))%Z) by (unfold M, N; rewrite Nat2Z.inj_sub by nia; lia).
  assert (E3 : (M * N = Z.of_nat (h * w))%Z) by (unfold M, N; lia).
  unfold zdivz. rewrite Z1, D0. cbn [bind]. do 4 eexists. do 4 (split; [reflexivity|]).
  assert (T : v - vm / qn (length imgs) == true_spatial h w imgs) by (unfold true_spatial; rewrite V1, V2; reflexivity).
  split; [exact T|]. rewrite E1, E2, E3. rewrite T, V3, V4. unfold column_part, row_part, pixel_part, M, N.
  repeat split; unfold qn; field; exact DQ.
Qed.

Lemma parts_exact r s o : get_int_imgs imgs = Ok r -> get_spatial_data h w r = Ok s ->
  (bright o = s -> exact_parts h w imgs (s_2_y o) (s_2_y_col o) (s_2_y_row o) (s_2_y_pixel o)) /\
  (dark o = s -> exact_parts h w imgs (s_2_y_dark o) (s_2_y_col_dark o) (s_2_y_row_dark o) (s_2_y_pixel_dark o)).
Proof.
  intros E Es. destruct (entries_exact r s E Es) as (A & B & C & vm & v & cav & rav & T1 & T2 & T3 & T4 & V1 & V2 & V3 & V4).
  pose proof (split_exact (length imgs) vm v cav rav eq_refl V1 V2 V3 V4) as S. cbv zeta in S. split; intro O.
  - unfold s_2_y_col, s_2_y_row, s_2_y_pixel, s_2_y, s_2_y_cav, s_2_y_rav, s_2_y_measured, sigma_2_y_stack, dimM, dimN.
    rewrite O, A, B, C, T1, T2, T3, T4. exact S.
  - unfold s_2_y_col_dark, s_2_y_row_dark, s_2_y_pixel_dark, s_2_y_dark, s_2_y_cav_dark, s_2_y_rav_dark, s_2_y_measured_dark, sigma_2_y_stack_dark, dimM, dimN.
    rewrite O, A, B, C, T1, T2, T3, T4. exact S.
Qed.

Lemma sum_computed d ord : sound_orders d h w ord ->
  exists r f t col row pixel, get_int_imgs imgs = Ok r /\ get_spatial_data_f ord h w r = Ok f /\
  s_2_y_f f = FFin t /\ s_2_y_col_f f = Ok (FFin col) /\ s_2_y_row_f f = Ok (FFin row) /\ s_2_y_pixel_f f = Ok (FFin pixel) /\
  Qabs (col + row + pixel - t) <= 4 * part_bound b d h w.
Proof.
  intro HO. destruct (parts_computed b h w d imgs ord HS HO HD)
    as (r & f & E & F & (t & T & T1) & c & ro & p & EC & ER & EP & (c' & -> & C1) & (r' & -> & R1) & (p' & -> & P1)).
  exists r, f, t, c', r', p'. do 6 (split; [auto|]). pose proof parts_add_up as S.
  set (X := part_bound b d h w) in *. apply Qabs_Qle_condition in T1, C1, R1, P1. apply Qabs_Qle_condition. lra.
Qed.
End Exact.

Lemma lines_fail b h w d imgs o r f : stack_bits b h w imgs -> sound_orders d h w o ->
  get_int_imgs imgs = Ok r -> get_spatial_data_f o h w r = Ok f ->
  (s_2_y_col_f f = Err ZeroDivisionError <-> h = 2%nat /\ w = 2%nat) /\
  (s_2_y_row_f f = Err ZeroDivisionError <-> h = 2%nat /\ w = 2%nat) /\
  (s_2_y_pixel_f f = Err ZeroDivisionError <-> h = 2%nat /\ w = 2%nat).
Proof.
  intros HS HO E F. destruct (size_pos _ _ _ _ HS) as (hp & wp).
  assert (X : fs_M f = h /\ fs_N f = w).
  { revert F. unfold get_spatial_data_f. destruct (ii_L r =? 0)%nat; [discriminate|]. destruct (w =? 0)%nat; [discriminate|].
    destruct (h =? 0)%nat; [discriminate|]. cbv zeta. intro Q. injection Q as <-. auto. }
  destruct X as (FM & FN).
  unfold s_2_y_col_f, s_2_y_row_f, s_2_y_pixel_f, int_ratio. rewrite FM, FN.
  destruct (Z.eqb_spec (Z.of_nat h * Z.of_nat w - Z.of_nat h - Z.of_nat w) 0) as [Z0|Z0]; cbn [bind].
  - assert (h = 2 /\ w = 2)%nat.
    { assert ((Z.of_nat h - 1) * (Z.of_nat w - 1) = 1)%Z by lia.
      assert (Z.of_nat h - 1 = 1)%Z by (apply Z.eq_mul_1_nonneg with (m := (Z.of_nat w - 1)%Z); lia). nia. }
    tauto.
  - assert (~ (h = 2 /\ w = 2)%nat) by (intros (A & B); rewrite A, B in Z0; lia).
    (split; [|split]); split; intro Q; try discriminate Q; tauto.
Qed.

Lemma within_sym_eq e q q' x : q == q' -> within e q' x -> within e q x.
Proof. intros E. apply within_eq. symmetry. exact E. Qed.

Lemma series_parts b h w n imgs od r s f : stack_bits b h w imgs -> (0 < inner_pixels h w)%Z -> sound_orders n h w od ->
  get_int_imgs imgs = Ok r -> get_spatial_data h w r = Ok s -> get_spatial_data_f od h w r = Ok f ->
  forall o,
  (bright o = s -> parts_near (part_bound b n h w) (s_2_y o) (s_2_y_col o) (s_2_y_row o) (s_2_y_pixel o) f) /\
  (dark o = s -> parts_near (part_bound b n h w) (s_2_y_dark o) (s_2_y_col_dark o) (s_2_y_row_dark o) (s_2_y_pixel_dark o) f).
Proof.
  intros HS HD HO E Es Ef o.
  destruct (parts_computed b h w n imgs od HS HO HD) as (r1 & f1 & E1 & F1 & T & c & ro & p & EC & ER & EP & C & R & P).
  rewrite E in E1. injection E1 as <-. rewrite Ef in F1. injection F1 as <-.
  destruct (parts_exact b h w imgs HS HD r s o E Es) as (X & Y).
  split; intro O; [destruct (X O) as (t' & c' & r' & p' & A1 & A2 & A3 & A4 & B1 & B2 & B3 & B4)
                  |destruct (Y O) as (t' & c' & r' & p' & A1 & A2 & A3 & A4 & B1 & B2 & B3 & B4)];
    exists t', c', r', p', c, ro, p; do 7 (split; [assumption|]);
    (split; [|split; [|split]]); eapply within_sym_eq; eassumption.
Qed.

Lemma whole_lines b h w n od ob imgs data : sound_orders n h w od -> sound_orders n h w ob -> (0 < inner_pixels h w)%Z ->
  every (stack_bits b h w) imgs -> table2 (table2 series_entry) imgs data ->
  out2 (fun s f => forall o, o_s o = s -> lines_near (part_bound b n h w) o f)
       (get_spatial h w data) (get_spatial_f od ob h w data).
Proof.
  intros Od Ob HD F T.
  destruct T as [|[t di] [t' dd] imgs data (K & T) TT]; [left; exists ValueError; auto|].
  cbn [fst snd] in *. subst t'. destruct TT as [|x y imgs data _ TT]; [|left; exists ValueError; auto].
  apply Forall_inv in F. cbn [snd] in F. unfold get_spatial, get_spatial_f. cbv zeta.
  destruct (negb (existsb _ _)); [left; eexists; auto|].
  destruct (negb (_ =? _)%nat); [left; eexists; auto|].
  destruct (dget feq fzero dd) as [r|] eqn:E0; cbn [of_option bind]; [|left; eexists; auto].
  destruct (get_series b h w di dd fzero r F T E0) as (l & Sl & El).
  destruct (spatial_computed b h w n l od Sl Od) as (r1 & s & f & E1 & Es & Ef & C).
  rewrite El in E1. injection E1 as <-. rewrite Es, Ef. cbn [bind].
  destruct (nth_error _ 1) as [p|]; cbn [of_option bind]; [|left; eexists; auto].
  destruct (dget feq p dd) as [r'|] eqn:Ep; cbn [of_option bind]; [|left; eexists; auto].
  destruct (get_series b h w di dd p r' F T Ep) as (l' & Sl' & El').
  destruct (spatial_computed b h w n l' ob Sl' Ob) as (r2 & s' & f' & E2 & Es' & Ef' & C').
  rewrite El' in E2. injection E2 as <-. rewrite Es', Ef'. cbn [bind].
  right. eexists. eexists. split; [reflexivity|]. split; [reflexivity|].
  intros o O. destruct (series_parts b h w n l od r s f Sl HD Od El Es Ef o) as (_ & X).
  destruct (series_parts b h w n l' ob r' s' f' Sl' HD Ob El' Es' Ef' o) as (Y & _).
  unfold bright, dark in X, Y. rewrite O in X, Y. split; [apply Y|apply X]; reflexivity.
Qed.
