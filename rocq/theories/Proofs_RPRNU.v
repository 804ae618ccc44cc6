(** Proofs for C131: the photo response non-uniformities. *)
From Coq Require Import List Bool QArith Qabs Qreals Reals ZArith Lia Lra Arith.
From Flocq Require Import Core.
From Verif Require Import Base_Prelude Base_Num Base_Order Base_Float Base_Xreal Model_Images Model_Loader Model_Data Model_Rounded
  Model_RoundedSpatial Model_RoundedLines Model_Results Model_RoundedFigures Spec_Images Spec_Data Spec_Rounded Spec_RoundedSpatial
  Spec_RoundedLines Spec_Results Spec_Figures Spec_RoundedFigures Spec_RoundedDSNU
  Proofs_Float Proofs_Results2 Proofs_Figures Proofs_Figures2 Proofs_RFigures Proofs_RFigures2 Proofs_RFigures3 Proofs_RSpatial4 Proofs_RLines4 Proofs_RDSNU.
Open Scope R_scope.
Set Bullet Behavior "Strict Subproofs".

Lemma size_close e A a : size 100 A -> 4 * e <= Rabs A -> Rabs (a - A) <= e -> size 101 a.
Proof.
  intros (S1 & S2) H D. unfold size.
  assert (D1 : Rabs a - Rabs A <= e) by (eapply Rle_trans; [apply Rabs_triang_inv|exact D]).
  assert (D2 : Rabs A - Rabs a <= e) by (eapply Rle_trans; [apply Rabs_triang_inv|]; rewrite Rabs_minus_sym; exact D).
  change (-(101))%Z with (-(1) + -(100))%Z. change 101%Z with (1 + 100)%Z. rewrite !bpow_plus.
  change (bpow radix2 (-(1))) with (/ 2). change (bpow radix2 1) with 2. lra.
Qed.

(** A quotient of numbers known up to the parts q and p. *)
Lemma quotient_close s t q M m p : 0 <= q <= 1 / 4 -> 0 <= p <= 1 / 4 -> M <> 0 ->
  Rabs (t - s) <= 2 / 3 * q * Rabs s -> Rabs (m - M) <= p * Rabs M ->
  m <> 0 /\ Rabs (t / m - s / M) <= (q + 4 / 3 * p) * Rabs (s / M) /\ Rabs (t / m) <= 8 / 5 * Rabs (s / M).
Proof.
  intros Q P N T D. assert (PM : 0 < Rabs M) by (apply Rabs_pos_lt, N).
  assert (L : 3 / 4 * Rabs M <= Rabs m).
  { pose proof (Rabs_triang_inv M m) as X. rewrite (Rabs_minus_sym M m) in X. nra. }
  assert (Nm : m <> 0) by (intros ->; rewrite Rabs_R0 in L; lra). split; [exact Nm|].
  assert (PS := Rabs_pos s).
  assert (A : Rabs (t / m - s / M) <= (8 / 9 * q + 4 / 3 * p) * Rabs (s / M)).
  { replace (t / m - s / M) with (((t - s) * M - s * (m - M)) / (m * M)) by (field; split; assumption).
    replace (Rabs (s / M)) with (Rabs s * / Rabs M) by (unfold Rdiv; rewrite Rabs_mult, Rabs_inv; reflexivity).
    replace (Rabs (((t - s) * M - s * (m - M)) / (m * M))) with (Rabs ((t - s) * M - s * (m - M)) * / (Rabs m * Rabs M))
      by (unfold Rdiv; rewrite (Rabs_mult _ (/ _)), Rabs_inv, (Rabs_mult m M); reflexivity).
    assert (Pm : 0 < Rabs m) by lra.
    apply Rmult_le_reg_r with (Rabs m * Rabs M); [apply Rmult_lt_0_compat; lra|].
    rewrite Rmult_assoc, Rinv_l by (apply Rgt_not_eq, Rmult_lt_0_compat; lra). rewrite Rmult_1_r.
    replace ((8 / 9 * q + 4 / 3 * p) * (Rabs s * / Rabs M) * (Rabs m * Rabs M)) with ((8 / 9 * q + 4 / 3 * p) * Rabs s * Rabs m) by (field; lra).
    apply Rle_trans with ((2 / 3 * q + p) * Rabs s * Rabs M).
    - unfold Rminus at 1. eapply Rle_trans; [apply Rabs_triang|]. rewrite Rabs_Ropp, !Rabs_mult.
      assert (Rabs (t - s) * Rabs M <= 2 / 3 * q * Rabs s * Rabs M) by (apply Rmult_le_compat_r; lra).
      assert (Rabs s * Rabs (m - M) <= Rabs s * (p * Rabs M)) by (apply Rmult_le_compat_l; lra). lra.
    - replace ((8 / 9 * q + 4 / 3 * p) * Rabs s * Rabs m) with ((2 / 3 * q + p) * Rabs s * (4 / 3 * Rabs m)) by field.
      apply Rmult_le_compat_l; [apply Rmult_le_pos; lra|lra]. }
  assert (PY := Rabs_pos (s / M)). set (y := s / M) in *. set (z := t / m) in *. split.
  - nra.
  - pose proof (Rabs_triang_inv z y). nra.
Qed.

Lemma prnu_accurate o e g v w V W A B :
  0 <= e -> 0 <= g -> Rabs (Q2R V - Q2R v) <= e -> Rabs (Q2R W - Q2R w) <= e ->
  Rabs (Q2R A - Q2R (sd_avg_mean (bright o))) <= g -> Rabs (Q2R B - Q2R (sd_avg_mean (dark o))) <= g ->
  let M := Q2R (sd_avg_mean (bright o)) - Q2R (sd_avg_mean (dark o)) in
  let r := r_PRNU (Q2R V - Q2R W) (Q2R A - Q2R B) in
  (8 * e <= Q2R v - Q2R w -> ordinary (Q2R v - Q2R w) -> 8 * g <= Rabs M -> ordinary M ->
     exists x y, r = Some x /\ prnu_of o (Some v) (Some w) = XR y /\
       Rabs (x - y) <= (2 * e / (Q2R v - Q2R w) + 4 * g / Rabs M + 12 * / 2 ^ 53) * Rabs y) /\
  (8 * e <= Q2R w - Q2R v -> ordinary (Q2R w - Q2R v) -> r = None /\ prnu_of o (Some v) (Some w) = XNan).
Proof.
  intros E G DV DW DA DB M r.
  set (D := Q2R v - Q2R w). set (dv := Q2R V - Q2R W) in *. set (dm := Q2R A - Q2R B) in *.
  assert (CV : Rabs (dv - D) <= 2 * e).
  { unfold dv, D. replace (Q2R V - Q2R W - (Q2R v - Q2R w)) with ((Q2R V - Q2R v) + - (Q2R W - Q2R w)) by ring.
    eapply Rle_trans; [apply Rabs_triang|]. rewrite Rabs_Ropp. lra. }
  assert (CM : Rabs (dm - M) <= 2 * g).
  { unfold dm, M. match goal with |- Rabs (?a - ?b - (?c - ?d)) <= _ => replace (a - b - (c - d)) with ((a - c) + - (b - d)) by ring end.
    eapply Rle_trans; [apply Rabs_triang|]. rewrite Rabs_Ropp. lra. }
  split.
  - intros H O HM OM. pose proof (ordinary_size _ O) as SO. pose proof (ordinary_size _ OM) as SM.
    assert (NM : M <> 0) by apply (size_nz _ _ SM). assert (PM : 0 < Rabs M) by (apply Rabs_pos_lt, NM).
    assert (P : 0 < D) by (pose proof (size_nz _ _ SO); unfold D in *; lra).
    destruct (sqrt_close (2 * e) D dv ltac:(lra) P ltac:(lra) CV) as (PV & C).
    assert (SV : size 101 dv) by (apply (size_close (2 * e) D); [exact SO|rewrite Rabs_pos_eq by lra; lra|exact CV]).
    assert (Sm : size 101 dm) by (apply (size_close (2 * g) M); [exact SM|lra|exact CM]).
    destruct (fl_near 0 101 dv dv (near_const _ _ SV)) as (a & Ea & Na); [lia|lia|].
    destruct (sqrt_near_f _ _ _ _ PV Na) as (c & Ec & Nc); [lia|lia|].
    destruct (mul_near _ _ _ _ _ _ _ _ Nc (near_const _ _ size_100)) as (h & Eh & Nh); [lia|lia|].
    destruct (fl_near 0 101 dm dm (near_const _ _ Sm)) as (k & Ek & Nk); [lia|lia|].
    destruct (div_near _ _ _ _ _ _ _ _ Nh Nk) as (x & Ex & (Rx & _)); [lia|lia|].
    exists x, (sqrt D * 100 / M). split; [|split].
    + unfold r, r_PRNU. rewrite Ea. cbn [obind]. rewrite Ec. cbn [obind]. rewrite Eh. cbn [obind]. rewrite Ek. exact Ex.
    + unfold prnu_of, xoq, xq, xsub, xneg, xadd.
      replace (Q2R v + - Q2R w) with D by (unfold D; ring). rewrite xsqrt_fin by lra. unfold xmul.
      rewrite (Q2R_c 100 1). change (Q2R (sd_avg_mean (bright o)) + - Q2R (sd_avg_mean (dark o))) with M.
      rewrite xdiv_fin by exact NM. f_equal. field. exact NM.
    + apply rel_to in Rx; [|lia]. rewrite unit_eq. pose proof unit_small as U. set (u := unit) in *.
      pose proof (sqrt_lt_R0 _ P) as S. set (q := 2 * e / D) in *.
      assert (Q1 : 0 <= q <= 1 / 4).
      { unfold q. split; [apply Rmult_le_pos; [lra|left; apply Rinv_0_lt_compat; lra]|].
        apply Rmult_le_reg_r with D; [lra|]. unfold Rdiv at 1. rewrite Rmult_assoc, Rinv_l by lra. lra. }
      set (p := 2 * g / Rabs M).
      assert (P1 : 0 <= p <= 1 / 4).
      { unfold p. split; [apply Rmult_le_pos; [lra|left; apply Rinv_0_lt_compat; lra]|].
        apply Rmult_le_reg_r with (Rabs M); [lra|]. unfold Rdiv at 1. rewrite Rmult_assoc, Rinv_l by lra. lra. }
      destruct (quotient_close (sqrt D * 100) (sqrt dv * 100) q M dm p Q1 P1 NM) as (_ & X1 & X2).
      { replace (sqrt dv * 100 - sqrt D * 100) with ((sqrt dv - sqrt D) * 100) by ring.
        rewrite !Rabs_mult, (Rabs_pos_eq (sqrt D)), (Rabs_pos_eq 100) by lra. fold q in C. lra. }
      { unfold p. replace (2 * g / Rabs M * Rabs M) with (2 * g) by (field; lra). exact CM. }
      replace (4 * g / Rabs M) with (2 * p) by (unfold p; field; lra).
      set (y := sqrt D * 100 / M) in *. set (z := sqrt dv * 100 / dm) in *.
      assert (N7 : INR (Datatypes.S (Datatypes.S (3 + 0 + 1))) <= 7) by (cbn; lra).
      assert (PY := Rabs_pos y). assert (PZ := Rabs_pos z).
      assert (Z1 : Rabs (x - z) <= 7 * u * Rabs z).
      { eapply Rle_trans; [exact Rx|]. apply Rmult_le_compat_r; [lra|]. apply Rmult_le_compat_r; [lra|]. cbn; lra. }
      assert (Z2 : 7 * u * Rabs z <= 12 * u * Rabs y).
      { apply Rle_trans with (7 * u * (8 / 5 * Rabs y)); [apply Rmult_le_compat_l; lra|].
        assert (0 <= u * Rabs y) by (apply Rmult_le_pos; lra). lra. }
      replace (x - y) with ((x - z) + (z - y)) by ring. eapply Rle_trans; [apply Rabs_triang|].
      assert (0 <= p * Rabs y) by (apply Rmult_le_pos; lra). lra.
  - intros H O. pose proof (ordinary_size _ O) as SO. assert (P : 0 < - D) by (pose proof (size_nz _ _ SO); unfold D in *; lra).
    assert (SV : size 101 dv).
    { apply (size_close (2 * e) D); [|rewrite Rabs_left by lra; unfold D; lra|exact CV].
      unfold size in *. rewrite <- (Rabs_Ropp D). replace (- D) with (Q2R w - Q2R v) by (unfold D; ring). exact SO. }
    assert (NV : dv < 0).
    { assert (dv - D <= 2 * e) by (eapply Rle_trans; [apply Rle_abs|exact CV]). unfold D in *. lra. }
    destruct (fl_near 0 101 dv dv (near_const _ _ SV)) as (a & Ea & ((d & EA & Ld) & _)); [lia|lia|].
    assert (a < 0) by (pose proof (pow_low_pos 1); subst a; nra).
    split.
    + unfold r, r_PRNU. rewrite Ea. cbn [obind]. unfold rsqrt. destruct (Rlt_dec a 0) as [_|N]; [reflexivity|lra].
    + unfold prnu_of, xoq, xq, xsub, xneg, xadd, xsqrt. replace (Q2R v + - Q2R w) with D by (unfold D; ring).
      destruct (Rlt_dec D 0) as [_|N]; [reflexivity|lra].
Qed.

Lemma prnu_measured b h w n od ob imgs data s f o :
  sound_orders n h w od -> sound_orders n h w ob -> (0 < inner_pixels h w)%Z ->
  every (stack_bits b h w) imgs -> table2 (table2 series_entry) imgs data ->
  get_spatial h w data = Ok s -> get_spatial_f od ob h w data = Ok f -> o_s o = s ->
  let e := Q2R (part_bound b n h w) in let g := Q2R (mean_bound b n) in let d := fsp_dark f in let l := fsp_bright f in
  let M := Q2R (sd_avg_mean (bright o)) - Q2R (sd_avg_mean (dark o)) in
  exists A B, fs_avg_mean l = FFin A /\ fs_avg_mean d = FFin B /\
  light_accurate e g M (Ok (s_2_y o)) (Ok (s_2_y_dark o)) (Ok (s_2_y_f l)) (Ok (s_2_y_f d)) A B (PRNU1288 o) /\
  light_accurate e g M (s_2_y_row o) (s_2_y_row_dark o) (s_2_y_row_f l) (s_2_y_row_f d) A B (PRNU1288_row o) /\
  light_accurate e g M (s_2_y_col o) (s_2_y_col_dark o) (s_2_y_col_f l) (s_2_y_col_f d) A B (PRNU1288_col o) /\
  light_accurate e g M (s_2_y_pixel o) (s_2_y_pixel_dark o) (s_2_y_pixel_f l) (s_2_y_pixel_f d) A B (PRNU1288_pixel o).
Proof.
  intros Od Ob HD F T ES EF EO e g d l M.
  destruct (whole_spatial b h w n od ob imgs data Od Ob F T) as [(x & X & _)|(s' & f' & X & Y & _ & _ & CD & CB)]; [congruence|].
  rewrite ES in X. injection X as <-. rewrite EF in Y. injection Y as <-.
  destruct CD as (_ & _ & _ & _ & (B & EB & WB) & _), CB as (_ & _ & _ & _ & (A & EA & WA) & _).
  exists A, B. split; [exact EA|]. split; [exact EB|].
  destruct (whole_lines b h w n od ob imgs data Od Ob HD F T) as [(x & X & _)|(s' & f' & X & Y & L)]; [congruence|].
  rewrite ES in X. injection X as <-. rewrite EF in Y. injection Y as <-.
  destruct (L o EO) as ((t' & c' & r' & p' & x & y & z & E1 & E2 & E3 & E4 & X1 & X2 & X3 & (t & ET & WT) & (c & EC & WC) & (r & ER & WR) & (p & EP & WP))
    & (td' & cd' & rd' & pd' & xd & yd & zd & F1 & F2 & F3 & F4 & Y1 & Y2 & Y3 & (td & FT & VT) & (cd & FC & VC) & (rd & FR & VR) & (pd & FP & VP))).
  fold l in X1, X2, X3, ET. fold d in Y1, Y2, Y3, FT. subst x y z xd yd zd.
  assert (W : forall B a b0, (Qabs (a - b0) <= B)%Q -> 0 <= Q2R B /\ Rabs (Q2R a - Q2R b0) <= Q2R B).
  { intros B0 a b0 H. apply Qle_Rle in H. rewrite Q2R_Qabs, Q2R_minus in H. pose proof (Rabs_pos (Q2R a - Q2R b0)). lra. }
  assert (MA : sd_avg_mean (sp_bright s) = sd_avg_mean (bright o)) by (unfold bright; rewrite EO; reflexivity).
  assert (MB : sd_avg_mean (sp_dark s) = sd_avg_mean (dark o)) by (unfold dark; rewrite EO; reflexivity).
  rewrite MA in WA. rewrite MB in WB. apply W in WA. apply W in WB. destruct WA as (G0 & WA), WB as (_ & WB).
  assert (Z : forall v w0 V W0 bb dd cc cd0 ff, bb = Ok (Some v) -> dd = Ok (Some w0) -> cc = Ok (FFin V) -> cd0 = Ok (FFin W0) ->
    (Qabs (V - v) <= part_bound b n h w)%Q -> (Qabs (W0 - w0) <= part_bound b n h w)%Q -> ff = Ok (prnu_of o (Some v) (Some w0)) ->
    light_accurate e g M bb dd cc cd0 A B ff).
  { intros v w0 V W0 bb dd cc cd0 ff -> -> -> -> H1 H2 ->. apply W in H1. apply W in H2. destruct H1 as (E0 & H1), H2 as (_ & H2).
    exists v, w0, V, W0. do 4 (split; [reflexivity|]). cbv zeta.
    destruct (prnu_accurate o e g v w0 V W0 A B E0 G0 H1 H2 WA WB) as (P1 & P2). split.
    - intros h1 h2 h3 h4. destruct (P1 h1 h2 h3 h4) as (x & y & I1 & I2 & I3). exists x, y. rewrite I2. auto.
    - intros h1 h2. destruct (P2 h1 h2) as (I1 & I2). rewrite I2. auto. }
  split; [|split; [|split]].
  - apply (Z t' td' t td); try assumption; try congruence. unfold PRNU1288. rewrite E1, F1. reflexivity.
  - apply (Z r' rd' r rd); try assumption. unfold PRNU1288_row. rewrite E3, F3. reflexivity.
  - apply (Z c' cd' c cd); try assumption. unfold PRNU1288_col. rewrite E2, F2. reflexivity.
  - apply (Z p' pd' p pd); try assumption. unfold PRNU1288_pixel. rewrite E4, F4. reflexivity.
Qed.
