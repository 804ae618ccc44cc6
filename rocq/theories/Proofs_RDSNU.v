(** Proofs for C131. *)
From Coq Require Import List Bool QArith Qabs Qreals Reals ZArith Lia Lra Arith.
From Flocq Require Import Core.
From Verif Require Import Base_Prelude Base_Num Base_Order Base_Float Base_Xreal Model_Images Model_Loader Model_Data Model_Rounded
  Model_RoundedSpatial Model_RoundedLines Model_Results Model_RoundedFigures Spec_Images Spec_Data Spec_Rounded Spec_RoundedSpatial
  Spec_RoundedLines Spec_Results Spec_Figures Spec_RoundedFigures Spec_RoundedDSNU
  Proofs_Float Proofs_Results2 Proofs_Figures Proofs_Figures2 Proofs_RFigures Proofs_RFigures2 Proofs_RFigures3 Proofs_RLines4.
Open Scope R_scope.
Set Bullet Behavior "Strict Subproofs".

(** The square root of a number known up to e. *)
Lemma sqrt_close e v V : 0 <= e -> 0 < v -> 4 * e <= v -> Rabs (V - v) <= e ->
  0 < V /\ Rabs (sqrt V - sqrt v) <= 2 / 3 * (e / v) * sqrt v.
Proof.
  intros E P H D. assert (D1 : V - v <= e) by (eapply Rle_trans; [apply Rle_abs|exact D]).
  assert (D2 : v - V <= e) by (eapply Rle_trans; [apply Rle_abs|]; rewrite Rabs_minus_sym; exact D).
  assert (PV : 0 < V) by lra. split; [exact PV|].
  pose proof (sqrt_lt_R0 v P) as S. pose proof (sqrt_lt_R0 V PV) as SV.
  pose proof (sqrt_sqrt v ltac:(lra)) as Q. pose proof (sqrt_sqrt V ltac:(lra)) as QV.
  set (s := sqrt v) in *. set (t := sqrt V) in *.
  assert (L : s / 2 <= t).
  { apply Rnot_lt_le. intros N. assert (t * t <= s / 2 * (s / 2)) by (apply Rmult_le_compat; lra). nra. }
  replace (2 / 3 * (e / v) * s) with (e / (3 / 2 * s)) by (rewrite <- Q; field; lra).
  apply Rmult_le_reg_r with (3 / 2 * s); [lra|].
  replace (e / (3 / 2 * s) * (3 / 2 * s)) with e by (field; lra).
  apply Rle_trans with (Rabs (t - s) * (t + s)).
  - apply Rmult_le_compat_l; [apply Rabs_pos|lra].
  - rewrite <- (Rabs_pos_eq (t + s)) by lra. rewrite <- Rabs_mult. replace ((t - s) * (t + s)) with (V - v) by (rewrite <- Q, <- QV; ring). exact D.
Qed.

Lemma dsnu_accurate o k K m e v V : (m <= 100)%nat -> gain o = Ok k -> ordinary (Q2R k) -> right_to m K (Q2R k) ->
  0 <= e -> Rabs (Q2R V - Q2R v) <= e ->
  (4 * e <= Q2R v -> ordinary (Q2R v) ->
     exists x y, r_DSNU K (Q2R V) = Some x /\ dsnu_of o (Some v) = Ok (XR y) /\
       Rabs (x - y) <= (e / Q2R v + (2 * INR m + 8) * / 2 ^ 53) * Rabs y) /\
  (Q2R v < - e -> r_DSNU K (Q2R V) = None /\ dsnu_of o (Some v) = Ok XNan).
Proof.
  intros M EK OK NK E D. split.
  - intros H O. assert (nk := ordinary_near m K _ M OK NK). pose proof (ordinary_size _ OK) as SK.
    assert (KN : Q2R k <> 0) by apply (size_nz _ _ SK).
    pose proof (ordinary_size _ O) as SO. assert (P : 0 < Q2R v).
    { pose proof (size_nz _ _ SO). lra. }
    destruct (sqrt_close e _ _ E P H D) as (PV & C).
    assert (SV : size 101 (Q2R V)).
    { destruct SO as (S1 & S2). rewrite Rabs_pos_eq in S1, S2 by lra. unfold size. rewrite Rabs_pos_eq by lra.
      assert (D1 : Q2R V - Q2R v <= e) by (eapply Rle_trans; [apply Rle_abs|exact D]).
      assert (D2 : Q2R v - Q2R V <= e) by (eapply Rle_trans; [apply Rle_abs|]; rewrite Rabs_minus_sym; exact D).
      change (-(101))%Z with (-(1) + -(100))%Z. change 101%Z with (1 + 100)%Z. rewrite !bpow_plus.
      change (bpow radix2 (-(1))) with (/ 2). change (bpow radix2 1) with 2. lra. }
    destruct (sqrt_near_f 0 101 (Q2R V) (Q2R V) PV (near_const _ _ SV)) as (a & Ea & Na); [lia|lia|].
    destruct (div_near _ _ _ _ _ _ _ _ Na nk) as (x & Ex & (Rx & _)); [lia|lia|].
    exists x, (sqrt (Q2R v) / Q2R k). split; [unfold r_DSNU; rewrite Ea; exact Ex|]. split.
    + unfold dsnu_of. unfold xoq, xq, xlt0. destruct (Rlt_dec (Q2R v) 0) as [L|L]; [lra|].
      rewrite EK. cbn [bind]. rewrite xsqrt_fin by lra. rewrite xdiv_fin by exact KN. reflexivity.
    + apply rel_to in Rx; [|lia]. rewrite unit_eq.
      pose proof unit_small as U. set (u := unit) in *.
      replace (S (S (1 + (m + 1)))) with (m + 4)%nat in Rx by lia. rewrite plus_INR in Rx. change (INR 4) with (1 + 1 + 1 + 1) in Rx.
      assert (I : 0 <= INR m) by apply pos_INR.
      assert (PI : 0 < Rabs (/ Q2R k)) by (apply Rabs_pos_lt, Rinv_neq_0_compat, KN).
      pose proof (sqrt_lt_R0 _ P) as S. pose proof (sqrt_lt_R0 _ PV) as T.
      unfold Rdiv in *. rewrite Rabs_mult in *. rewrite (Rabs_pos_eq (sqrt (Q2R v))) by lra. rewrite (Rabs_pos_eq (sqrt (Q2R V))) in Rx by lra.
      set (i := Rabs (/ Q2R k)) in *. set (s := sqrt (Q2R v)) in *. set (t := sqrt (Q2R V)) in *. set (q := e * / Q2R v) in *.
      assert (Q1 : 0 <= q) by (apply Rmult_le_pos; [lra|]; left; apply Rinv_0_lt_compat; lra).
      assert (Q2 : q <= 1 / 4).
      { unfold q. apply Rmult_le_reg_r with (Q2R v); [lra|]. rewrite Rmult_assoc, Rinv_l by lra. lra. }
      assert (TS : t <= 2 * s).
      { assert (t - s <= 2 * / 3 * q * s) by (eapply Rle_trans; [apply Rle_abs|exact C]). nra. }
      replace (x - s * / Q2R k) with ((x - t * / Q2R k) + (t - s) * / Q2R k) by ring.
      eapply Rle_trans; [apply Rabs_triang|]. rewrite (Rabs_mult (t - s)). fold i.
      assert (A1 : Rabs (t - s) * i <= q * s * i) by (apply Rmult_le_compat_r; [lra|]; nra).
      assert (A2 : (INR m + (1 + 1 + 1 + 1)) * u * (t * i) <= (2 * INR m + 8) * u * s * i).
      { replace ((2 * INR m + 8) * u * s * i) with ((INR m + (1 + 1 + 1 + 1)) * u * (2 * s * i)) by ring.
        apply Rmult_le_compat_l; [apply Rmult_le_pos; lra|]. apply Rmult_le_compat_r; lra. }
      lra.
  - intros H. assert (D1 : Q2R V - Q2R v <= e) by (eapply Rle_trans; [apply Rle_abs|exact D]).
    split.
    + unfold r_DSNU, rsqrt. destruct (Rlt_dec (Q2R V) 0) as [_|N]; [reflexivity|lra].
    + unfold dsnu_of. unfold xoq, xq, xlt0. destruct (Rlt_dec (Q2R v) 0) as [_|N]; [reflexivity|lra].
Qed.

Lemma dsnu_measured b h w n od ob imgs data s f o k K m :
  sound_orders n h w od -> sound_orders n h w ob -> (0 < inner_pixels h w)%Z ->
  every (stack_bits b h w) imgs -> table2 (table2 series_entry) imgs data ->
  get_spatial h w data = Ok s -> get_spatial_f od ob h w data = Ok f -> o_s o = s ->
  (m <= 100)%nat -> gain o = Ok k -> ordinary (Q2R k) -> right_to m K (Q2R k) ->
  let e := Q2R (part_bound b n h w) in let d := fsp_dark f in
  dark_accurate e (Ok (s_2_y_dark o)) (Ok (s_2_y_f d)) (DSNU1288 o) K m /\
  dark_accurate e (s_2_y_row_dark o) (s_2_y_row_f d) (DSNU1288_row o) K m /\
  dark_accurate e (s_2_y_col_dark o) (s_2_y_col_f d) (DSNU1288_col o) K m /\
  dark_accurate e (s_2_y_pixel_dark o) (s_2_y_pixel_f d) (DSNU1288_pixel o) K m.
Proof.
  intros Od Ob HD F T ES EF EO M EK OK NK e d.
  destruct (whole_lines b h w n od ob imgs data Od Ob HD F T) as [(x & X & _)|(s' & f' & X & Y & L)]; [congruence|].
  rewrite ES in X. injection X as <-. rewrite EF in Y. injection Y as <-.
  destruct (L o EO) as (_ & (t' & c' & r' & p' & x & y & z & E1 & E2 & E3 & E4 & X1 & X2 & X3 & (t & ET & WT) & (c & EC & WC) & (r & ER & WR) & (p & EP & WP))).
  fold d in X1, X2, X3, ET. rewrite E1, E2, E3, E4, X1, X2, X3, ET, EC, ER, EP.
  assert (W : forall a b0, (Qabs (a - b0) <= part_bound b n h w)%Q -> 0 <= e /\ Rabs (Q2R a - Q2R b0) <= e).
  { intros a b0 H. apply Qle_Rle in H. rewrite Q2R_Qabs, Q2R_minus in H. pose proof (Rabs_pos (Q2R a - Q2R b0)). unfold e. lra. }
  split; [|split; [|split]].
  - destruct (W _ _ WT) as (W0 & W1). exists t', t. split; [reflexivity|]. split; [reflexivity|]. unfold DSNU1288. rewrite E1. apply (dsnu_accurate o k); assumption.
  - destruct (W _ _ WR) as (W0 & W1). exists r', r. split; [reflexivity|]. split; [reflexivity|]. unfold DSNU1288_row. rewrite E3. apply (dsnu_accurate o k); assumption.
  - destruct (W _ _ WC) as (W0 & W1). exists c', c. split; [reflexivity|]. split; [reflexivity|]. unfold DSNU1288_col. rewrite E2. apply (dsnu_accurate o k); assumption.
  - destruct (W _ _ WP) as (W0 & W1). exists p', p. split; [reflexivity|]. split; [reflexivity|]. unfold DSNU1288_pixel. rewrite E4. apply (dsnu_accurate o k); assumption.
Qed.
