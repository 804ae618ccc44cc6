(** Rounding errors of the row, column and pixel variances. *)
From Coq Require Import List Bool Arith ZArith QArith Qabs Qreals Reals Lia Lra.
From Flocq Require Import Core.
From Verif Require Import Base_Prelude Base_Num Base_Order Base_Sum Base_Float Spec_Num Proofs_Round
  Proofs_Num Proofs_Float Model_Images Model_Loader Model_Data Model_Hist Model_Rounded
  Model_RoundedSpatial Model_RoundedLines Spec_Images Spec_Data Spec_Rounded Spec_RoundedSpatial Spec_RoundedLines Proofs_Images Proofs_Hist2
  Proofs_Rounded Proofs_Rounded2 Proofs_Rounded3 Proofs_Rounded4 Proofs_RSpatial Proofs_RSpatial2 Proofs_RSpatial3 Proofs_RSpatial4 Proofs_RLines.
Import ListNotations.
Open Scope R_scope.
Set Bullet Behavior "Strict Subproofs".

(** A ratio of integers. *)
Lemma ratio_near a D k : (0 <= a < 2 ^ 53)%Z -> (0 < D < 2 ^ 53)%Z -> IZR a / IZR D <= k -> 1 <= k <= top ->
  near (11 / 10 * (ulp1 * k)) (fdiv (f_int a) (f_int D)) (IZR a / IZR D) /\ 0 <= IZR a / IZR D.
Proof.
  intros Ha HD Hk K. pose proof ulp1_pos as U. pose proof tiny_small as T.
  assert (D0 : 0 < IZR D) by (apply (IZR_lt 0); lia).
  assert (P : 0 <= IZR a / IZR D).
  { unfold Rdiv. apply Rmult_le_pos; [apply (IZR_le 0); lia|]. apply Rlt_le, Rinv_0_lt_compat, D0. }
  split; [|exact P]. exists (rn (IZR a / IZR D)).
  assert (A : Rabs (IZR a / IZR D) <= k) by (rewrite Rabs_pos_eq; assumption). split.
  - apply fdiv_val; try (apply f_int_val_exact; lia); [lra|]. apply le_big. pose proof top_pos. lra.
  - pose proof (rn_abs _ _ A) as E. assert (ulp1 * 1 <= ulp1 * k) by (apply Rmult_le_compat_l; lra). lra.
Qed.

(** The product with a factor of this kind. *)
Lemma near_factor p p' k e y s Y : near (11 / 10 * (ulp1 * k)) p' p -> 0 <= p <= k -> 1 <= k ->
  near e y s -> Rabs s <= Y -> 0 <= e <= Y / 10 -> 1 <= Y -> k * Y <= top ->
  near (k * (101 / 100 * e + 23 / 10 * (ulp1 * Y))) (fmul p' y) (p * s).
Proof.
  intros (q & Q & E1) Hp Hk Ny HY He Y1 T0. destruct (near_abs _ _ _ _ Ny HY) as (v & V & E2 & A).
  pose proof ulp1_pos as U. pose proof tiny_small as T.
  assert (uk : 0 <= ulp1 * k <= k / 1000) by (split; [apply Rmult_le_pos; lra|]; unfold Rdiv; rewrite (Rmult_comm k); apply Rmult_le_compat_r; lra).
  assert (qb : Rabs q <= 1002 / 1000 * k).
  { pose proof (Rabs_triang (q - p) p) as Z. replace (q - p + p) with q in Z by ring. rewrite (Rabs_pos_eq p) in Z by lra. lra. }
  assert (D : Rabs (q * v - p * s) <= k * (1002 / 1000 * e) + k * (11 / 10 * (ulp1 * Y))).
  { replace (q * v - p * s) with (q * (v - s) + (q - p) * s) by ring.
    eapply Rle_trans; [apply Rabs_triang|]. rewrite !Rabs_mult. apply Rplus_le_compat.
    - apply Rle_trans with (1002 / 1000 * k * e); [apply Rmult_le_compat; try apply Rabs_pos; assumption|lra].
    - apply Rle_trans with (11 / 10 * (ulp1 * k) * Y); [apply Rmult_le_compat; try apply Rabs_pos; assumption|lra]. }
  assert (kY : 1 <= k * Y) by nra.
  assert (M : Rabs (q * v) <= 111 / 100 * (k * Y)).
  { rewrite Rabs_mult. apply Rle_trans with (1002 / 1000 * k * (11 / 10 * Y)); [apply Rmult_le_compat; try apply Rabs_pos; lra|lra]. }
  exists (rn (q * v)). split.
  - apply fmul_val; auto. apply le_big. lra.
  - pose proof (rn_abs _ _ M) as R. assert (ulp1 * 1 <= ulp1 * (k * Y)) by (apply Rmult_le_compat_l; lra).
    assert (0 <= k * e) by (apply Rmult_le_pos; lra).
    replace (k * (101 / 100 * e + 23 / 10 * (ulp1 * Y))) with (101 / 100 * (k * e) + 23 / 10 * (ulp1 * (k * Y))) by ring.
    replace (k * (1002 / 1000 * e) + k * (11 / 10 * (ulp1 * Y))) with (1002 / 1000 * (k * e) + 11 / 10 * (ulp1 * (k * Y))) in D by ring.
    pose proof (Rabs_triang (rn (q * v) - q * v) (q * v - p * s)) as Z.
    replace (rn (q * v) - q * v + (q * v - p * s)) with (rn (q * v) - p * s) in Z by ring. lra.
Qed.

Section Parts.
Variables (W e k : R) (vm v cav rav : pyfloat) (rvm rv rcav rrav : R) (L : nat).
Hypothesis W1 : 1 <= W <= IZR (2 ^ 32).
Hypothesis eW : 48 * (ulp1 * W) <= e <= W / 1000.
Hypothesis k1 : 1 <= k <= IZR (2 ^ 30).
Hypothesis Nvm : near e vm rvm.
Hypothesis Nv : near e v rv.
Hypothesis Ncav : near e cav rcav.
Hypothesis Nrav : near e rav rrav.
Hypothesis Bvm : 0 <= rvm <= 2 * W.
Hypothesis Bv : 0 <= rv <= 2 * W.
Hypothesis Bcav : - W <= rcav <= W.
Hypothesis Brav : - W <= rrav <= W.
Hypothesis HL : (2 <= L <= 1000)%nat.
Local Notation u := ulp1.
Let s2y := fsub v (fdiv vm (f_int (Z.of_nat L))).
Let rs := rv - rvm / INR L.

Lemma kW_top c : 0 <= c <= 1000 -> c * (k * W) <= top.
Proof.
  intro C. apply Rle_trans with (1000 * (IZR (2 ^ 30) * IZR (2 ^ 32))).
  - apply Rmult_le_compat; try lra; [apply Rmult_le_pos; lra|]. apply Rmult_le_compat; lra.
  - unfold top. rewrite <- !mult_IZR. apply IZR_le. lia.
Qed.
Lemma W_le_top c : 0 <= c <= 1000 -> c * W <= top.
Proof. intro C. eapply Rle_trans; [|apply (kW_top c C)]. apply Rmult_le_compat_l; [lra|]. nra. Qed.
Lemma uW_pos : 0 < u * W.
Proof. apply Rmult_lt_0_compat; [apply ulp1_pos|lra]. Qed.

Lemma rs_range : - W <= rs <= 2 * W.
Proof.
  unfold rs. assert (2 <= INR L) by (change 2 with (INR 2); apply le_INR; lia).
  assert (0 <= rvm / INR L <= W).
  { assert (0 < / INR L <= / 2) by (split; [apply Rinv_0_lt_compat; lra|apply Rinv_le_contravar; lra]).
    unfold Rdiv. split; [apply Rmult_le_pos; lra|]. apply Rle_trans with (2 * W * / 2); [apply Rmult_le_compat; lra|lra]. }
  lra.
Qed.
Lemma s2y_near : near (15 / 10 * e + 36 / 10 * (u * W)) s2y rs.
Proof.
  pose proof uW_pos as P. pose proof rs_range as R. pose proof (W_le_top 2 ltac:(lra)) as T. pose proof top_pos.
  assert (N : near (e / 2 + 6 / 10 * (u * (2 * W))) (fdiv vm (f_int (Z.of_nat L))) (rvm / INR L)).
  { apply near_divn; [exact Nvm|rewrite Rabs_pos_eq; lra|lra|lra|lia|lia]. }
  eapply near_le; [|apply (near_sub _ _ _ _ _ _ (2 * W) Nv N)].
  - lra.
  - fold rs. apply Rabs_le. lra.
  - lra.
  - lra.
Qed.
Lemma less_near z rz : near e z rz -> - W <= rz <= W -> near (25 / 10 * e + 72 / 10 * (u * W)) (fsub s2y z) (rs - rz).
Proof.
  intros N B. pose proof uW_pos as P. pose proof rs_range as R. pose proof (W_le_top 3 ltac:(lra)) as T. pose proof top_pos.
  eapply near_le; [|apply (near_sub _ _ _ _ _ _ (3 * W) s2y_near N)].
  - lra.
  - apply Rabs_le. lra.
  - lra.
  - lra.
Qed.

(** Rows and columns. *)
Lemma line_part p1 r1 p2 r2 x rx y ry :
  near (11 / 10 * (ulp1 * k)) p1 r1 -> 0 <= r1 <= k -> near (11 / 10 * (ulp1 * k)) p2 r2 -> 0 <= r2 <= k ->
  near e x rx -> - W <= rx <= W -> near e y ry -> - W <= ry <= W ->
  near (4 * k * e) (fsub (fmul p1 x) (fmul p2 (fsub s2y y))) (r1 * rx - r2 * (rs - ry)).
Proof.
  intros P1 R1 P2 R2 X RX Y RY. pose proof uW_pos as P. pose proof rs_range as R. pose proof ulp1_pos as U.
  assert (F1 : near (k * (101 / 100 * e + 23 / 10 * (ulp1 * W))) (fmul p1 x) (r1 * rx)).
  { apply near_factor; try assumption; try lra; [apply Rabs_le; lra|]. pose proof (kW_top 1 ltac:(lra)). lra. }
  assert (F2 : near (k * (101 / 100 * (25 / 10 * e + 72 / 10 * (u * W)) + 23 / 10 * (ulp1 * (3 * W)))) (fmul p2 (fsub s2y y)) (r2 * (rs - ry))).
  { apply near_factor; try assumption; try lra.
    - apply less_near; assumption.
    - apply Rabs_le. lra.
    - pose proof (kW_top 3 ltac:(lra)). lra. }
  assert (ke : k * (48 * (u * W)) <= k * e) by (apply Rmult_le_compat_l; [lra|lra]).
  assert (kew : k * e <= k * (W / 1000)) by (apply Rmult_le_compat_l; lra).
  assert (kuW : 0 < k * (u * W)) by (apply Rmult_lt_0_compat; lra).
  assert (kW : 1 <= k * W) by nra.
  eapply near_le; [|apply (near_sub _ _ _ _ _ _ (4 * (k * W)) F1 F2)].
  - replace (ulp1 * (4 * (k * W))) with (4 * (k * (u * W))) by (ring). 
    replace (k * (101 / 100 * e + 23 / 10 * (u * W)) + k * (101 / 100 * (25 / 10 * e + 72 / 10 * (u * W)) + 23 / 10 * (u * (3 * W))))
      with (3535 / 1000 * (k * e) + (23 / 10 + 101 / 100 * (72 / 10) + 69 / 10) * (k * (u * W))) by field.
    lra.
  - eapply Rle_trans; [apply Rabs_triang|]. rewrite Rabs_Ropp, !Rabs_mult, (Rabs_pos_eq r1), (Rabs_pos_eq r2) by lra.
    assert (r1 * Rabs rx <= k * W) by (apply Rmult_le_compat; try apply Rabs_pos; try lra; apply Rabs_le; lra).
    assert (r2 * Rabs (rs - ry) <= k * (3 * W)) by (apply Rmult_le_compat; try apply Rabs_pos; try lra; apply Rabs_le; lra). lra.
  - replace (k * (101 / 100 * e + 23 / 10 * (u * W)) + k * (101 / 100 * (25 / 10 * e + 72 / 10 * (u * W)) + 23 / 10 * (u * (3 * W))))
      with (3535 / 1000 * (k * e) + (23 / 10 + 101 / 100 * (72 / 10) + 69 / 10) * (k * (u * W))) by field.
    lra.
  - pose proof (kW_top 4 ltac:(lra)). lra.
Qed.

(** Pixels. *)
Lemma single_part p r : near (11 / 10 * (ulp1 * k)) p r -> 0 <= r <= k ->
  near (4 * k * e) (fmul p (fsub (fsub s2y cav) rav)) (r * (rs - rcav - rrav)).
Proof.
  intros P1 R1. pose proof uW_pos as P. pose proof rs_range as R. pose proof ulp1_pos as U.
  pose proof (W_le_top 4 ltac:(lra)) as T.
  assert (N : near (35 / 10 * e + 12 * (u * W)) (fsub (fsub s2y cav) rav) (rs - rcav - rrav)).
  { eapply near_le; [|apply (near_sub _ _ _ _ _ _ (4 * W) (less_near cav rcav Ncav Bcav) Nrav)].
    - lra.
    - apply Rabs_le. lra.
    - lra.
    - lra. }
  eapply near_le; [|apply (near_factor r p k _ _ _ (4 * W) P1 R1 ltac:(lra) N)].
  - assert (ke : k * (48 * (u * W)) <= k * e) by (apply Rmult_le_compat_l; [lra|lra]).
    assert (kuW : 0 < k * (u * W)) by (apply Rmult_lt_0_compat; lra).
    replace (k * (101 / 100 * (35 / 10 * e + 12 * (u * W)) + 23 / 10 * (u * (4 * W))))
      with (3535 / 1000 * (k * e) + (1212 / 100 + 92 / 10) * (k * (u * W))) by field. lra.
  - apply Rabs_le. lra.
  - lra.
  - lra.
  - pose proof (kW_top 4 ltac:(lra)). lra.
Qed.
End Parts.
