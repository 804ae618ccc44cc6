(** The deviations computed from the points of the range against the exact ones. *)
From Coq Require Import List Bool Arith ZArith QArith Qabs Qreals Reals Lia Lra Psatz Permutation.
From Flocq Require Import Core.
From Verif Require Import Base_Prelude Base_Num Base_Order Base_Sum Base_Float Spec_Num Proofs_Round Proofs_Num Proofs_Float
  Model_Data Model_Results Model_Rounded Model_RoundedFigures Model_RoundedLinearity Spec_RoundedLinearity Proofs_Rounded Proofs_RFigures Proofs_Results2 Proofs_Results3
  Proofs_RLinearity2 Proofs_RLinearity3 Proofs_RLinearity4.
Import ListNotations.
Open Scope R_scope.
Set Bullet Behavior "Strict Subproofs".

Lemma over_mul c X w z e : 0 <= c <= 16 -> 0 <= X <= bpow radix2 53 -> 0 <= w <= bpow radix2 e -> (e <= 500)%Z ->
  Rabs z <= c * X * w -> Rabs z <= big.
Proof.
  intros (C0 & C) (X0 & HX) (W0 & HW) E H. eapply Rle_trans; [exact H|].
  apply Rle_trans with (16 * bpow radix2 53 * bpow radix2 e).
  - apply Rmult_le_compat; auto; [apply Rmult_le_pos; auto|]. apply Rmult_le_compat; auto.
  - unfold big. rewrite <- bpow_Z by lia. change 16 with (bpow radix2 4). rewrite <- !bpow_plus. apply bpow_le. lia.
Qed.
Lemma over_div c X w z e : 0 <= c <= 16 -> 0 <= X <= bpow radix2 53 -> bpow radix2 (- e) <= w -> (e <= 500)%Z ->
  Rabs z * w <= c * X -> Rabs z <= big.
Proof.
  intros C HX W E H. apply (over_mul c X (bpow radix2 e) z e); auto; [split; [apply bpow_ge_0|lra]|].
  apply (Rmult_le_reg_r (bpow radix2 (- e))); [apply bpow_gt_0|].
  rewrite (Rmult_assoc (c * X)), <- bpow_plus. replace (e + - e)%Z with 0%Z by lia. change (bpow radix2 0) with 1.
  rewrite Rmult_1_r. eapply Rle_trans; [|exact H]. apply Rmult_le_compat_l; [apply Rabs_pos|exact W].
Qed.

Lemma tiny_bpow : tiny = bpow radix2 (-300).
Proof. unfold tiny. change (-300)%Z with (- (300))%Z. rewrite bpow_opp, bpow_Z by lia. reflexivity. Qed.
Lemma tiny_le A e : bpow radix2 (- e) <= A -> (e <= 247)%Z -> tiny <= ulp1 * A.
Proof.
  intros H E. rewrite tiny_bpow, ulp1_bpow. apply Rle_trans with (bpow radix2 (-53) * bpow radix2 (- e)).
  - rewrite <- bpow_plus. apply bpow_le. lia.
  - apply Rmult_le_compat_l; [apply bpow_ge_0|exact H].
Qed.
Lemma tiny_mul A e : 0 <= A <= bpow radix2 e -> (e <= 247)%Z -> tiny * A <= ulp1.
Proof.
  intros H E. rewrite tiny_bpow, ulp1_bpow. apply Rle_trans with (bpow radix2 (-300) * bpow radix2 e).
  - apply Rmult_le_compat_l; [apply bpow_ge_0|lra].
  - rewrite <- bpow_plus. apply bpow_le. lia.
Qed.
Lemma ulp1_pos : 0 < ulp1.
Proof. rewrite ulp1_bpow. apply bpow_gt_0. Qed.

Lemma fsub_near j e x y A B : fnear j e x A -> fnear j e y B -> 0 < A -> 0 < B -> (j <= 990)%nat -> (e <= 247)%Z ->
  exists r, fval (fsub x y) r /\ Rabs (r - (A - B)) <= INR (j + 4) * ulp1 * (A + B).
Proof.
  intros (a & Va & NA) (b & Vb & NB) A0 B0 J E. pose proof NA as (RA & SA). pose proof NB as (RB & SB).
  apply rel_to in RA, RB; try lia. rewrite unit_ulp1 in RA, RB. rewrite (Rabs_pos_eq A) in RA by lra. rewrite (Rabs_pos_eq B) in RB by lra.
  set (g := INR (S j) * ulp1) in *.
  assert (G1 : 0 <= g <= 1).
  { unfold g. split; [apply Rmult_le_pos; [apply pos_INR|pose proof ulp1_pos; lra]|].
    apply Rle_trans with (INR 1000 * ulp1); [apply Rmult_le_compat_r; [pose proof ulp1_pos; lra|apply le_INR; lia]|].
    rewrite INR_IZR_INZ. unfold ulp1. cbn. lra. }
  assert (D : Rabs ((a - b) - (A - B)) <= g * (A + B)).
  { replace ((a - b) - (A - B)) with ((a - A) - (b - B)) by ring. pose proof (Rabs_minus_of _ _ _ _ RA RB). lra. }
  assert (SZ : Rabs (a - b) <= 2 * (A + B)).
  { replace (a - b) with ((A - B) + ((a - b) - (A - B))) by ring. eapply Rle_trans; [apply Rabs_triang|].
    assert (Rabs (A - B) <= A + B) by (apply Rabs_le; lra). assert (g * (A + B) <= 1 * (A + B)) by (apply Rmult_le_compat_r; lra). lra. }
  exists (rn (a - b)). split.
  - apply fsub_val; auto. eapply Rle_trans; [exact SZ|]. destruct SA as (_ & SA), SB as (_ & SB).
    rewrite Rabs_pos_eq in SA, SB by lra. apply Rle_trans with (bpow radix2 2 * bpow radix2 e); [change (bpow radix2 2) with 4; lra|].
    unfold big. rewrite <- bpow_Z by lia. rewrite <- bpow_plus. apply bpow_le. lia.
  - pose proof (rn_err (a - b)) as RN. destruct SA as (SA & _). rewrite Rabs_pos_eq in SA by lra.
    pose proof (tiny_le A e SA E). assert (ulp1 * Rabs (a - b) <= ulp1 * (2 * (A + B))) by (apply Rmult_le_compat_l; [pose proof ulp1_pos; lra|exact SZ]).
    replace (rn (a - b) - (A - B)) with ((rn (a - b) - (a - b)) + ((a - b) - (A - B))) by ring.
    eapply Rle_trans; [apply Rabs_triang|]. replace (INR (j + 4) * ulp1 * (A + B)) with (g * (A + B) + 3 * (ulp1 * (A + B))).
    + assert (0 <= ulp1 * B) by (apply Rmult_le_pos; [pose proof ulp1_pos; lra|lra]). lra.
    + unfold g. replace (j + 4)%nat with (S j + 3)%nat by lia. rewrite plus_INR. cbn [INR]. ring.
Qed.

(** A term of a sum of nonnegative numbers. *)
Lemma lsumq_in (l : list Q) q : Forall (fun q => (0 <= q)%Q) l -> In q l -> Q2R q <= Q2R (lsumq l).
Proof.
  intros F I. apply Qle_Rle. revert I. induction F as [|x l H F IH]; intros []; cbn [lsumq].
  - subst. rewrite <- (Qplus_0_r q) at 1. apply Qplus_le_compat; [apply Qle_refl|].
    clear - F. induction F as [|x l H F IH]; cbn [lsumq]; [apply Qle_refl|]. rewrite <- (Qplus_0_r 0). apply Qplus_le_compat; assumption.
  - rewrite <- (Qplus_0_l q). apply Qplus_le_compat; auto.
Qed.
Lemma lsumq_le {A} (l : list A) (f : A -> Q) c : (forall q, In q l -> Q2R (f q) <= c) -> Q2R (lsumq (map f l)) <= INR (length l) * c.
Proof.
  induction l as [|x l IH]; intro H; [cbn; rewrite Q2R_0; lra|]. cbn [map lsumq length]. rewrite Q2R_plus, S_INR.
  pose proof (H x (or_introl eq_refl)). specialize (IH (fun q I => H q (or_intror I))). lra.
Qed.
Lemma sq_le a p : 0 < p -> a * a <= p * p -> a <= p.
Proof. intros. nra. Qed.

Lemma Q2R_qn n : Q2R (qn n) = INR n.
Proof. unfold qn. rewrite Q2R_inject_Z, INR_IZR_INZ. reflexivity. Qed.

Lemma bound_value kappa n j : Q2R (linearity_bound kappa n j) = 20000 * ((2 * INR n + 4 * INR j + 13) * ulp1 * (INR n * (Q2R kappa * Q2R kappa))).
Proof.
  unfold linearity_bound. rewrite Q2R_div by discriminate. rewrite !Q2R_mult, !Q2R_plus, !Q2R_mult, !Q2R_inject_Z, !Q2R_qn.
  unfold ulp1, Rdiv. ring.
Qed.

Section Accuracy.
Variables (PF : list (pyfloat * pyfloat)) (P : list (Q * Q)) (order : nat -> stree) (kappa : Q) (j : nat).
Hypotheses (J100 : (S j <= 100)%nat) (SO : sound_sums order) (HF : Forall2 (fpoint (S j)) PF P) (N200 : (0 < length P <= 200)%nat).
Hypothesis HM : Forall (fun q => moderate (fst q) /\ moderate (snd q)) P.
Hypotheses (HK : (1 <= kappa)%Q) (HS : levels_spread kappa P) (HB : (linearity_bound kappa (length P) j <= 100)%Q).

Local Notation Q1 := (lsumq (map (fun p => fst p / snd p)%Q P)).
Local Notation Q2 := (lsumq (map (fun p => fst p / (snd p * snd p))%Q P)).
Local Notation Q3 := (lsumq (map (fun p => (fst p / snd p) * (fst p / snd p))%Q P)).
Local Notation Q4 := (lsumq (map (fun p => 1 / snd p)%Q P)).
Local Notation Q5 := (lsumq (map (fun p => 1 / (snd p * snd p))%Q P)).
Local Notation fs := (fit_sums order PF (map snd PF)).
Local Notation n := (INR (length P)).
Local Notation k := (Q2R kappa).
Local Notation G := ((2 * n + 4 * INR j + 13) * ulp1).
Local Notation p := (sqrt (Q2R Q3)).
Local Notation s := (sqrt (Q2R Q5)).

Definition exact_offset : Q := ((Q1 * Q2 - Q3 * Q4) / (Q2 * Q2 - Q3 * Q5))%Q.
Definition exact_slope : Q := ((Q1 - exact_offset * Q2) / Q3)%Q.

Lemma pp : p * p = Q2R Q3.
Proof. apply sqrt_sqrt. destruct (sum3 (S j) PF P order J100 SO HF N200 HM) as (H & _). lra. Qed.
Lemma ss : s * s = Q2R Q5.
Proof. apply sqrt_sqrt. destruct (sum5 (S j) PF P order J100 SO HF N200 HM) as (H & _). lra. Qed.
Lemma p_size : 0 < p /\ bpow radix2 (- (128)) <= p <= bpow radix2 128.
Proof.
  destruct (sum3 (S j) PF P order J100 SO HF N200 HM) as (H & r & _ & _ & S). assert (P0 : 0 < p) by (apply sqrt_lt_R0; exact H).
  split; [exact P0|]. apply size_sqrt in S; [|lia|exact H]. unfold size in S. rewrite Rabs_pos_eq in S by lra. exact S.
Qed.
Lemma s_size : 0 < s /\ bpow radix2 (- (68)) <= s <= bpow radix2 68.
Proof.
  destruct (sum5 (S j) PF P order J100 SO HF N200 HM) as (H & r & _ & _ & S). assert (P0 : 0 < s) by (apply sqrt_lt_R0; exact H).
  split; [exact P0|]. apply size_sqrt in S; [|lia|exact H]. unfold size in S. rewrite Rabs_pos_eq in S by lra. exact S.
Qed.
Lemma n1 : 1 <= n.
Proof. change 1 with (INR 1). apply le_INR. lia. Qed.
Lemma k1 : 1 <= k.
Proof. rewrite <- Q2R_one. apply Qle_Rle, HK. Qed.
Lemma spread : p * p * (s * s) <= k * (p * p * (s * s) - Q2R Q2 * Q2R Q2).
Proof.
  pose proof (Qle_Rle _ _ HS) as H. cbv zeta in H. rewrite !Q2R_mult, Q2R_minus, !Q2R_mult in H. rewrite pp, ss. exact H.
Qed.
Lemma cauchy : 0 <= Q2R Q2 <= p * s.
Proof.
  destruct (sum2 (S j) PF P order J100 SO HF N200 HM) as (H & _). split; [lra|]. destruct p_size as (P0 & _), s_size as (S0 & _).
  apply sq_le; [apply Rmult_lt_0_compat; assumption|]. replace (p * s * (p * s)) with (p * p * (s * s)) by ring.
  pose proof spread as SP. pose proof k1. set (W := p * p * (s * s)) in *.
  assert (W0 : 0 < W) by (unfold W; repeat apply Rmult_lt_0_compat; assumption).
  assert (0 <= W - Q2R Q2 * Q2R Q2); [|lra]. apply (Rmult_le_reg_l k); lra.
Qed.
Lemma guard : 200 * (G * n * (k * k)) <= 1.
Proof.
  pose proof (Qle_Rle _ _ HB) as H. rewrite bound_value in H. replace (Q2R 100) with 100 in H by (unfold Q2R; simpl; lra). lra.
Qed.
Lemma ulp_G : 6 * ulp1 <= G.
Proof. pose proof n1. pose proof (pos_INR j). apply Rmult_le_compat_r; [pose proof ulp1_pos; lra|lra]. Qed.
Lemma nk_size : 0 <= n * k <= bpow radix2 53.
Proof.
  pose proof n1. pose proof k1. pose proof ulp1_pos. pose proof guard as GK. pose proof ulp_G.
  split; [apply Rmult_le_pos; lra|]. assert (X : ulp1 * (n * k) <= 1).
  { assert (n * k <= n * (k * k)) by (apply Rmult_le_compat_l; [lra|nra]).
    assert (0 <= n * (k * k)) by nra. assert (ulp1 * (n * (k * k)) <= G * (n * (k * k))) by (apply Rmult_le_compat_r; lra).
    assert (ulp1 * (n * k) <= ulp1 * (n * (k * k))) by (apply Rmult_le_compat_l; lra). lra. }
  rewrite ulp1_bpow in X. apply (Rmult_le_reg_l (bpow radix2 (-53))); [apply bpow_gt_0|]. rewrite <- bpow_plus. exact X.
Qed.

Lemma point_le q : In q P -> 0 < Q2R (fst q) /\ 0 < Q2R (snd q) /\ size 30 (Q2R (snd q)) /\ size 30 (Q2R (fst q)) /\
  Q2R (fst q / snd q) = Q2R (fst q) / Q2R (snd q) /\ Q2R (1 / snd q) = 1 / Q2R (snd q) /\
  Q2R (fst q) / Q2R (snd q) <= p /\ 1 / Q2R (snd q) <= s.
Proof.
  intro I. pose proof HM as M. rewrite Forall_forall in M.
  assert (POS : forall q, In q P -> 0 < Q2R (fst q) /\ 0 < Q2R (snd q) /\ ~ (snd q == 0)%Q /\ ~ (snd q * snd q == 0)%Q).
  { intros q' I'. destruct (M q' I') as (M1 & M2). destruct (moderate_size _ M1) as (X0 & _), (moderate_size _ M2) as (Y0 & _).
    pose proof (moderate_nz _ M2). do 3 (split; [assumption|]). let h := fresh in intro h; apply Qmult_integral in h; tauto. }
  destruct (M q I) as (M1 & M2). destruct (moderate_size _ M1) as (X0 & XS), (moderate_size _ M2) as (Y0 & YS).
  destruct (POS q I) as (_ & _ & YN & YYN).
  assert (E1 : Q2R (fst q / snd q) = Q2R (fst q) / Q2R (snd q)) by (apply Q2R_div, YN).
  assert (E2 : Q2R (1 / snd q) = 1 / Q2R (snd q)) by (rewrite Q2R_div by exact YN; rewrite Q2R_one; reflexivity).
  do 6 (split; [assumption|]). destruct p_size as (P0 & _), s_size as (S0 & _). split.
  - apply sq_le; [exact P0|]. rewrite pp, <- E1, <- Q2R_mult.
    apply lsumq_in; [|apply (in_map (fun p => (fst p / snd p) * (fst p / snd p))%Q); exact I].
    apply Forall_map, Forall_forall. intros q' _. apply Rle_Qle. rewrite Q2R_0, Q2R_mult. nra.
  - apply sq_le; [exact S0|]. rewrite ss.
    replace (1 / Q2R (snd q) * (1 / Q2R (snd q))) with (Q2R (1 / (snd q * snd q)%Q)).
    + apply lsumq_in; [|apply (in_map (fun p => 1 / (snd p * snd p))%Q); exact I].
      apply Forall_map, Forall_forall. intros q' I'. destruct (POS q' I') as (_ & Y' & _ & N'). apply Rle_Qle.
      rewrite Q2R_div by exact N'. rewrite Q2R_0, Q2R_one, Q2R_mult. apply Rlt_le, Rdiv_lt_0_compat; [lra|apply Rmult_lt_0_compat; exact Y'].
    + rewrite Q2R_div by exact YYN. rewrite Q2R_one, Q2R_mult. field. lra.
Qed.
Lemma sp_size : 0 <= Q2R Q1 <= n * p.
Proof.
  destruct (sum1 (S j) PF P order J100 SO HF N200 HM) as (H & _). split; [lra|]. apply lsumq_le. intros q I.
  destruct (point_le q I) as (_ & _ & _ & _ & E & _ & H1 & _). rewrite E. exact H1.
Qed.
Lemma sq_size : 0 <= Q2R Q4 <= n * s.
Proof.
  destruct (sum4 (S j) PF P order J100 SO HF N200 HM) as (H & _). split; [lra|]. apply lsumq_le. intros q I.
  destruct (point_le q I) as (_ & _ & _ & _ & _ & E & _ & H1). rewrite E. exact H1.
Qed.

Lemma det_nzq : ~ (Q2 * Q2 - Q3 * Q5 == 0)%Q.
Proof.
  intro E. apply Qeq_eqR in E. rewrite Q2R_minus, !Q2R_mult, Q2R_0 in E. rewrite <- pp, <- ss in E.
  destruct p_size as (P0 & _), s_size as (S0 & _). exact (det_nz k p s (Q2R Q2) k1 P0 S0 spread E).
Qed.
Lemma q3_nz : ~ (Q3 == 0)%Q.
Proof. intro E. apply Qeq_eqR in E. rewrite Q2R_0 in E. destruct (sum3 (S j) PF P order J100 SO HF N200 HM) as (H & _). lra. Qed.
Lemma offset_R : Q2R exact_offset = (Q2R Q1 * Q2R Q2 - p * p * Q2R Q4) / (Q2R Q2 * Q2R Q2 - p * p * (s * s)).
Proof. unfold exact_offset. rewrite Q2R_div by exact det_nzq. rewrite !Q2R_minus, !Q2R_mult, pp, ss. reflexivity. Qed.
Lemma slope_R : Q2R exact_slope = (Q2R Q1 - Q2R exact_offset * Q2R Q2) / (p * p).
Proof. unfold exact_slope. rewrite Q2R_div by exact q3_nz. rewrite !Q2R_minus, !Q2R_mult, pp. reflexivity. Qed.

Lemma exact_fit : relative_fit P (map snd P) = Some (exact_slope, exact_offset).
Proof.
  unfold relative_fit. rewrite !map_map.
  assert (E0 : existsb (fun y => Qeq_bool y 0) (map snd P) = false).
  { destruct (existsb _ _) eqn:E; [|reflexivity]. apply existsb_exists in E. destruct E as (y & I & E). apply Qeq_bool_eq in E.
    apply in_map_iff in I. destruct I as (q & <- & I). pose proof HM as M. rewrite Forall_forall in M. destruct (M q I) as (_ & M2).
    destruct (moderate_nz _ M2 E). }
  rewrite E0. unfold qdiv_o.
  assert (F1 : Qeq_bool (Q2 * Q2 - Q3 * Q5) 0 = false) by (apply Qeq_bool_false; exact det_nzq).
  assert (F2 : Qeq_bool Q3 0 = false) by (apply Qeq_bool_false; exact q3_nz). rewrite F1, F2. reflexivity.
Qed.

Lemma near_G i e r A : near i e r A -> 0 < A -> (i <= length P + 2 + 2 * S j)%nat -> Rabs (r - A) <= G * A.
Proof.
  intros (R & _) A0 J. pose proof (rel_to i r A ltac:(lia) R) as H. rewrite unit_ulp1, (Rabs_pos_eq A) in H by lra.
  eapply Rle_trans; [exact H|]. apply Rmult_le_compat_r; [lra|]. apply Rmult_le_compat_r; [pose proof ulp1_pos; lra|].
  apply Rle_trans with (INR (length P + 3 + 2 * S j)); [apply le_INR; lia|]. rewrite !plus_INR, mult_INR, (S_INR j). cbn [INR]. pose proof n1. pose proof (pos_INR j). lra.
Qed.

Lemma num_computed : exists N', fval (fsub (fmul (fs_xy fs) (fs_xy2 fs)) (fmul (fs_x2y2 fs) (fs_y fs))) N' /\
  Rabs (N' - (Q2R Q1 * Q2R Q2 - p * p * Q2R Q4)) <= G * (2 * n * (p * p * s)).
Proof.
  destruct (sum1 (S j) PF P order J100 SO HF N200 HM) as (A1 & F1). destruct (sum2 (S j) PF P order J100 SO HF N200 HM) as (A2 & F2).
  destruct (sum3 (S j) PF P order J100 SO HF N200 HM) as (A3 & F3). destruct (sum4 (S j) PF P order J100 SO HF N200 HM) as (A4 & F4).
  pose proof (fmul_near _ _ _ _ _ _ _ _ F1 F2 ltac:(lia) ltac:(lia)) as M1.
  pose proof (fmul_near _ _ _ _ _ _ _ _ F3 F4 ltac:(lia) ltac:(lia)) as M2.
  destruct (fsub_near (S (length P + 2 + 2 * S j + (length P + 2 + 2 * S j))) (68 + 98) _ _ _ _ M1 M2) as (r & V & H);
    [apply Rmult_lt_0_compat; assumption|apply Rmult_lt_0_compat; assumption|lia|lia|].
  exists r. split; [exact V|]. rewrite pp. eapply Rle_trans; [exact H|].
  replace (INR (S (length P + 2 + 2 * S j + (length P + 2 + 2 * S j)) + 4) * ulp1) with G.
  - apply Rmult_le_compat_l; [pose proof ulp_G; pose proof ulp1_pos; lra|]. rewrite <- pp at 1. pose proof pp as PP.
    replace (2 * n * (Q2R Q3 * s)) with (2 * n * (p * p * s)) by (rewrite PP; reflexivity).
    apply num_size; [exact sp_size|exact sq_size|exact cauchy].
  - f_equal. rewrite plus_INR, S_INR, !plus_INR, !mult_INR, !(S_INR j). cbn [INR]. ring.
Qed.
Lemma den_computed : exists D', fval (fsub (fsq (fs_xy2 fs)) (fmul (fs_x2y2 fs) (fs_y2 fs))) D' /\
  Rabs (D' - (Q2R Q2 * Q2R Q2 - p * p * (s * s))) <= G * (2 * (p * p * (s * s))).
Proof.
  destruct (sum2 (S j) PF P order J100 SO HF N200 HM) as (A2 & F2).
  destruct (sum3 (S j) PF P order J100 SO HF N200 HM) as (A3 & F3). destruct (sum5 (S j) PF P order J100 SO HF N200 HM) as (A5 & F5).
  pose proof (fmul_near _ _ _ _ _ _ _ _ F2 F2 ltac:(lia) ltac:(lia)) as M1.
  pose proof (fmul_near _ _ _ _ _ _ _ _ F3 F5 ltac:(lia) ltac:(lia)) as M2.
  destruct (fsub_near (S (length P + 2 + 2 * S j + (length P + 2 + 2 * S j))) (98 + 98) _ _ _ _ M1 M2) as (r & V & H);
    [apply Rmult_lt_0_compat; assumption|apply Rmult_lt_0_compat; assumption|lia|lia|].
  exists r. split; [exact V|]. rewrite pp, ss. eapply Rle_trans; [exact H|].
  replace (INR (S (length P + 2 + 2 * S j + (length P + 2 + 2 * S j)) + 4) * ulp1) with G.
  - apply Rmult_le_compat_l; [pose proof ulp_G; pose proof ulp1_pos; lra|]. pose proof (det_size p s (Q2R Q2) cauchy) as H2.
    rewrite pp, ss in H2. exact H2.
  - f_equal. rewrite plus_INR, S_INR, !plus_INR, !mult_INR, !(S_INR j). cbn [INR]. ring.
Qed.

Local Notation bf := (fit_offset_f fs).
Local Notation af := (fit_slope_f fs bf).

Lemma deviation_near u q y' : fval (fst u) (Q2R (fst q)) -> fval (snd u) y' -> Rabs (y' - Q2R (snd q)) <= INR j * ulp1 * Q2R (snd q) -> In q P ->
  (snd q / 2 <= exact_slope * fst q + exact_offset)%Q ->
  exists d, fval (deviation_f af bf (fst u) (snd u)) d /\
    Rabs (d - Q2R (100 * (snd q - (exact_slope * fst q + exact_offset)) / (exact_slope * fst q + exact_offset))) <= Q2R (linearity_bound kappa (length P) j).
Proof.
  intros VX VY EY I HALF. destruct (point_le q I) as (X0 & Y0 & YS & XS & _ & _ & HP & HQ).
  destruct num_computed as (N' & VN & EN), den_computed as (D' & VD & ED).
  destruct (sum1 (S j) PF P order J100 SO HF N200 HM) as (A1 & hp & Vp & R1). apply near_G in R1; [|exact A1|lia].
  destruct (sum2 (S j) PF P order J100 SO HF N200 HM) as (A2 & hpq & Vpq & R2). apply near_G in R2; [|exact A2|lia].
  destruct (sum3 (S j) PF P order J100 SO HF N200 HM) as (A3 & hpp & Vpp & R3). apply near_G in R3; [|exact A3|lia]. rewrite <- pp in R3.
  destruct p_size as (P0 & PL & PU), s_size as (S0 & SL & SU). pose proof n1 as N1. pose proof k1 as K1. pose proof ulp1_pos as U0.
  pose proof ulp_G as UG. pose proof guard as GK. pose proof sp_size as HSp. pose proof sq_size as HSq. pose proof cauchy as HSpq. pose proof spread as C.
  pose proof nk_size as NK.
  assert (T0 : 0 <= tiny) by (rewrite tiny_bpow; apply bpow_ge_0).
  assert (Tb : tiny * s <= ulp1) by (apply (tiny_mul s 68); [split; lra|lia]).
  assert (Ta : tiny <= ulp1 * p) by (apply (tiny_le p 128); [lra|lia]).
  assert (Taa : tiny * p <= ulp1) by (apply (tiny_mul p 128); [split; lra|lia]).
  unfold size in YS. rewrite Rabs_pos_eq in YS by lra.
  assert (Ty : tiny <= ulp1 * Q2R (snd q)) by (apply (tiny_le _ 30); [lra|lia]).
  assert (T1 : tiny <= ulp1) by (rewrite <- (Rmult_1_r tiny); apply (tiny_mul 1 0); [split; [lra|cbn; lra]|lia]).
  set (z := N' / D'). set (b' := rn z). set (w := rn (b' * hpq)). set (d := rn (hp - w)). set (a' := rn (d / hpp)).
  destruct (fit_sizes n k G ulp1 tiny p s (Q2R Q1) (Q2R Q2) (Q2R Q4) N1 K1 U0 UG GK P0 S0 HSp HSq HSpq C Tb Ta rn N' D' z b' hp hpq hpp w d a'
    rn_err EN ED R1 R2 R3 eq_refl eq_refl eq_refl eq_refl eq_refl) as (DN & B1 & B2 & B3 & PN & B4).
  assert (Vb : fval bf b') by (apply fdiv_val; auto; apply (over_div 3 (n * k) s z 68); auto; [lra|lia]).
  assert (Vw : fval (fmul bf (fs_xy2 fs)) w) by (apply fmul_val; auto; apply (over_mul 4 (n * k) p _ 128); auto; [lra|split; lra|lia]).
  assert (Vd : fval (fsub (fs_xy fs) (fmul bf (fs_xy2 fs))) d) by (apply fsub_val; auto; apply (over_mul 5 (n * k) p _ 128); auto; [lra|split; lra|lia]).
  assert (Va : fval af a') by (apply fdiv_val; auto; apply (over_div 5 (n * k) p _ 128); auto; [lra|lia]).
  set (x := Q2R (fst q)) in *. set (y := Q2R (snd q)) in *. set (ax := rn (a' * x)). set (v := rn (ax + b')).
  destruct (point_sizes n k G ulp1 tiny p s (Q2R Q1) (Q2R Q2) (Q2R Q4) N1 K1 U0 UG GK P0 S0 HSp HSq HSpq C Tb Ta Taa rn N' D' z b' hp hpq hpp w d a'
    rn_err EN ED R1 R2 R3 eq_refl eq_refl eq_refl eq_refl eq_refl x y ax v Y0 X0 HP HQ Ty eq_refl eq_refl) as (B5 & B6 & B7).
  assert (Vax : fval (fmul af (fst u)) ax) by (apply fmul_val; auto; apply (over_mul 5 (n * k) y _ 30); auto; [lra|split; lra|lia]).
  assert (Vv : fval (fadd (fmul af (fst u)) bf) v) by (apply fadd_val; auto; apply (over_mul 9 (n * k) y _ 30); auto; [lra|split; lra|lia]).
  apply Qle_Rle in HALF. rewrite Q2R_div in HALF by discriminate. rewrite Q2R_plus, Q2R_mult in HALF.
  replace (Q2R 2) with 2 in HALF by (unfold Q2R; simpl; lra). fold x y in HALF.
  assert (LP : ~ (exact_slope * fst q + exact_offset == 0)%Q).
  { intro E. apply Qeq_eqR in E. rewrite Q2R_plus, Q2R_mult, Q2R_0 in E. fold x in E. lra. }
  rewrite Q2R_div by exact LP. rewrite Q2R_mult, Q2R_minus, Q2R_plus, Q2R_mult. fold x y.
  replace (Q2R 100) with 100 by (unfold Q2R; simpl; lra). rewrite bound_value.
  assert (EYG : Rabs (y' - y) <= G * y).
  { eapply Rle_trans; [exact EY|]. apply Rmult_le_compat_r; [lra|]. apply Rmult_le_compat_r; [lra|]. pose proof (pos_INR j). lra. }
  rewrite slope_R, offset_R in *. set (r := rn (y' - v)). set (h := rn (100 * r)). set (e := rn (h / v)).
  destruct (point_dev n k G ulp1 tiny p s (Q2R Q1) (Q2R Q2) (Q2R Q4) N1 K1 U0 UG GK P0 S0 HSp HSq HSpq C T0 Tb Ta Taa rn N' D' z b' hp hpq hpp w d a'
    rn_err EN ED R1 R2 R3 eq_refl eq_refl eq_refl eq_refl eq_refl x y ax v Y0 X0 HP HQ Ty eq_refl eq_refl y' r h e HALF T1 EYG eq_refl eq_refl eq_refl)
    as (V0 & B8 & B9 & B10 & DEV).
  rewrite (Rabs_pos_eq v) in B7 by lra.
  assert (BV : 300 * v <= big).
  { apply Rle_trans with (bpow radix2 9 * (bpow radix2 4 * bpow radix2 53 * bpow radix2 30)).
    - apply Rmult_le_compat; [lra|lra|cbn; lra|]. eapply Rle_trans; [exact B7|]. apply Rmult_le_compat; try lra.
      apply Rmult_le_compat; try lra. cbn; lra.
    - unfold big. rewrite <- bpow_Z by lia. rewrite <- !bpow_plus. apply bpow_le. lia. }
  assert (Vr : fval (fsub (snd u) (fadd (fmul af (fst u)) bf)) r) by (apply fsub_val; auto; lra).
  assert (Vh : fval (fmul (f_int 100) (fsub (snd u) (fadd (fmul af (fst u)) bf))) h).
  { apply fmul_val; auto; [apply (f_int_val_exact 100); cbn; lia|lra]. }
  exists e. split; [|exact DEV]. unfold deviation_f. cbv zeta. apply fdiv_val; auto; [lra|]. eapply Rle_trans; [exact B10|].
  unfold big. apply IZR_le. apply Z.le_trans with (2 ^ 10)%Z; [lia|apply Z.pow_le_mono_r; lia].
Qed.
End Accuracy.
