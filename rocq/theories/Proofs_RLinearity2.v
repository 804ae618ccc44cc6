(** Error analysis of the linearity fit over the real numbers: [n] points, normal equations of
    condition [k], sums right up to the part [G]. *)
From Coq Require Import Reals Lra Psatz.
Open Scope R_scope.

Lemma Rabs_div_le x d m : 0 < m -> m <= Rabs d -> Rabs (x / d) <= Rabs x / m.
Proof.
  intros M D. unfold Rdiv. rewrite Rabs_mult, Rabs_inv. apply Rmult_le_compat_l; [apply Rabs_pos|].
  apply Rinv_le_contravar; assumption.
Qed.

Lemma Rabs_sum3 a b c A B C : Rabs a <= A -> Rabs b <= B -> Rabs c <= C -> Rabs (a + b + c) <= A + B + C.
Proof.
  intros. eapply Rle_trans; [apply Rabs_triang|]. apply Rplus_le_compat; [|assumption].
  eapply Rle_trans; [apply Rabs_triang|]. apply Rplus_le_compat; assumption.
Qed.
Lemma Rabs_sum2 a b A B : Rabs a <= A -> Rabs b <= B -> Rabs (a + b) <= A + B.
Proof. intros. eapply Rle_trans; [apply Rabs_triang|]. apply Rplus_le_compat; assumption. Qed.
Lemma Rabs_prod a b A B : Rabs a <= A -> Rabs b <= B -> Rabs (a * b) <= A * B.
Proof. intros. rewrite Rabs_mult. apply Rmult_le_compat; auto using Rabs_pos. Qed.
Lemma Rabs_minus_of a b A B : Rabs a <= A -> Rabs b <= B -> Rabs (a - b) <= A + B.
Proof. intros HA HB. unfold Rminus. apply Rabs_sum2; [exact HA|rewrite Rabs_Ropp; exact HB]. Qed.

Section Fit.
Variables (n k G u t : R) (p s Sp Spq Sq : R).
Hypotheses (N1 : 1 <= n) (K1 : 1 <= k) (U0 : 0 < u) (UG : 6 * u <= G) (GK : 200 * (G * n * (k * k)) <= 1).
Hypotheses (P0 : 0 < p) (S0 : 0 < s).
Hypotheses (HSp : 0 <= Sp <= n * p) (HSq : 0 <= Sq <= n * s) (HSpq : 0 <= Spq <= p * s).
Hypothesis C : p * p * (s * s) <= k * (p * p * (s * s) - Spq * Spq).
(** The error of rounding near 0. *)
Hypotheses (T0 : 0 <= t) (Tb : t * s <= u) (Ta : t <= u * p) (Taa : t * p <= u).

Let W := p * p * (s * s).
Let Nb := Sp * Spq - p * p * Sq.
Let D := Spq * Spq - p * p * (s * s).
Let b := Nb / D.
Let a := (Sp - b * Spq) / (p * p).

Lemma W0 : 0 < W. Proof. unfold W. repeat apply Rmult_lt_0_compat; assumption. Qed.
Lemma G0 : 0 < G. Proof. lra. Qed.
Lemma nk : 1 <= n * k /\ n * k <= n * (k * k) /\ k <= n * (k * k) /\ n <= n * k /\ k <= n * k.
Proof.
  assert (n * 1 <= n * k) by (apply Rmult_le_compat_l; lra).
  assert (n * k * 1 <= n * k * k) by (apply Rmult_le_compat_l; lra).
  assert (1 * k <= n * k) by (apply Rmult_le_compat_r; lra).
  repeat split; lra.
Qed.
Lemma small : G * k <= / 200 /\ G * (n * k) <= / 200 /\ G * (n * (k * k)) <= / 200 /\ G <= / 200.
Proof.
  pose proof G0. destruct nk as (A & B & E & F & H').
  assert (X : G * (n * (k * k)) <= / 200) by lra.
  assert (G * (n * k) <= G * (n * (k * k))) by (apply Rmult_le_compat_l; lra).
  assert (G * k <= G * (n * (k * k))) by (apply Rmult_le_compat_l; lra).
  assert (G * 1 <= G * (n * k)) by (apply Rmult_le_compat_l; lra).
  repeat split; lra.
Qed.

Lemma det_low : W / k <= - D.
Proof.
  unfold D, W in *. apply (Rmult_le_reg_r k); [lra|]. unfold Rdiv. rewrite Rmult_assoc, Rinv_l by lra. lra.
Qed.
Lemma abs_det : W / k <= Rabs D.
Proof. pose proof det_low. rewrite <- Rabs_Ropp. eapply Rle_trans; [eassumption|apply Rle_abs]. Qed.
Lemma det_nz : D <> 0.
Proof. intro E. pose proof abs_det as A. rewrite E, Rabs_R0 in A. pose proof W0. assert (0 < W / k) by (apply Rdiv_lt_0_compat; lra). lra. Qed.
Lemma num_size : Sp * Spq + p * p * Sq <= 2 * n * (p * p * s).
Proof.
  assert (Sp * Spq <= n * p * (p * s)) by (apply Rmult_le_compat; lra).
  assert (p * p * Sq <= p * p * (n * s)) by (apply Rmult_le_compat_l; [nra|lra]). nra.
Qed.
Lemma det_size : Spq * Spq + p * p * (s * s) <= 2 * W.
Proof. assert (Spq * Spq <= p * s * (p * s)) by (apply Rmult_le_compat; lra). unfold W. nra. Qed.
Lemma b_size : Rabs b * s <= 2 * (n * k).
Proof.
  assert (E : Rabs b <= 2 * n * (p * p * s) / (W / k)).
  { unfold b. pose proof W0. eapply Rle_trans; [apply Rabs_div_le; [|exact abs_det]; apply Rdiv_lt_0_compat; lra|].
    unfold Rdiv. apply Rmult_le_compat_r; [left; apply Rinv_0_lt_compat, Rdiv_lt_0_compat; lra|].
    pose proof num_size as M. assert (0 <= Sp * Spq) by (apply Rmult_le_pos; lra).
    assert (0 <= p * p * Sq) by (apply Rmult_le_pos; nra). unfold Nb. apply Rabs_le. lra. }
  apply (Rmult_le_compat_r s) in E; [|lra]. eapply Rle_trans; [exact E|]. unfold W. right. field. repeat split; lra.
Qed.

Section Offset.
Variables (N' D' z b' : R).
Hypotheses (EN : Rabs (N' - Nb) <= G * (2 * n * (p * p * s))) (ED : Rabs (D' - D) <= G * (2 * W)).
Hypotheses (Ez : z = N' / D') (Eb : Rabs (b' - z) <= u * Rabs z + t).

Lemma D'_low : W / (2 * k) <= Rabs D'.
Proof.
  pose proof abs_det as A. pose proof W0 as W0. destruct small as (S1 & _).
  assert (B : Rabs D <= Rabs D' + G * (2 * W)).
  { replace D with (D' + - (D' - D)) by ring. eapply Rle_trans; [apply Rabs_triang|]. rewrite Rabs_Ropp. lra. }
  assert (E : G * (2 * W) <= W / (2 * k)).
  { apply (Rmult_le_reg_r (2 * k)); [lra|]. unfold Rdiv. rewrite (Rmult_assoc W), Rinv_l by lra.
    replace (G * (2 * W) * (2 * k)) with (4 * (G * k) * W) by ring. nra. }
  replace (W / k) with (W / (2 * k) + W / (2 * k)) in A by (field; lra). lra.
Qed.
Lemma D'_nz : D' <> 0.
Proof. intro E. pose proof D'_low as A. rewrite E, Rabs_R0 in A. pose proof W0. assert (0 < W / (2 * k)) by (apply Rdiv_lt_0_compat; lra). lra. Qed.

Lemma z_near : Rabs (z - b) * s <= 12 * (G * (n * (k * k))).
Proof.
  pose proof W0 as W0. pose proof G0 as G0. pose proof b_size as B. pose proof det_nz as DN. pose proof D'_nz as DN'.
  destruct nk as (K2 & K3 & K4 & K5 & K6).
  assert (E : z - b = ((N' - Nb) - b * (D' - D)) / D').
  { rewrite Ez. unfold b. field. split; assumption. }
  assert (L : 0 < W / (2 * k)) by (apply Rdiv_lt_0_compat; lra).
  rewrite E. eapply Rle_trans; [apply Rmult_le_compat_r; [lra|apply (Rabs_div_le _ _ _ L D'_low)]|].
  assert (F : Rabs (N' - Nb - b * (D' - D)) <= G * (2 * n * (p * p * s)) + Rabs b * (G * (2 * W))).
  { apply Rabs_minus_of; [exact EN|]. apply Rabs_prod; [lra|exact ED]. }
  apply Rle_trans with ((G * (2 * n * (p * p * s)) + Rabs b * (G * (2 * W))) / (W / (2 * k)) * s).
  { apply Rmult_le_compat_r; [lra|]. unfold Rdiv at 1 4. apply Rmult_le_compat_r; [left; apply Rinv_0_lt_compat, L|exact F]. }
  replace ((G * (2 * n * (p * p * s)) + Rabs b * (G * (2 * W))) / (W / (2 * k)) * s)
    with (4 * (G * k) * (n + Rabs b * s)) by (unfold W; field; repeat split; lra).
  assert (GK0 : 0 <= G * k) by (apply Rmult_le_pos; lra).
  apply Rle_trans with (4 * (G * k) * (3 * (n * k))); [|right; ring].
  apply Rmult_le_compat_l; lra.
Qed.

Lemma z_size : Rabs z * s <= 3 * (n * k).
Proof.
  pose proof z_near as Z. pose proof b_size as B. destruct nk as (K2 & K3 & K4 & K5 & K6). destruct small as (S1 & S2 & S3 & S4).
  assert (Rabs z <= Rabs b + Rabs (z - b)).
  { replace z with (b + (z - b)) at 1 by ring. apply Rabs_triang. }
  assert (12 * (G * (n * (k * k))) = 12 * (G * k) * (n * k)) by ring.
  assert (12 * (G * k) * (n * k) <= 12 * / 200 * (n * k)) by (apply Rmult_le_compat_r; lra).
  assert (Rabs z * s <= (Rabs b + Rabs (z - b)) * s) by (apply Rmult_le_compat_r; lra). lra.
Qed.
Lemma offset_near : Rabs (b' - b) * s <= 14 * (G * (n * (k * k))).
Proof.
  pose proof z_near as Z. pose proof b_size as B. pose proof G0 as G0. destruct nk as (K2 & K3 & K4 & K5 & K6).
  destruct small as (S1 & S2 & S3 & S4).
  assert (Zs : Rabs z * s <= 3 * (n * k)).
  { assert (Rabs z <= Rabs b + Rabs (z - b)).
    { replace z with (b + (z - b)) at 1 by ring. apply Rabs_triang. }
    assert (12 * (G * (n * (k * k))) = 12 * (G * k) * (n * k)) by ring.
    assert (12 * (G * k) * (n * k) <= 12 * / 200 * (n * k)) by (apply Rmult_le_compat_r; lra).
    assert (Rabs z * s <= (Rabs b + Rabs (z - b)) * s) by (apply Rmult_le_compat_r; lra). lra. }
  assert (E : Rabs (b' - b) <= Rabs (b' - z) + Rabs (z - b)).
  { replace (b' - b) with ((b' - z) + (z - b)) by ring. apply Rabs_triang. }
  apply (Rmult_le_compat_r s) in E; [|lra]. apply (Rmult_le_compat_r s) in Eb; [|lra].
  assert (u * (Rabs z * s) <= u * (3 * (n * k))) by (apply Rmult_le_compat_l; lra).
  assert (u * 1 <= u * (n * k)) by (apply Rmult_le_compat_l; lra).
  assert (u * (n * k) <= G * / 5 * (n * k)) by (apply Rmult_le_compat_r; lra).
  assert (G * (n * k) <= G * (n * (k * k))) by (apply Rmult_le_compat_l; lra).
  lra.
Qed.
Lemma b'_size : Rabs b' * s <= 3 * (n * k).
Proof.
  pose proof offset_near as Z. pose proof b_size as B. destruct small as (S1 & S2 & S3 & S4). destruct nk as (K2 & K3 & K4 & K5 & K6).
  assert (Rabs b' <= Rabs b + Rabs (b' - b)).
  { replace b' with (b + (b' - b)) at 1 by ring. apply Rabs_triang. }
  assert (Rabs b' * s <= (Rabs b + Rabs (b' - b)) * s) by (apply Rmult_le_compat_r; lra). lra.
Qed.

(** The slope from the computed offset. *)
Section Slope.
Variables (hp hpq hpp w m d e a' : R).
Hypotheses (Hp : Rabs (hp - Sp) <= G * Sp) (Hpq : Rabs (hpq - Spq) <= G * Spq) (Hpp : Rabs (hpp - p * p) <= G * (p * p)).
Hypotheses (Ew : Rabs (w - b' * hpq) <= u * Rabs (b' * hpq) + t).
Hypotheses (Ed : Rabs (d - (hp - w)) <= u * Rabs (hp - w) + t).
Hypotheses (Ea : Rabs (a' - d / hpp) <= u * Rabs (d / hpp) + t).

Let a0 := (Sp - b' * Spq) / (p * p).
Local Notation X := (n * k) (only parsing).

Lemma b'q : Rabs (b' * Spq) <= 3 * X * p.
Proof.
  rewrite Rabs_mult, (Rabs_pos_eq Spq) by lra. pose proof b'_size as B.
  apply Rle_trans with (Rabs b' * (p * s)); [apply Rmult_le_compat_l; [apply Rabs_pos|lra]|].
  replace (Rabs b' * (p * s)) with (Rabs b' * s * p) by ring. apply Rmult_le_compat_r; lra.
Qed.
Lemma prod_size : Rabs (b' * hpq) <= 4 * X * p.
Proof.
  pose proof b'_size as B. pose proof G0 as G0. destruct nk as (K2 & K3 & K4 & K5 & K6). destruct small as (S1 & S2 & S3 & S4).
  assert (PS : 0 < p * s) by (apply Rmult_lt_0_compat; lra).
  assert (H : Rabs hpq <= 4 / 3 * (p * s)).
  { assert (Rabs hpq <= Rabs Spq + Rabs (hpq - Spq)).
    { replace hpq with (Spq + (hpq - Spq)) at 1 by ring. apply Rabs_triang. }
    rewrite (Rabs_pos_eq Spq) in * by lra. assert (G * Spq <= / 200 * Spq) by (apply Rmult_le_compat_r; lra). lra. }
  apply Rle_trans with (Rabs b' * (4 / 3 * (p * s))); [apply Rabs_prod; [lra|exact H]|].
  apply (Rmult_le_compat_r (4 / 3 * p)) in B; [|lra]. lra.
Qed.
Lemma prod_near : Rabs (w - b' * Spq) <= 4 * G * X * p.
Proof.
  pose proof b'q as B. pose proof G0 as G0. destruct nk as (K2 & K3 & K4 & K5 & K6). destruct small as (S1 & S2 & S3 & S4).
  assert (E1 : Rabs (b' * hpq - b' * Spq) <= G * (3 * X * p)).
  { replace (b' * hpq - b' * Spq) with (b' * (hpq - Spq)) by ring. rewrite Rabs_mult.
    apply Rle_trans with (Rabs b' * (G * Spq)); [apply Rmult_le_compat_l; [apply Rabs_pos|exact Hpq]|].
    rewrite Rabs_mult, (Rabs_pos_eq Spq) in B by lra. replace (Rabs b' * (G * Spq)) with (G * (Rabs b' * Spq)) by ring.
    apply Rmult_le_compat_l; lra. }
  assert (XP : 0 <= X * p) by (apply Rmult_le_pos; lra).
  assert (E2 : Rabs (b' * hpq) <= 4 * (X * p)).
  { assert (Rabs (b' * hpq) <= Rabs (b' * Spq) + Rabs (b' * hpq - b' * Spq)).
    { replace (b' * hpq) with (b' * Spq + (b' * hpq - b' * Spq)) at 1 by ring. apply Rabs_triang. }
    assert (G * (3 * X * p) <= / 200 * (3 * X * p)) by (apply Rmult_le_compat_r; lra). lra. }
  assert (E3 : Rabs (w - b' * Spq) <= Rabs (w - b' * hpq) + Rabs (b' * hpq - b' * Spq)).
  { replace (w - b' * Spq) with ((w - b' * hpq) + (b' * hpq - b' * Spq)) by ring. apply Rabs_triang. }
  assert (u * Rabs (b' * hpq) <= u * (4 * (X * p))) by (apply Rmult_le_compat_l; lra).
  assert (u * p <= u * (X * p)) by (apply Rmult_le_compat_l; [lra|]; nra).
  assert (5 * u * (X * p) <= G * (X * p)) by (apply Rmult_le_compat_r; lra). lra.
Qed.
Lemma diff_size : Rabs (hp - w) <= 5 * X * p.
Proof.
  pose proof prod_near as B. pose proof b'q as B'. pose proof G0 as G0. destruct nk as (K2 & K3 & K4 & K5 & K6). destruct small as (S1 & S2 & S3 & S4).
  assert (XP : 0 <= X * p) by (apply Rmult_le_pos; lra).
  assert (NP : n * p <= X * p) by (apply Rmult_le_compat_r; lra).
  assert (E1 : Rabs (hp - Sp) <= G * (X * p)).
  { eapply Rle_trans; [exact Hp|]. apply Rmult_le_compat_l; lra. }
  assert (E2 : Rabs ((hp - w) - (Sp - b' * Spq)) <= 5 * G * X * p).
  { replace ((hp - w) - (Sp - b' * Spq)) with ((hp - Sp) - (w - b' * Spq)) by ring.
    pose proof (Rabs_minus_of _ _ _ _ E1 B). lra. }
  assert (Rabs (Sp - b' * Spq) <= X * p + 3 * X * p) by (apply Rabs_minus_of; [rewrite Rabs_pos_eq; lra|exact B']).
  assert (Rabs (hp - w) <= Rabs (Sp - b' * Spq) + Rabs ((hp - w) - (Sp - b' * Spq))).
  { replace (hp - w) with ((Sp - b' * Spq) + ((hp - w) - (Sp - b' * Spq))) at 1 by ring. apply Rabs_triang. }
  assert (G * (X * p) <= / 200 * (X * p)) by (apply Rmult_le_compat_r; lra). lra.
Qed.
Lemma diff_near : Rabs (d - (Sp - b' * Spq)) <= 6 * G * X * p.
Proof.
  pose proof prod_near as B. pose proof b'q as B'. pose proof G0 as G0. destruct nk as (K2 & K3 & K4 & K5 & K6). destruct small as (S1 & S2 & S3 & S4).
  assert (XP : 0 <= X * p) by (apply Rmult_le_pos; lra).
  assert (NP : n * p <= X * p) by (apply Rmult_le_compat_r; lra).
  assert (E1 : Rabs (hp - Sp) <= G * (X * p)).
  { eapply Rle_trans; [exact Hp|]. apply Rmult_le_compat_l; lra. }
  assert (E2 : Rabs ((hp - w) - (Sp - b' * Spq)) <= 5 * G * X * p).
  { replace ((hp - w) - (Sp - b' * Spq)) with ((hp - Sp) - (w - b' * Spq)) by ring.
    pose proof (Rabs_minus_of _ _ _ _ E1 B). lra. }
  assert (E3 : Rabs (hp - w) <= 4.1 * (X * p)).
  { assert (Rabs (Sp - b' * Spq) <= X * p + 3 * X * p) by (apply Rabs_minus_of; [rewrite Rabs_pos_eq; lra|exact B']).
    assert (Rabs (hp - w) <= Rabs (Sp - b' * Spq) + Rabs ((hp - w) - (Sp - b' * Spq))).
    { replace (hp - w) with ((Sp - b' * Spq) + ((hp - w) - (Sp - b' * Spq))) at 1 by ring. apply Rabs_triang. }
    assert (G * (X * p) <= / 200 * (X * p)) by (apply Rmult_le_compat_r; lra). lra. }
  assert (E4 : Rabs (d - (Sp - b' * Spq)) <= Rabs (d - (hp - w)) + Rabs ((hp - w) - (Sp - b' * Spq))).
  { replace (d - (Sp - b' * Spq)) with ((d - (hp - w)) + ((hp - w) - (Sp - b' * Spq))) by ring. apply Rabs_triang. }
  assert (u * Rabs (hp - w) <= u * (4.1 * (X * p))) by (apply Rmult_le_compat_l; lra).
  assert (u * p <= u * (X * p)) by (apply Rmult_le_compat_l; [lra|]; nra).
  assert (6 * u * (X * p) <= G * (X * p)) by (apply Rmult_le_compat_r; lra).
  assert (0 <= u * (X * p)) by (apply Rmult_le_pos; lra). lra.
Qed.
Lemma hpp_low : 0 < p * p * (199 / 200) <= Rabs hpp.
Proof.
  assert (PP : 0 < p * p) by (apply Rmult_lt_0_compat; assumption). destruct small as (_ & _ & _ & S4).
  assert (G * (p * p) <= / 200 * (p * p)) by (apply Rmult_le_compat_r; lra).
  assert (Rabs (p * p) <= Rabs hpp + Rabs (hpp - p * p)).
  { replace (p * p) with (hpp + - (hpp - p * p)) at 1 by ring. rewrite <- (Rabs_Ropp (hpp - p * p)). apply Rabs_triang. }
  rewrite (Rabs_pos_eq (p * p)) in * by lra. lra.
Qed.
Lemma a0_size : Rabs a0 * p <= 4 * X.
Proof.
  assert (PP : 0 < p * p) by (apply Rmult_lt_0_compat; assumption). pose proof b'q as B. destruct nk as (K2 & K3 & K4 & K5 & K6).
  assert (NP : n * p <= X * p) by (apply Rmult_le_compat_r; lra).
  assert (E : Rabs (Sp - b' * Spq) <= X * p + 3 * X * p) by (apply Rabs_minus_of; [rewrite Rabs_pos_eq; lra|exact B]).
  unfold a0, Rdiv. rewrite Rabs_mult, Rabs_inv, (Rabs_pos_eq (p * p)) by lra.
  apply Rle_trans with ((X * p + 3 * X * p) * / (p * p) * p); [|right; field; lra].
  apply Rmult_le_compat_r; [lra|]. apply Rmult_le_compat_r; [left; apply Rinv_0_lt_compat, PP|exact E].
Qed.
Lemma quot_near : Rabs (d / hpp - a0) * p <= 11 * G * X.
Proof.
  assert (PP : 0 < p * p) by (apply Rmult_lt_0_compat; assumption). pose proof diff_near as B. pose proof a0_size as A.
  pose proof G0 as G0. destruct hpp_low as (L0 & L). destruct nk as (K2 & K3 & K4 & K5 & K6).
  assert (HN : hpp <> 0) by (intro E; rewrite E, Rabs_R0 in L; lra).
  assert (E : d / hpp - a0 = ((d - (Sp - b' * Spq)) - a0 * (hpp - p * p)) / hpp) by (unfold a0; field; split; lra).
  rewrite E. eapply Rle_trans; [apply Rmult_le_compat_r; [lra|apply (Rabs_div_le _ _ _ L0 L)]|].
  assert (F : Rabs (d - (Sp - b' * Spq) - a0 * (hpp - p * p)) <= 6 * G * X * p + Rabs a0 * (G * (p * p))).
  { apply Rabs_minus_of; [exact B|]. apply Rabs_prod; [lra|exact Hpp]. }
  apply Rle_trans with ((6 * G * X * p + Rabs a0 * (G * (p * p))) / (p * p * (199 / 200)) * p).
  { apply Rmult_le_compat_r; [lra|]. unfold Rdiv at 1 3. apply Rmult_le_compat_r; [left; apply Rinv_0_lt_compat, L0|exact F]. }
  replace ((6 * G * X * p + Rabs a0 * (G * (p * p))) / (p * p * (199 / 200)) * p)
    with (200 / 199 * G * (6 * X + Rabs a0 * p)) by (field; lra).
  assert (200 / 199 * G * (6 * X + Rabs a0 * p) <= 200 / 199 * G * (10 * X)) by (apply Rmult_le_compat_l; lra).
  assert (0 <= G * X) by (apply Rmult_le_pos; lra). lra.
Qed.
Lemma quot_size : Rabs (d / hpp) * p <= 5 * X.
Proof.
  pose proof quot_near as Z. pose proof a0_size as B. destruct small as (S1 & S2 & S3 & S4). destruct nk as (K2 & K3 & K4 & K5 & K6).
  assert (Rabs (d / hpp) <= Rabs a0 + Rabs (d / hpp - a0)).
  { replace (d / hpp) with (a0 + (d / hpp - a0)) at 1 by ring. apply Rabs_triang. }
  assert (Rabs (d / hpp) * p <= (Rabs a0 + Rabs (d / hpp - a0)) * p) by (apply Rmult_le_compat_r; lra). lra.
Qed.
Lemma slope_near : Rabs (a' - a0) * p <= 12 * G * X.
Proof.
  pose proof quot_near as Z. pose proof a0_size as B. pose proof G0 as G0. destruct nk as (K2 & K3 & K4 & K5 & K6).
  destruct small as (S1 & S2 & S3 & S4).
  assert (Zs : Rabs (d / hpp) * p <= 5 * X).
  { assert (Rabs (d / hpp) <= Rabs a0 + Rabs (d / hpp - a0)).
    { replace (d / hpp) with (a0 + (d / hpp - a0)) at 1 by ring. apply Rabs_triang. }
    assert (Rabs (d / hpp) * p <= (Rabs a0 + Rabs (d / hpp - a0)) * p) by (apply Rmult_le_compat_r; lra). lra. }
  assert (E : Rabs (a' - a0) <= Rabs (a' - d / hpp) + Rabs (d / hpp - a0)).
  { replace (a' - a0) with ((a' - d / hpp) + (d / hpp - a0)) by ring. apply Rabs_triang. }
  apply (Rmult_le_compat_r p) in E; [|lra]. pose proof Ea as Ea'. apply (Rmult_le_compat_r p) in Ea'; [|lra].
  assert (u * (Rabs (d / hpp) * p) <= u * (5 * X)) by (apply Rmult_le_compat_l; lra).
  assert (u * 1 <= u * X) by (apply Rmult_le_compat_l; lra).
  assert (6 * u * X <= G * X) by (apply Rmult_le_compat_r; lra). lra.
Qed.
Lemma a'_size : Rabs a' * p <= 5 * X.
Proof.
  pose proof slope_near as Z. pose proof a0_size as B. destruct small as (S1 & S2 & S3 & S4). destruct nk as (K2 & K3 & K4 & K5 & K6).
  assert (Rabs a' <= Rabs a0 + Rabs (a' - a0)).
  { replace a' with (a0 + (a' - a0)) at 1 by ring. apply Rabs_triang. }
  assert (Rabs a' * p <= (Rabs a0 + Rabs (a' - a0)) * p) by (apply Rmult_le_compat_r; lra). lra.
Qed.

(** The line at a point (x, y): P = x / y and Q = 1 / y. *)
Section Point.
Variables (x y : R).
Hypotheses (Y0 : 0 < y) (X0 : 0 < x) (HP : x / y <= p) (HQ : 1 / y <= s) (Ty : t <= u * y).
Variables (ax v : R).
Hypotheses (Eax : Rabs (ax - a' * x) <= u * Rabs (a' * x) + t) (Ev : Rabs (v - (ax + b')) <= u * Rabs (ax + b') + t).

Lemma xp : x <= p * y.
Proof. apply (Rmult_le_compat_r y) in HP; [|lra]. unfold Rdiv in HP. rewrite Rmult_assoc, Rinv_l in HP by lra. lra. Qed.
Lemma ys : 1 <= s * y.
Proof. apply (Rmult_le_compat_r y) in HQ; [|lra]. unfold Rdiv in HQ. rewrite Rmult_assoc, Rinv_l in HQ by lra. lra. Qed.

Lemma line_near : Rabs ((a' * x + b') - (a * x + b)) <= 26 * (G * (n * (k * k))) * y.
Proof.
  pose proof xp as XP. pose proof ys as YS. pose proof G0 as G0. destruct nk as (K2 & K3 & K4 & K5 & K6).
  assert (PP : 0 < p * p) by (apply Rmult_lt_0_compat; assumption).
  assert (E : (a' * x + b') - (a * x + b) = (b' - b) * (1 - Spq / (p * p) * x) + (a' - a0) * x)
    by (unfold a, a0; field; lra).
  assert (R1 : Rabs (1 - Spq / (p * p) * x) <= s * y).
  { assert (0 <= Spq / (p * p) * x <= s * y).
    { assert (Q : Spq / (p * p) <= s / p).
      { apply (Rmult_le_reg_r (p * p)); [exact PP|]. unfold Rdiv. rewrite Rmult_assoc, Rinv_l by lra.
        replace (s * / p * (p * p)) with (p * s) by (field; lra). lra. }
      assert (0 <= Spq / (p * p)) by (apply Rmult_le_pos; [lra|left; apply Rinv_0_lt_compat, PP]).
      split; [apply Rmult_le_pos; lra|]. apply Rle_trans with (s / p * (p * y)); [apply Rmult_le_compat; lra|].
      right. field. lra. }
    apply Rabs_le. lra. }
  rewrite E. pose proof offset_near as ZB. pose proof slope_near as ZA.
  assert (A1 : Rabs ((b' - b) * (1 - Spq / (p * p) * x)) <= 14 * (G * (n * (k * k))) * y).
  { apply Rle_trans with (Rabs (b' - b) * (s * y)); [apply Rabs_prod; [lra|exact R1]|].
    replace (Rabs (b' - b) * (s * y)) with (Rabs (b' - b) * s * y) by ring. apply Rmult_le_compat_r; lra. }
  assert (A2 : Rabs ((a' - a0) * x) <= 12 * G * X * y).
  { apply Rle_trans with (Rabs (a' - a0) * (p * y)); [apply Rabs_prod; [lra|rewrite Rabs_pos_eq; lra]|].
    replace (Rabs (a' - a0) * (p * y)) with (Rabs (a' - a0) * p * y) by ring. apply Rmult_le_compat_r; lra. }
  pose proof (Rabs_sum2 _ _ _ _ A1 A2) as T.
  assert (G * X * y <= G * (n * (k * k)) * y) by (apply Rmult_le_compat_r; [lra|apply Rmult_le_compat_l; lra]). lra.
Qed.

Lemma ax_size : Rabs (a' * x) <= 5 * X * y.
Proof.
  pose proof xp as XP. pose proof a'_size as A. apply Rle_trans with (Rabs a' * (p * y)); [apply Rabs_prod; [lra|rewrite Rabs_pos_eq; lra]|].
  apply (Rmult_le_compat_r y) in A; lra.
Qed.
Lemma axb_size : Rabs (ax + b') <= 9 * X * y.
Proof.
  pose proof ys as YS. pose proof G0 as G0. destruct nk as (K2 & K3 & K4 & K5 & K6). destruct small as (S1 & S2 & S3 & S4).
  pose proof ax_size as A1. assert (XY : 0 <= X * y) by (apply Rmult_le_pos; lra).
  assert (A2 : Rabs b' <= 3 * (X * y)).
  { pose proof b'_size as B. apply (Rmult_le_compat_r y) in B; [|lra]. pose proof (Rabs_pos b').
    assert (Rabs b' * 1 <= Rabs b' * (s * y)) by (apply Rmult_le_compat_l; lra). lra. }
  assert (U1 : u <= / 1200) by lra.
  assert (TY : t <= u * (X * y)).
  { eapply Rle_trans; [exact Ty|]. apply Rmult_le_compat_l; [lra|]. nra. }
  assert (u * Rabs (a' * x) <= u * (5 * (X * y))) by (apply Rmult_le_compat_l; lra).
  assert (UX : u * (X * y) <= / 1200 * (X * y)) by (apply Rmult_le_compat_r; lra).
  assert (Rabs (ax + b') <= Rabs (a' * x) + Rabs b' + Rabs (ax - a' * x)).
  { replace (ax + b') with (a' * x + b' + (ax - a' * x)) by ring. apply Rabs_sum3; lra. }
  lra.
Qed.
Lemma v_size : Rabs v <= 10 * X * y.
Proof.
  pose proof axb_size as A. pose proof G0 as G0. destruct nk as (K2 & K3 & K4 & K5 & K6). destruct small as (S1 & S2 & S3 & S4).
  assert (XY : 0 <= X * y) by (apply Rmult_le_pos; lra). assert (U1 : u <= / 1200) by lra.
  assert (TY : t <= u * (X * y)).
  { eapply Rle_trans; [exact Ty|]. apply Rmult_le_compat_l; [lra|]. nra. }
  assert (u * Rabs (ax + b') <= u * (9 * X * y)) by (apply Rmult_le_compat_l; lra).
  assert (UX : u * (X * y) <= / 1200 * (X * y)) by (apply Rmult_le_compat_r; lra).
  assert (Rabs v <= Rabs (ax + b') + Rabs (v - (ax + b'))).
  { replace v with ((ax + b') + (v - (ax + b'))) at 1 by ring. apply Rabs_triang. } lra.
Qed.
Lemma value_near : Rabs (v - (a * x + b)) <= 30 * (G * (n * (k * k))) * y.
Proof.
  pose proof xp as XP. pose proof ys as YS. pose proof G0 as G0. destruct nk as (K2 & K3 & K4 & K5 & K6).
  destruct small as (S1 & S2 & S3 & S4). pose proof line_near as L.
  assert (XY : 0 <= X * y) by (apply Rmult_le_pos; lra).
  assert (A1 : Rabs (a' * x) <= 5 * (X * y)).
  { apply Rle_trans with (Rabs a' * (p * y)); [apply Rabs_prod; [lra|rewrite Rabs_pos_eq; lra]|].
    pose proof a'_size as A. apply (Rmult_le_compat_r y) in A; lra. }
  assert (A2 : Rabs b' <= 3 * (X * y)).
  { pose proof b'_size as B. apply (Rmult_le_compat_r y) in B; [|lra]. pose proof (Rabs_pos b').
    assert (Rabs b' * 1 <= Rabs b' * (s * y)) by (apply Rmult_le_compat_l; lra). lra. }
  assert (U1 : u <= / 1200) by lra.
  assert (TY : t <= u * (X * y)).
  { eapply Rle_trans; [exact Ty|]. apply Rmult_le_compat_l; [lra|]. nra. }
  assert (B1 : Rabs (ax - a' * x) <= 6 * (u * (X * y))).
  { assert (u * Rabs (a' * x) <= u * (5 * (X * y))) by (apply Rmult_le_compat_l; lra). lra. }
  assert (UX : u * (X * y) <= / 1200 * (X * y)) by (apply Rmult_le_compat_r; lra).
  assert (B2 : Rabs (ax + b') <= 9 * (X * y)).
  { assert (Rabs (ax + b') <= Rabs (a' * x) + Rabs b' + Rabs (ax - a' * x)).
    { replace (ax + b') with (a' * x + b' + (ax - a' * x)) by ring. apply Rabs_sum3; lra. }
    lra. }
  assert (B3 : Rabs (v - (ax + b')) <= 10 * (u * (X * y))).
  { assert (u * Rabs (ax + b') <= u * (9 * (X * y))) by (apply Rmult_le_compat_l; lra). lra. }
  replace (v - (a * x + b)) with ((v - (ax + b')) + (ax - a' * x) + ((a' * x + b') - (a * x + b))) by ring.
  pose proof (Rabs_sum3 _ _ _ _ _ _ B3 B1 L) as T.
  assert (6 * (u * (X * y)) <= G * (X * y)) by (rewrite <- Rmult_assoc; apply Rmult_le_compat_r; lra).
  assert (G * (X * y) <= G * (n * (k * k)) * y).
  { rewrite (Rmult_assoc G). apply Rmult_le_compat_l; [lra|]. apply Rmult_le_compat_r; lra. }
  lra.
Qed.

(** The relative deviation, where the line is at least half the signal. *)
Variables (y' r h q : R).
Hypotheses (EY : Rabs (y' - y) <= G * y) (Er : Rabs (r - (y' - v)) <= u * Rabs (y' - v) + t) (Eh : Rabs (h - 100 * r) <= u * Rabs (100 * r) + t)
  (Eq : Rabs (q - h / v) <= u * Rabs (h / v) + t).
Hypotheses (Half : y / 2 <= a * x + b) (T1 : t <= u).

Let dev := 100 * (y - (a * x + b)) / (a * x + b).

Lemma value_low : 0 < y * (7 / 20) <= v.
Proof.
  pose proof value_near as V. destruct small as (S1 & S2 & S3 & S4).
  assert (30 * (G * (n * (k * k))) * y <= 30 * / 200 * y) by (apply Rmult_le_compat_r; lra).
  revert V. unfold Rabs. destruct (Rcase_abs _); lra.
Qed.
Lemma dev_near : Rabs (q - dev) <= 20000 * (G * (n * (k * k))).
Proof.
  pose proof value_near as V. destruct value_low as (V0 & V1). pose proof G0 as G0. destruct nk as (K2 & K3 & K4 & K5 & K6).
  destruct small as (S1 & S2 & S3 & S4). set (L := a * x + b) in *. set (Z := G * (n * (k * k))) in *.
  assert (UZ : 6 * u <= Z).
  { unfold Z. apply Rle_trans with (G * 1); [lra|]. apply Rmult_le_compat_l; lra. }
  assert (U1 : u <= / 1200) by lra.
  assert (A1 : Rabs (100 * (y - v) / v - dev) <= 17200 * Z).
  { unfold dev. replace (100 * (y - v) / v - 100 * (y - L) / L) with (100 * y * (L - v) / (L * v)) by (field; lra).
    assert (LV : y * y * (7 / 40) <= L * v).
    { apply Rle_trans with (y / 2 * (y * (7 / 20))); [right; field|]. apply Rmult_le_compat; lra. }
    assert (YY : 0 < y * y) by (apply Rmult_lt_0_compat; lra).
    eapply Rle_trans; [apply (Rabs_div_le _ _ (y * y * (7 / 40))); [lra|rewrite Rabs_pos_eq; lra]|].
    assert (F : Rabs (100 * y * (L - v)) <= 100 * y * (30 * Z * y)).
    { apply Rabs_prod; [rewrite Rabs_pos_eq; lra|]. rewrite Rabs_minus_sym. exact V. }
    apply Rle_trans with (100 * y * (30 * Z * y) / (y * y * (7 / 40))).
    { unfold Rdiv at 1 3. apply Rmult_le_compat_r; [left; apply Rinv_0_lt_compat; lra|exact F]. }
    replace (100 * y * (30 * Z * y) / (y * y * (7 / 40))) with (120000 / 7 * Z) by (field; lra). lra. }
  assert (V0' : 0 < v) by lra.
  assert (GY : G * y <= / 200 * y) by (apply Rmult_le_compat_r; lra).
  assert (Y' : y * (199 / 200) <= y' <= y * (201 / 200)) by (pose proof (Rle_abs (y' - y)); pose proof (Rle_abs (- (y' - y))) as EN2; rewrite Rabs_Ropp in EN2; split; lra).
  assert (B1 : Rabs (y' - v) <= 2 * v) by (apply Rabs_le; lra).
  assert (GZ : G <= Z) by (unfold Z; rewrite <- (Rmult_1_r G) at 1; apply Rmult_le_compat_l; lra).
  assert (A0 : Rabs (100 * (y' - v) / v - 100 * (y - v) / v) <= 300 * Z).
  { replace (100 * (y' - v) / v - 100 * (y - v) / v) with (100 * (y' - y) / v) by (field; lra).
    eapply Rle_trans; [apply (Rabs_div_le _ _ v); [lra|rewrite Rabs_pos_eq; lra]|]. apply (Rmult_le_reg_r v); [lra|].
    unfold Rdiv. rewrite Rmult_assoc, Rinv_l, Rmult_1_r by lra. rewrite Rabs_mult, (Rabs_pos_eq 100) by lra.
    assert (G * y <= Z * y) by (apply Rmult_le_compat_r; lra). assert (Z * (y * (7 / 20)) <= Z * v) by (apply Rmult_le_compat_l; lra). assert (0 <= Z * v) by (apply Rmult_le_pos; lra). lra. }
  assert (TV : t <= 3 * (u * v)).
  { eapply Rle_trans; [exact Ty|]. apply Rle_trans with (u * (3 * v)); [apply Rmult_le_compat_l; lra|lra]. }
  assert (UV : 0 <= u * v <= / 1200 * v) by (split; [apply Rmult_le_pos; lra|apply Rmult_le_compat_r; lra]).
  assert (B2 : Rabs (r - (y' - v)) <= 5 * (u * v)).
  { assert (u * Rabs (y' - v) <= u * (2 * v)) by (apply Rmult_le_compat_l; lra). lra. }
  assert (B3 : Rabs (100 * r) <= 300 * v).
  { rewrite Rabs_mult, (Rabs_pos_eq 100) by lra. assert (Rabs r <= Rabs (y' - v) + Rabs (r - (y' - v))).
    { replace r with ((y' - v) + (r - (y' - v))) at 1 by ring. apply Rabs_triang. } lra. }
  assert (B4 : Rabs (h - 100 * r) <= 303 * (u * v)).
  { assert (u * Rabs (100 * r) <= u * (300 * v)) by (apply Rmult_le_compat_l; lra). lra. }
  assert (B5 : Rabs (h - 100 * (y' - v)) <= 803 * (u * v)).
  { replace (h - 100 * (y' - v)) with ((h - 100 * r) + 100 * (r - (y' - v))) by ring.
    assert (Rabs (100 * (r - (y' - v))) <= 100 * (5 * (u * v))) by (apply Rabs_prod; [rewrite Rabs_pos_eq; lra|exact B2]).
    pose proof (Rabs_sum2 _ _ _ _ B4 H). lra. }
  assert (B6 : Rabs h <= 301 * v).
  { assert (Rabs (100 * (y' - v)) <= 100 * (2 * v)) by (apply Rabs_prod; [rewrite Rabs_pos_eq; lra|exact B1]).
    assert (Rabs h <= Rabs (100 * (y' - v)) + Rabs (h - 100 * (y' - v))).
    { replace h with (100 * (y' - v) + (h - 100 * (y' - v))) at 1 by ring. apply Rabs_triang. } lra. }
  assert (RV : Rabs v = v) by (apply Rabs_pos_eq; lra).
  assert (C1 : Rabs (h / v) <= 301).
  { eapply Rle_trans; [apply (Rabs_div_le _ _ v); lra|]. apply (Rmult_le_reg_r v); [lra|]. unfold Rdiv.
    rewrite Rmult_assoc, Rinv_l by lra. lra. }
  assert (C2 : Rabs (h / v - 100 * (y' - v) / v) <= 803 * u).
  { replace (h / v - 100 * (y' - v) / v) with ((h - 100 * (y' - v)) / v) by (field; lra).
    eapply Rle_trans; [apply (Rabs_div_le _ _ v); lra|]. apply (Rmult_le_reg_r v); [lra|]. unfold Rdiv.
    rewrite Rmult_assoc, Rinv_l by lra. lra. }
  assert (C3 : Rabs (q - h / v) <= 302 * u).
  { assert (u * Rabs (h / v) <= u * 301) by (apply Rmult_le_compat_l; lra). lra. }
  replace (q - dev) with ((q - h / v) + (h / v - 100 * (y' - v) / v) + ((100 * (y' - v) / v - 100 * (y - v) / v) + (100 * (y - v) / v - dev))) by ring.
  pose proof (Rabs_sum3 _ _ _ _ _ _ C3 C2 (Rabs_sum2 _ _ _ _ A0 A1)). lra.
Qed.
End Point.
End Slope.
End Offset.

(** With one rounding function for all operations. *)
Section Rounded.
Variables (rn : R -> R) (N' D' z b' hp hpq hpp w d a' : R).
Hypothesis RN : forall x, Rabs (rn x - x) <= u * Rabs x + t.
Hypotheses (EN : Rabs (N' - Nb) <= G * (2 * n * (p * p * s))) (ED : Rabs (D' - D) <= G * (2 * W)).
Hypotheses (Hp : Rabs (hp - Sp) <= G * Sp) (Hpq : Rabs (hpq - Spq) <= G * Spq) (Hpp : Rabs (hpp - p * p) <= G * (p * p)).
Hypotheses (Ez : z = N' / D') (Eb : b' = rn z) (Ew : w = rn (b' * hpq)) (Ed : d = rn (hp - w)) (Ea : a' = rn (d / hpp)).

Lemma rb : Rabs (b' - z) <= u * Rabs z + t. Proof. rewrite Eb. apply RN. Qed.
Lemma rw : Rabs (w - b' * hpq) <= u * Rabs (b' * hpq) + t. Proof. rewrite Ew. apply RN. Qed.
Lemma rd : Rabs (d - (hp - w)) <= u * Rabs (hp - w) + t. Proof. rewrite Ed. apply RN. Qed.
Lemma ra : Rabs (a' - d / hpp) <= u * Rabs (d / hpp) + t. Proof. rewrite Ea. apply RN. Qed.

Lemma fit_sizes : D' <> 0 /\ Rabs z * s <= 3 * (n * k) /\ Rabs (b' * hpq) <= 4 * (n * k) * p /\ Rabs (hp - w) <= 5 * (n * k) * p /\
  hpp <> 0 /\ Rabs (d / hpp) * p <= 5 * (n * k).
Proof.
  pose proof rb. pose proof rw. pose proof rd. pose proof ra.
  split; [eapply D'_nz; eauto|]. split; [eapply z_size; eauto|]. split; [eapply prod_size; eauto|]. split; [eapply diff_size; eauto|].
  split; [|eapply quot_size; eauto]. intro Z. destruct (hpp_low hpp Hpp) as (L0 & L). rewrite Z, Rabs_R0 in L. lra.
Qed.

Variables (x y ax v : R).
Hypotheses (Y0 : 0 < y) (X0 : 0 < x) (HP : x / y <= p) (HQ : 1 / y <= s) (Ty : t <= u * y).
Hypotheses (Eax : ax = rn (a' * x)) (Ev : v = rn (ax + b')).
Lemma rax : Rabs (ax - a' * x) <= u * Rabs (a' * x) + t. Proof. rewrite Eax. apply RN. Qed.
Lemma rv : Rabs (v - (ax + b')) <= u * Rabs (ax + b') + t. Proof. rewrite Ev. apply RN. Qed.

Lemma point_sizes : Rabs (a' * x) <= 5 * (n * k) * y /\ Rabs (ax + b') <= 9 * (n * k) * y /\ Rabs v <= 10 * (n * k) * y.
Proof.
  pose proof rb. pose proof rw. pose proof rd. pose proof ra. pose proof rax. pose proof rv.
  split; [eapply ax_size; eauto|]. split; [eapply axb_size; eauto|]. eapply v_size; eauto.
Qed.

Variables (y' r h q : R).
Hypotheses (Half : y / 2 <= a * x + b) (T1 : t <= u).
Hypotheses (EY : Rabs (y' - y) <= G * y) (Er : r = rn (y' - v)) (Eh : h = rn (100 * r)) (Eq : q = rn (h / v)).

Lemma point_dev : 0 < v /\ Rabs (y' - v) <= 2 * v /\ Rabs (100 * r) <= 300 * v /\ Rabs (h / v) <= 301 /\
  Rabs (q - 100 * (y - (a * x + b)) / (a * x + b)) <= 20000 * (G * (n * (k * k))).
Proof.
  pose proof rb. pose proof rw. pose proof rd. pose proof ra. pose proof rax. pose proof rv.
  assert (RR : Rabs (r - (y' - v)) <= u * Rabs (y' - v) + t) by (rewrite Er; apply RN).
  assert (RH : Rabs (h - 100 * r) <= u * Rabs (100 * r) + t) by (rewrite Eh; apply RN).
  assert (RQ : Rabs (q - h / v) <= u * Rabs (h / v) + t) by (rewrite Eq; apply RN).
  assert (V : 0 < y * (7 / 20) <= v) by (eapply value_low; eauto). destruct V as (V0 & V1).
  destruct small as (S1 & S2 & S3 & S4). assert (U1 : u <= / 1200) by lra.
  assert (GY : G * y <= / 200 * y) by (apply Rmult_le_compat_r; lra).
  assert (Y' : y * (199 / 200) <= y' <= y * (201 / 200)) by (pose proof (Rle_abs (y' - y)); pose proof (Rle_abs (- (y' - y))) as EN2; rewrite Rabs_Ropp in EN2; split; lra).
  assert (B1 : Rabs (y' - v) <= 2 * v) by (apply Rabs_le; lra).
  assert (TV : t <= 3 * (u * v)).
  { eapply Rle_trans; [exact Ty|]. apply Rle_trans with (u * (3 * v)); [apply Rmult_le_compat_l; lra|lra]. }
  assert (UV : 0 <= u * v <= / 1200 * v) by (split; [apply Rmult_le_pos; lra|apply Rmult_le_compat_r; lra]).
  assert (B2 : Rabs (r - (y' - v)) <= 5 * (u * v)).
  { assert (u * Rabs (y' - v) <= u * (2 * v)) by (apply Rmult_le_compat_l; lra). lra. }
  assert (B3 : Rabs (100 * r) <= 300 * v).
  { rewrite Rabs_mult, (Rabs_pos_eq 100) by lra. assert (Rabs r <= Rabs (y' - v) + Rabs (r - (y' - v))).
    { replace r with ((y' - v) + (r - (y' - v))) at 1 by ring. apply Rabs_triang. } lra. }
  split; [lra|]. split; [exact B1|]. split; [exact B3|]. split; [|eapply dev_near; eauto].
  assert (B4 : Rabs (h - 100 * r) <= 303 * (u * v)).
  { assert (u * Rabs (100 * r) <= u * (300 * v)) by (apply Rmult_le_compat_l; lra). lra. }
  assert (B6 : Rabs h <= 301 * v).
  { assert (Rabs h <= Rabs (100 * r) + Rabs (h - 100 * r)).
    { replace h with (100 * r + (h - 100 * r)) at 1 by ring. apply Rabs_triang. } lra. }
  eapply Rle_trans; [apply (Rabs_div_le _ _ v); [lra|rewrite Rabs_pos_eq; lra]|]. apply (Rmult_le_reg_r v); [lra|].
  unfold Rdiv. rewrite Rmult_assoc, Rinv_l by lra. lra.
Qed.
End Rounded.
End Fit.
