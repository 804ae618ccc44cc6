(** Proofs for C116: errors of the derived figures. *)
From Coq Require Import List Bool Arith ZArith QArith Qreals Reals Lia Lra.
From Verif Require Import Base_Prelude Base_Num Base_Sum Base_SumR Base_Xreal Model_Images Model_Data Model_Results
  Spec_Results Spec_Linear Spec_Any Spec_Near Spec_Figures Proofs_Results Proofs_Fit Proofs_Results2 Proofs_Near Proofs_Pattern2.
Import ListNotations.
Open Scope R_scope.
Set Bullet Behavior "Strict Subproofs".

Lemma near_low a A d : Rabs (a - A) <= d -> A - d <= a.
Proof. intros H. apply abs_between in H. lra. Qed.

Lemma quotient_near a A da b B db : Rabs (a - A) <= da -> Rabs (b - B) <= db -> db < B ->
  Rabs (a / b - A / B) <= quotient_error A da B db.
Proof.
  intros HA HB L. assert (D0 : 0 <= db) by (eapply Rle_trans; [apply Rabs_pos|exact HB]).
  assert (b0 := near_low _ _ _ HB). unfold quotient_error.
  replace (a / b - A / B) with ((a - A - A / B * (b - B)) / b) by (field; lra).
  unfold Rdiv at 1 3. rewrite Rabs_mult, (Rabs_pos_eq (/ b)) by (left; apply Rinv_0_lt_compat; lra).
  assert (N : Rabs (a - A - A / B * (b - B)) <= da + Rabs (A / B) * db).
  { eapply Rle_trans; [apply Rabs_triang|]. rewrite Rabs_Ropp, Rabs_mult. apply Rplus_le_compat; [exact HA|].
    apply Rmult_le_compat_l; [apply Rabs_pos|exact HB]. }
  apply Rmult_le_compat; [apply Rabs_pos| |exact N|].
  - left. apply Rinv_0_lt_compat. lra.
  - apply Rinv_le_contravar; lra.
Qed.

Lemma sum_near a A da b B db : Rabs (a - A) <= da -> Rabs (b - B) <= db -> Rabs (a + b - (A + B)) <= da + db.
Proof. intros H G. apply abs_between in H, G. apply between_abs. lra. Qed.
Lemma scale_near c a A d : 0 <= c -> Rabs (a - A) <= d -> Rabs (c * a - c * A) <= c * d.
Proof.
  intros C H. replace (c * a - c * A) with (c * (a - A)) by ring. rewrite Rabs_mult, (Rabs_pos_eq c C).
  apply Rmult_le_compat_l; assumption.
Qed.

Lemma Q2R_c a b : Q2R (a # b) = IZR a / IZR (Zpos b).
Proof. reflexivity. Qed.

Section Derived.
Variables (o : robj) (eta K v x dr dk dv : R) (r k s p : Q).
Hypothesis ER : responsivity o = Ok r.
Hypothesis EK : gain o = Ok k.
Hypothesis ES : dark_variance o = Ok s.
Hypothesis EP : u_p_sat o = Ok p.
Hypothesis NR : Rabs (Q2R r - K * eta) <= dr.
Hypothesis NK : Rabs (Q2R k - K) <= dk.
Hypothesis NS : Rabs (Q2R s - v) <= dv.
Hypothesis NP : Q2R p = x.
Hypothesis S0 : 24 / 100 <= Q2R s.
Hypothesis V0 : 24 / 100 <= v.
Hypothesis LV : dv < v.
Hypothesis LK : dk < K.
Hypothesis LR : dr < K * eta.
Hypothesis X0 : 0 < x.

Let k0 : 0 < Q2R k.
Proof. pose proof (near_low _ _ _ NK). lra. Qed.
Let r0 : 0 < Q2R r.
Proof. pose proof (near_low _ _ _ NR). lra. Qed.
Let dk0 : 0 <= dk.
Proof. eapply Rle_trans; [apply Rabs_pos|exact NK]. Qed.
Let K0 : 0 < K. Proof. lra. Qed.
Let eta0 : 0 < eta.
Proof. assert (0 <= dr) by (eapply Rle_trans; [apply Rabs_pos|exact NR]). apply (Rmult_lt_reg_l K); lra. Qed.
Let sv : 0 < sqrt v.
Proof. apply sqrt_lt_R0. lra. Qed.
Let ss : 0 < sqrt (Q2R s).
Proof. apply sqrt_lt_R0. lra. Qed.
Let NQ : Rabs (sqrt (Q2R s) - sqrt v) <= dv / sqrt v.
Proof. apply sqrt_near; [lra|lra|exact NS]. Qed.
Let LQ : dv / sqrt v < sqrt v.
Proof. apply (Rmult_lt_reg_r (sqrt v)); [exact sv|]. rewrite sqrt_sqrt by lra. unfold Rdiv. rewrite Rmult_assoc, Rinv_l by lra. lra. Qed.

Lemma qe_value : QE o = Ok (XR (100 * (Q2R r / Q2R k))).
Proof.
  unfold QE. rewrite ER, EK. cbn [bind]. unfold xq, xmul. rewrite xdiv_fin by lra. do 2 f_equal.
  rewrite (Q2R_c 100 1). field. lra.
Qed.
Lemma sigma_value : sigma_y_dark o = Ok (XR (sqrt (Q2R s))).
Proof. unfold sigma_y_dark. rewrite ES. cbn [bind]. unfold xq. rewrite xsqrt_fin by lra. reflexivity. Qed.
Lemma least_value : u_p_min o = Ok (XR ((sqrt (Q2R s) + Q2R k / 2) / Q2R r)).
Proof.
  unfold u_p_min. rewrite qe_value, sigma_value, EK. cbn [bind]. unfold xq. rewrite !xdiv_fin.
  - unfold xadd, xmul. do 2 f_equal. rewrite (Q2R_c 100 1), (Q2R_c 1 2). field. lra.
  - lra.
  - apply Rgt_not_eq. apply Rmult_lt_0_compat; [lra|]. apply Rdiv_lt_0_compat; lra.
Qed.
Lemma electrons_value : u_e_min o = Ok (XR (sqrt (Q2R s) / Q2R k + 1 / 2)).
Proof.
  unfold u_e_min. rewrite qe_value, least_value. cbn [bind]. unfold xq, xmul. rewrite (Q2R_c 100 1), xdiv_fin by lra.
  do 2 f_equal. field. lra.
Qed.
Lemma full_value : u_e_sat o = Ok (XR (x * (Q2R r / Q2R k))).
Proof.
  unfold u_e_sat. rewrite qe_value, EP. cbn [bind]. unfold xq, xmul. rewrite (Q2R_c 100 1), xdiv_fin by lra.
  do 2 f_equal. rewrite NP. field. lra.
Qed.

Let NE : Rabs (Q2R r / Q2R k - eta) <= quotient_error (K * eta) dr K dk.
Proof.
  replace eta with (K * eta / K) at 1 by (field; lra). apply quotient_near; assumption.
Qed.

Lemma derived_near : derived_right o eta K v x dr dk dv.
Proof.
  assert (NH : Rabs (Q2R k / 2 - K / 2) <= dk / 2).
  { replace (Q2R k / 2) with (1 / 2 * Q2R k) by field. replace (K / 2) with (1 / 2 * K) by field.
    replace (dk / 2) with (1 / 2 * dk) by field. apply scale_near; [lra|exact NK]. }
  constructor.
  - exists (1 / Q2R k). split.
    + unfold inverse_K. rewrite EK. cbn [bind]. unfold xq. rewrite xdiv_fin by lra. do 3 f_equal. rewrite (Q2R_c 1 1). field.
    + apply quotient_near; [|exact NK|exact LK]. rewrite Rminus_diag_eq, Rabs_R0 by reflexivity. lra.
  - exists (100 * (Q2R r / Q2R k)). split; [exact qe_value|]. apply scale_near; [lra|exact NE].
  - exists (sqrt (Q2R s)). split; [exact sigma_value|exact NQ].
  - assert (P : 0 < v - 1 / 12) by lra. exists (sqrt (Q2R s - 1 / 12) / Q2R k). split.
    + unfold sigma_d. rewrite sigma_value, EK. cbn [bind]. unfold xsq, xmul, xsub, xneg, xq, xadd.
      rewrite sqrt_sqrt by lra.
      replace (Q2R s + - Q2R s2q) with (Q2R s - 1 / 12) by (unfold s2q; unfold Q2R at 3; simpl; lra).
      rewrite xsqrt_fin by lra. rewrite xdiv_fin by lra. reflexivity.
    + apply quotient_near; [|exact NK|exact LK]. apply sqrt_near; [exact P|lra|].
      replace (Q2R s - 1 / 12 - (v - 1 / 12)) with (Q2R s - v) by ring. exact NS.
  - eexists. split; [exact least_value|]. apply quotient_near; [|exact NR|exact LR]. apply sum_near; assumption.
  - eexists. split; [exact electrons_value|].
    replace (sqrt (Q2R s) / Q2R k + 1 / 2 - (sqrt v / K + 1 / 2)) with (sqrt (Q2R s) / Q2R k - sqrt v / K) by ring.
    apply quotient_near; assumption.
  - exists p. split; assumption.
  - eexists. split; [exact full_value|]. rewrite (Rmult_comm eta). apply scale_near; [lra|exact NE].
  - exists (sqrt (x * (Q2R r / Q2R k))). split.
    + unfold SNR_max. rewrite full_value. cbn [bind]. rewrite xsqrt_fin; [reflexivity|].
      apply Rmult_le_pos; [lra|]. left. apply Rdiv_lt_0_compat; lra.
    + apply sqrt_near; [apply Rmult_lt_0_compat; lra| |].
      * apply Rmult_le_pos; [lra|]. left. apply Rdiv_lt_0_compat; lra.
      * rewrite (Rmult_comm eta). apply scale_near; [lra|exact NE].
  - exists (x * Q2R r / (sqrt (Q2R s) + Q2R k / 2)). split.
    + unfold DR. rewrite EP, least_value. cbn [bind]. unfold xq. rewrite xdiv_fin.
      * do 2 f_equal. rewrite NP. field. split; lra.
      * apply Rgt_not_eq. apply Rdiv_lt_0_compat; lra.
    + apply quotient_near; [apply scale_near; [lra|exact NR]|apply sum_near; assumption|lra].
Qed.
End Derived.

(** ** Lines *)
(** The residuals of the best line are orthogonal to the constants and to the abscissae. *)
Lemma best_line_normal X Y m a b : best_line X Y m a b ->
  sumR (S m) (fun i => Q2R (Y i) - (Q2R a * Q2R (X i) + Q2R b)) = 0 /\
  sumR (S m) (fun i => Q2R (X i) * (Q2R (Y i) - (Q2R a * Q2R (X i) + Q2R b))) = 0.
Proof.
  intros B.
  assert (G : forall f : nat -> R, (forall t, t <> 0 ->
      sumR (S m) (fun i => sq (Q2R (Y i) - (Q2R a * Q2R (X i) + Q2R b))) <
      sumR (S m) (fun i => sq (Q2R (Y i) - (Q2R a * Q2R (X i) + Q2R b) - t * f i))) ->
    sumR (S m) (fun i => f i * (Q2R (Y i) - (Q2R a * Q2R (X i) + Q2R b))) = 0).
  { intros f H. set (rs := fun i => Q2R (Y i) - (Q2R a * Q2R (X i) + Q2R b)) in *.
    set (g := sumR (S m) (fun i => f i * rs i)). set (ff := sumR (S m) (fun i => f i * f i)).
    assert (P : 0 <= ff) by (apply sumR_nonneg; intros; apply Rle_0_sqr).
    assert (E : forall t, sumR (S m) (fun i => sq (rs i - t * f i)) = sumR (S m) (fun i => sq (rs i)) + (-2 * t) * g + t * t * ff).
    { intros t. unfold g, ff. rewrite <- !sumR_scal, <- !sumR_plus. apply sumR_ext. intros i _. unfold sq. ring. }
    destruct (Req_dec g 0) as [Z|Z]; [exact Z|exfalso].
    destruct (Req_dec ff 0) as [F|F].
    - assert (T := H g Z). change (fun i => sq (Q2R (Y i) - (Q2R a * Q2R (X i) + Q2R b) - g * f i)) with (fun i => sq (rs i - g * f i)) in T.
      rewrite E, F in T. assert (0 < g * g) by nra. change (fun i => sq (Q2R (Y i) - (Q2R a * Q2R (X i) + Q2R b))) with (fun i => sq (rs i)) in T. lra.
    - assert (NZ : g / ff <> 0) by (unfold Rdiv; apply Rmult_integral_contrapositive; split; [exact Z|apply Rinv_neq_0_compat; exact F]).
      assert (T := H (g / ff) NZ). change (fun i => sq (Q2R (Y i) - (Q2R a * Q2R (X i) + Q2R b) - g / ff * f i)) with (fun i => sq (rs i - g / ff * f i)) in T.
      rewrite E in T. change (fun i => sq (Q2R (Y i) - (Q2R a * Q2R (X i) + Q2R b))) with (fun i => sq (rs i)) in T.
      assert (0 < g * g / ff) by (apply Rmult_lt_0_compat; [nra|apply Rinv_0_lt_compat; lra]).
      replace (-2 * (g / ff) * g) with (-2 * (g * g / ff)) in T by (field; exact F).
      replace (g / ff * (g / ff) * ff) with (g * g / ff) in T by (field; exact F). lra. }
  split.
  - rewrite <- (G (fun _ => 1)).
    + apply sumR_ext. intros. ring.
    + intros t T. assert (L := B (Q2R a) (Q2R b + t) ltac:(right; lra)). unfold sse_line in L. rewrite !sum_f_sumR in L.
      eapply Rlt_le_trans; [exact L|]. apply Req_le, sumR_ext. intros. f_equal. ring.
  - apply (G (fun i => Q2R (X i))). intros t T. assert (L := B (Q2R a + t) (Q2R b) ltac:(left; lra)). unfold sse_line in L. rewrite !sum_f_sumR in L.
    eapply Rlt_le_trans; [exact L|]. apply Req_le, sumR_ext. intros. f_equal. ring.
Qed.

Lemma spread_pos n t i j : (i < n)%nat -> (j < n)%nat -> t i <> t j -> 0 < spread n t.
Proof.
  intros Hi Hj N. set (a := sumR n t / INR n). assert (P : 0 < INR n) by (apply lt_0_INR; lia).
  assert (E : spread n t = INR n * sumR n (fun k => (t k - a) * (t k - a))).
  { rewrite (sumR_ext n _ (fun k => t k * t k + ((-2 * a) * t k + a * a))) by (intros; ring).
    rewrite !sumR_plus, sumR_scal, sumR_const. unfold spread, a. field. lra. }
  rewrite E. apply Rmult_lt_0_compat; [exact P|].
  assert (Q : exists k, (k < n)%nat /\ t k <> a).
  { destruct (Req_dec (t i) a) as [I|I]; [exists j; split; [exact Hj|congruence]|exists i; split; assumption]. }
  destruct Q as (k & Hk & Nk).
  apply Rlt_le_trans with (sumR n (fun l => if (l =? k)%nat then (t k - a) * (t k - a) else 0)).
  - rewrite sumR_delta by exact Hk. assert (t k - a <> 0) by lra. nra.
  - apply sumR_le. intros l Hl. destruct (l =? k)%nat eqn:Q; [apply Nat.eqb_eq in Q; subst; lra|apply Rle_0_sqr].
Qed.

Lemma line_near X Y m a b c d e : best_line X Y m a b ->
  (forall i, (i <= m)%nat -> 0 <= Q2R (X i)) ->
  (exists i j, (i <= m)%nat /\ (j <= m)%nat /\ Q2R (X i) <> Q2R (X j)) ->
  (forall i, (i <= m)%nat -> Rabs (Q2R (Y i) - (d + c * Q2R (X i))) <= e) ->
  Rabs (Q2R a - c) <= slope_factor (S m) (fun i => Q2R (X i)) * e /\
  Rabs (Q2R b - d) <= offset_factor (S m) (fun i => Q2R (X i)) * e.
Proof.
  intros B PX (i0 & j0 & Hi & Hj & NE) HE. destruct (best_line_normal X Y m a b B) as (N1 & N2).
  set (x := fun i => Q2R (X i)) in *. set (s := sumR (S m) x). set (xx := sumR (S m) (fun i => x i * x i)).
  set (D := spread (S m) x). assert (D0 : 0 < D) by (apply (spread_pos (S m) x i0 j0); [lia|lia|exact NE]).
  set (n := INR (S m)). assert (n0 : 0 < n) by (apply lt_0_INR; lia).
  set (r := fun i => Q2R (Y i) - (d + c * x i)).
  assert (e0 : 0 <= e) by (eapply Rle_trans; [apply Rabs_pos|apply (HE 0%nat); lia]).
  assert (s0 : 0 <= s) by (apply sumR_nonneg; intros; apply PX; lia).
  assert (xx0 : 0 <= xx) by (apply sumR_nonneg; intros; apply Rle_0_sqr).
  assert (R1 : sumR (S m) r = (Q2R a - c) * s + (Q2R b - d) * n).
  { replace (sumR (S m) r) with (sumR (S m) (fun i => Q2R (Y i) - (Q2R a * Q2R (X i) + Q2R b)) + ((Q2R a - c) * s + (Q2R b - d) * n)); [rewrite N1; ring|].
    unfold s, n. rewrite (Rmult_comm (Q2R b - d)), <- (sumR_const (S m) (Q2R b - d)), <- sumR_scal, <- !sumR_plus. apply sumR_ext. intros. unfold r, x. ring. }
  assert (R2 : sumR (S m) (fun i => x i * r i) = (Q2R a - c) * xx + (Q2R b - d) * s).
  { replace (sumR (S m) (fun i => x i * r i)) with (sumR (S m) (fun i => Q2R (X i) * (Q2R (Y i) - (Q2R a * Q2R (X i) + Q2R b))) + ((Q2R a - c) * xx + (Q2R b - d) * s)); [rewrite N2; ring|].
    unfold s, xx. rewrite <- !sumR_scal, <- !sumR_plus. apply sumR_ext. intros. unfold r, x. ring. }
  assert (A1 : Rabs (sumR (S m) r) <= n * e).
  { unfold n. rewrite <- sumR_const. apply sumR_abs_le. intros i Hi'. apply HE. lia. }
  assert (A2 : Rabs (sumR (S m) (fun i => x i * r i)) <= s * e).
  { unfold s. rewrite <- sumR_scal_r. apply sumR_abs_le. intros i Hi'. rewrite Rabs_mult, (Rabs_pos_eq (x i)) by (apply PX; lia).
    apply Rmult_le_compat_l; [apply PX; lia|apply HE; lia]. }
  assert (ED : D = n * xx - s * s) by reflexivity.
  assert (DIV : forall u w z, u * D = w -> Rabs w <= z -> Rabs u <= z / D).
  { intros u w z E L. apply (Rmult_le_reg_r D); [exact D0|]. unfold Rdiv. rewrite Rmult_assoc, Rinv_l, Rmult_1_r by lra.
    rewrite <- (Rabs_pos_eq D) at 1 by lra. rewrite <- Rabs_mult, E. exact L. }
  assert (TRI : forall p q u w z y, 0 <= p -> 0 <= q -> Rabs u <= z -> Rabs w <= y -> Rabs (p * u - q * w) <= p * z + q * y).
  { intros p q u w z y P Q U Wy. eapply Rle_trans; [apply Rabs_triang|]. rewrite Rabs_Ropp, !Rabs_mult, (Rabs_pos_eq p), (Rabs_pos_eq q) by assumption.
    apply Rplus_le_compat; apply Rmult_le_compat_l; assumption. }
  split.
  - unfold slope_factor. fold D s n. replace (2 * n * s / D * e) with ((n * (s * e) + s * (n * e)) / D) by (field; lra).
    apply (DIV _ (n * sumR (S m) (fun i => x i * r i) - s * sumR (S m) r)).
    + rewrite R1, R2, ED. ring.
    + apply TRI; (assumption || lra).
  - unfold offset_factor. fold D s n. fold xx.
    replace ((n * xx + s * s) / D * e) with ((xx * (n * e) + s * (s * e)) / D) by (field; lra).
    apply (DIV _ (xx * sumR (S m) r - s * sumR (S m) (fun i => x i * r i))).
    + rewrite R1, R2, ED. ring.
    + apply TRI; (assumption || lra).
Qed.
