(** Proofs for C116: from the measured means and variances to all figures. *)
From Coq Require Import List Bool Arith ZArith QArith Qreals Reals Lia Lra.
From Verif Require Import Base_Prelude Base_Num Base_Sum Base_SumR Base_Xreal Model_Images Model_Loader Model_Data Model_Results
  Spec_Images Spec_Data Spec_Results Spec_Chance Spec_Linear Spec_Any Spec_Near Spec_Figures Proofs_Results Proofs_Fit
  Proofs_Results2 Proofs_Near Proofs_Near2 Proofs_Near3 Proofs_Pattern2 Proofs_Figures.
Import ListNotations.
Open Scope R_scope.
Set Bullet Behavior "Strict Subproofs".

Lemma clamp_near a b d : Rabs (a - b) <= d -> Rabs (Rmax (24 / 100) a - Rmax (24 / 100) b) <= d.
Proof.
  intros H. apply abs_between in H. apply between_abs. unfold Rmax.
  destruct (Rle_dec (24 / 100) a), (Rle_dec (24 / 100) b); lra.
Qed.
Lemma clamp_value v : Q2R (if Qle_bool (24 # 100) v then v else 24 # 100) = Rmax (24 / 100) (Q2R v).
Proof.
  destruct (Qle_bool (24 # 100) v) eqn:L.
  - apply Qle_bool_iff, Qle_Rle in L. rewrite Rmax_right; [reflexivity|]. exact L.
  - apply Qle_bool_false, Qlt_Rlt in L. rewrite Rmax_left; [reflexivity|]. left. exact L.
Qed.

Lemma times_differ o n : shaped o n -> ~ at_most_two (times o) -> (1 < n)%nat /\
  exists i j, (i <= n - 1)%nat /\ (j <= n - 1)%nat /\ Q2R (at_ (r_texp (o_t o)) i) <> Q2R (at_ (r_texp (o_t o)) j).
Proof.
  intros (HT & _) N. destruct (not_two_distinct _ N) as (i & j & Hi & Hj & D). unfold times in *. rewrite HT in Hi, Hj.
  split.
  - destruct n as [|[|n]]; try lia. exfalso. assert (i = j) by lia. subst. apply D. reflexivity.
  - exists i, j. split; [lia|]. split; [lia|]. intro E. apply D, eqR_Qeq, E.
Qed.

Lemma time_line o n Y a b c d e : shaped o n -> ~ at_most_two (times o) ->
  best_line (at_ (times o)) (at_ Y) (n - 1) a b ->
  (forall i, (i < n)%nat -> 0 <= time (times o) i) ->
  (forall i, (i < n)%nat -> Rabs (Q2R (at_ Y i) - (d + c * time (times o) i)) <= e) ->
  Rabs (Q2R a - c) <= slope_factor n (time (times o)) * e /\ Rabs (Q2R b - d) <= offset_factor n (time (times o)) * e.
Proof.
  intros SH N B P H. destruct (times_differ o n SH N) as (L & DI).
  replace (slope_factor n (time (times o))) with (slope_factor (S (n - 1)) (time (times o))) by (f_equal; lia).
  replace (offset_factor n (time (times o))) with (offset_factor (S (n - 1)) (time (times o))) by (f_equal; lia).
  apply (line_near _ _ _ _ _ _ _ _ B); [intros i Hi; apply P; lia|exact DI|intros i Hi; apply H; lia].
Qed.

Lemma dark_near o T n e v0 d : shaped o n -> (0 < n)%nat ->
  (forall i, (i < n)%nat -> Rabs (Q2R (at_ (r_s2ydark (o_t o)) i) - tr_dark_var T i) <= e) -> dark_truth (times o) T n e v0 d ->
  exists s, dark_variance o = Ok s /\ Rabs (Q2R s - Rmax (24 / 100) v0) <= d /\ 24 / 100 <= Q2R s.
Proof.
  intros SH n0 MW DT. destruct (dark_variance_value o n SH n0) as (v & DV & E). eexists. split; [exact E|].
  rewrite clamp_value. split; [|apply Rmax_l]. apply clamp_near.
  destruct DT as [(F & -> & ->)|(F & P & (a & A) & ->)]; destruct DV as [(G & ->)|(G & c & B)]; try contradiction.
  - apply MW, n0.
  - apply (time_line o n _ c v a v0 e SH F B P). intros i Hi. rewrite <- (A i Hi). apply MW, Hi.
Qed.

Lemma dark_current o T n e K dk a b : shaped o n -> measured_within o T n e -> dark_rises (times o) T n a b ->
  (exists k, gain o = Ok k /\ Rabs (Q2R k - K) <= dk) -> dk < K -> current_right o n K dk e a b.
Proof.
  intros SH MW (F & P & a0 & b0 & LL) (k & EK & NK) LK. assert (k0 := near_low _ _ _ NK).
  assert (NZ : ~ (k == 0)%Q) by (apply Q2R_neq0; lra).
  destruct (u_I_mean_value o n k SH EK NZ) as (_ & M). destruct (M F) as (c & c0 & B & E1 & E2).
  destruct (u_I_var_value o n k SH EK NZ) as (_ & V). destruct (V F) as (u & u0 & B' & _ & E3).
  destruct (time_line o n _ c c0 a a0 e SH F B P) as (S1 & _).
  { intros i Hi. rewrite <- (proj1 (LL i Hi)). apply (mw_dark_mean _ _ _ _ MW i Hi). }
  destruct (time_line o n _ u u0 b b0 e SH F B' P) as (S2 & _).
  { intros i Hi. rewrite <- (proj2 (LL i Hi)). apply (mw_dark_var _ _ _ _ MW i Hi). }
  assert (SC : forall x y d, Rabs (x - y) <= d -> Rabs (10 ^ 9 * x - 10 ^ 9 * y) <= 10 ^ 9 * d) by (intros; apply scale_near; [lra|assumption]).
  unfold current_right. split; [|split].
  - eexists. split; [exact E1|]. apply SC, S1.
  - eexists. split; [exact E2|]. apply quotient_near; [apply SC, S1|exact NK|exact LK].
  - intros LS. assert (U0 : (0 <= u)%Q) by (apply Rle_Qle; rewrite Q2R_0'; pose proof (near_low _ _ _ S2); lra).
    destruct (E3 U0) as (E4 & E5). split.
    + eexists. split; [exact E4|]. apply quotient_near; [apply SC, S2|exact NK|exact LK].
    + eexists. split; [exact E5|]. replace (10 ^ 9 * Q2R u / (Q2R k * Q2R k)) with (10 ^ 9 * Q2R u / Q2R k / Q2R k) by (field; lra).
      apply quotient_near; [|exact NK|exact LK]. apply quotient_near; [apply SC, S2|exact NK|exact LK].
Qed.

Section Stable.
Variables (o : robj) (T : truth) (n p : nat) (eta K q e v0 d : R).
Hypothesis HL : linear_law T (photonsR o) p eta K q.
Hypothesis HT : clear_points T n p e.
Hypothesis HM : measured_within o T n e.
Hypothesis HS : shaped o n.
Hypothesis HU : unforced o.
Hypothesis HV : List.Forall (fun v => (0 <= v)%Q) (r_s2y (o_t o)).
Hypothesis HZ : forall i, (i < n)%nat -> tr_var T i = 0 -> (at_ (r_s2y (o_t o)) i == 0)%Q.
Hypothesis HD : dark_truth (times o) T n e v0 d.
Hypothesis SR : responsivity_error (photonsR o 0) e < K * eta.
Hypothesis SK : gain_error (photonsR o 0) eta K q e < K.
Hypothesis SD : d < Rmax (24 / 100) v0.

Lemma stable_errors : exists r k, responsivity o = Ok r /\ gain o = Ok k /\
  Rabs (Q2R r - K * eta) <= responsivity_error (photonsR o 0) e /\
  Rabs (Q2R k - K) <= gain_error (photonsR o 0) eta K q e.
Proof.
  destruct (stable_figures o T n p eta K q e HL HT HM HS HU HV HZ) as (m & r & k & M & L & Er & Ek & X0 & P & A & B).
  set (x := averageR (S m) (photonsR o)) in *. exists r, k. split; [exact Er|]. split; [exact Ek|].
  destruct (light_pos o T n p eta K q e HL HT) as (P0 & PI). assert (e0 := cl_error _ _ _ _ HT).
  assert (N0 : 0 < INR (S m)) by (apply lt_0_INR; lia).
  assert (XA : photonsR o 0 <= x).
  { unfold x. replace (photonsR o 0) with (averageR (S m) (fun _ => photonsR o 0)).
    - apply (average_le T n p e HT). intros i Hi. apply PI. lia.
    - unfold averageR. rewrite sumR_const. field. lra. }
  assert (E0 := ll_eta _ _ _ _ _ _ HL). assert (K0 := ll_gain _ _ _ _ _ _ HL).
  assert (SE := cl_seen _ _ _ _ HT). rewrite (ll_signal _ _ _ _ _ _ HL 0%nat) in SE by lia.
  assert (q0 : 0 <= q) by (eapply Rle_trans; [apply Rabs_pos|apply (ll_noise _ _ _ _ _ _ HL 0%nat); lia]).
  split.
  - eapply Rle_trans; [exact A|]. apply Rmult_le_compat_l; [lra|]. apply Rinv_le_contravar; lra.
  - eapply Rle_trans; [exact B|]. apply Rmult_le_compat_l; [|apply Rinv_le_contravar; [lra|]].
    + assert (0 <= 2 * e * (1 + K)) by (apply Rmult_le_pos; lra). lra.
    + assert (K * (eta * photonsR o 0) <= K * (eta * x)); [|lra].
      apply Rmult_le_compat_l; [lra|]. apply Rmult_le_compat_l; lra.
Qed.

Lemma stable_all : figures_right o p eta K q e v0 d.
Proof.
  destruct stable_errors as (r & k & Er & Ek & A & B). assert (PN := cl_points _ _ _ _ HT).
  destruct (dark_near o T n e v0 d HS ltac:(lia) (mw_dark_var _ _ _ _ HM) HD) as (s & Es & S1 & S2).
  destruct (light_pos o T n p eta K q e HL HT) as (P0 & PI).
  assert (EP : u_p_sat o = Ok (photons o p)).
  { unfold u_p_sat. rewrite (stable_sat o T n p e HT HM HS HU HV HZ). cbn [bind].
    destruct HS as (_ & LU & _). apply (py_get_sat _ n p (Z.of_nat p)); try assumption; try lia. }
  apply (derived_near o eta K (Rmax (24 / 100) v0) (photonsR o p) _ _ d r k s (photons o p)); try assumption.
  - reflexivity.
  - apply Rmax_l.
  - specialize (PI p (le_n p)). lra.
Qed.
End Stable.
