(** Proofs for C101. *)
From Coq Require Import List Bool Arith ZArith QArith Qreals Reals Lia Lra.
From Verif Require Import Base_Prelude Base_Num Base_Sum Base_SumR Base_Xreal Model_Images Model_Data Model_Results
  Spec_Results Spec_Linear Spec_Any Spec_Near Proofs_Results Proofs_Fit Proofs_Results2 Proofs_Ideal.
Import ListNotations.
Open Scope R_scope.

Lemma sum_f_sumR f m : sum_f_R0 f m = sumR (S m) f.
Proof. induction m; [simpl; ring|]. cbn [sum_f_R0]. rewrite IHm. reflexivity. Qed.

(** The residuals of the best slope are orthogonal to the abscissae. *)
Lemma best_normal X Y m a : best_slope X Y m a ->
  sumR (S m) (fun i => Q2R (X i) * (Q2R (Y i) - Q2R a * Q2R (X i))) = 0.
Proof.
  intros B. set (g := sumR (S m) (fun i => Q2R (X i) * (Q2R (Y i) - Q2R a * Q2R (X i)))).
  set (xx := sumR (S m) (fun i => Q2R (X i) * Q2R (X i))).
  assert (E : forall t, sse_slope X Y m (Q2R a + t) = sse_slope X Y m (Q2R a) - 2 * t * g + t * t * xx).
  { intros t. unfold sse_slope. rewrite !sum_f_sumR. unfold g, xx.
    rewrite <- !sumR_scal.
    replace (sumR (S m) (fun i => sq (Q2R (Y i) - Q2R a * Q2R (X i))) -
             sumR (S m) (fun i => 2 * t * (Q2R (X i) * (Q2R (Y i) - Q2R a * Q2R (X i)))))
      with (sumR (S m) (fun i => sq (Q2R (Y i) - Q2R a * Q2R (X i))) +
            sumR (S m) (fun i => -1 * (2 * t * (Q2R (X i) * (Q2R (Y i) - Q2R a * Q2R (X i)))))) by (rewrite (sumR_scal _ (-1)); ring).
    rewrite <- !sumR_plus. apply sumR_ext. intros i _. unfold sq. ring. }
  assert (P : 0 <= xx) by (apply sumR_nonneg; intros; apply Rle_0_sqr).
  destruct (Req_dec g 0) as [G|G]; [exact G|exfalso].
  destruct (Req_dec xx 0) as [X0|X0].
  - assert (T := B (Q2R a + g) ltac:(lra)). rewrite E, X0 in T. assert (0 < g * g) by nra. lra.
  - assert (T := B (Q2R a + g / xx) ltac:(intro Q; apply G; assert (Z : g / xx = 0) by lra; apply (f_equal (fun z => z * xx)) in Z;
      unfold Rdiv in Z; rewrite Rmult_assoc, Rinv_l in Z by exact X0; lra)).
    rewrite E in T.
    replace (- 2 * (g / xx) * g + g / xx * (g / xx) * xx) with (- (g * g / xx)) in T by (field; exact X0).
    assert (0 < g * g / xx) by (apply Rmult_lt_0_compat; [nra|apply Rinv_0_lt_compat; lra]).
    replace (sse_slope X Y m (Q2R a) - 2 * (g / xx) * g + g / xx * (g / xx) * xx)
      with (sse_slope X Y m (Q2R a) - g * g / xx) in T by (field; exact X0). lra.
Qed.

Lemma sumR_abs_le n f e : (forall i, (i < n)%nat -> Rabs (f i) <= e i) -> Rabs (sumR n f) <= sumR n e.
Proof.
  induction n as [|n IH]; intros H; cbn [sumR]; [rewrite Rabs_R0; lra|].
  eapply Rle_trans; [apply Rabs_triang|]. apply Rplus_le_compat; [apply IH; intros; apply H; lia|apply H; lia].
Qed.
Lemma sumR_pos n f : (0 < n)%nat -> (forall i, (i < n)%nat -> 0 < f i) -> 0 < sumR n f.
Proof.
  destruct n as [|n]; [lia|]. intros _ H. cbn [sumR].
  assert (0 <= sumR n f) by (apply sumR_nonneg; intros; left; apply H; lia).
  specialize (H n ltac:(lia)). lra.
Qed.
(** Sum of the squares and square of the sum. *)
Lemma sumR_cauchy n f : sumR n f * sumR n f <= INR n * sumR n (fun i => f i * f i).
Proof.
  destruct n as [|n]; [simpl; lra|]. set (N := S n). assert (P : 0 < INR N) by (apply lt_0_INR; unfold N; lia).
  set (a := sumR N f / INR N).
  assert (H : 0 <= sumR N (fun i => (f i - a) * (f i - a))) by (apply sumR_nonneg; intros; apply Rle_0_sqr).
  replace (sumR N (fun i => (f i - a) * (f i - a)))
    with (sumR N (fun i => f i * f i) - sumR N f * sumR N f / INR N) in H.
  - apply (Rmult_le_compat_l (INR N)) in H; [|lra].
    replace (INR N * (sumR N (fun i => f i * f i) - sumR N f * sumR N f / INR N))
      with (INR N * sumR N (fun i => f i * f i) - sumR N f * sumR N f) in H by (field; lra). lra.
  - rewrite (sumR_ext N (fun i => (f i - a) * (f i - a)) (fun i => f i * f i + ((-2 * a) * f i + a * a))) by (intros; ring).
    rewrite !sumR_plus, sumR_scal, sumR_const. unfold a. field. lra.
Qed.

Lemma slope_near X Y m a c e : best_slope X Y m a ->
  (forall i, (i <= m)%nat -> 0 < Q2R (X i)) ->
  (forall i, (i <= m)%nat -> Rabs (Q2R (Y i) - c * Q2R (X i)) <= e) ->
  Rabs (Q2R a - c) <= e / averageR (S m) (fun i => Q2R (X i)).
Proof.
  intros B PX HE. assert (NE := best_normal X Y m a B).
  set (x := fun i => Q2R (X i)) in *. set (s := sumR (S m) x). set (xx := sumR (S m) (fun i => x i * x i)).
  assert (S0 : 0 < s) by (apply sumR_pos; [lia|intros; apply PX; lia]).
  assert (X0 : 0 < xx) by (apply sumR_pos; [lia|intros i Hi; apply Rmult_lt_0_compat; apply PX; lia]).
  assert (N0 : 0 < INR (S m)) by (apply lt_0_INR; lia).
  assert (CS : s * s <= INR (S m) * xx) by apply sumR_cauchy.
  assert (E : (Q2R a - c) * xx = sumR (S m) (fun i => x i * (Q2R (Y i) - c * x i))).
  { replace (sumR (S m) (fun i => x i * (Q2R (Y i) - c * x i)))
      with (sumR (S m) (fun i => Q2R (X i) * (Q2R (Y i) - Q2R a * Q2R (X i))) + (Q2R a - c) * xx); [rewrite NE; ring|].
    unfold xx. rewrite <- sumR_scal, <- sumR_plus. apply sumR_ext. intros i _. unfold x. ring. }
  assert (A : Rabs (Q2R a - c) * xx <= e * s).
  { rewrite <- (Rabs_pos_eq xx) at 1 by lra. rewrite <- Rabs_mult, E. unfold s. rewrite <- sumR_scal.
    apply sumR_abs_le. intros i Hi. rewrite Rabs_mult, (Rabs_pos_eq (x i)) by (left; apply PX; lia).
    rewrite Rmult_comm. apply Rmult_le_compat_r; [left; apply PX; lia|]. apply HE. lia. }
  unfold averageR. fold s. apply (Rmult_le_reg_r (s / INR (S m))).
  { apply Rmult_lt_0_compat; [exact S0|apply Rinv_0_lt_compat; exact N0]. }
  replace (e / (s / INR (S m)) * (s / INR (S m))) with e by (field; split; lra).
  assert (EP : 0 <= e) by (eapply Rle_trans; [apply Rabs_pos|apply (HE 0%nat); lia]).
  apply (Rmult_le_reg_r (INR (S m) * xx)); [apply Rmult_lt_0_compat; assumption|].
  replace (Rabs (Q2R a - c) * (s / INR (S m)) * (INR (S m) * xx)) with ((Rabs (Q2R a - c) * xx) * s) by (field; lra).
  apply Rle_trans with (e * s * s); [apply Rmult_le_compat_r; lra|].
  rewrite Rmult_assoc. apply Rmult_le_compat_l; assumption.
Qed.

Lemma average_pos n f : (0 < n)%nat -> (forall i, (i < n)%nat -> 0 < f i) -> 0 < averageR n f.
Proof.
  intros Hn H. apply Rmult_lt_0_compat; [apply sumR_pos; assumption|].
  apply Rinv_0_lt_compat, lt_0_INR, Hn.
Qed.

Section Near.
Variables (o : robj) (n p : nat) (eta K e f : R).
Hypothesis H : near_linear o n p eta K e f.

Lemma near_range : exists m, index_sensitivity_max o = Ok m /\ (m < p)%nat.
Proof.
  pose proof (nl_saturates _ _ _ _ _ _ _ H) as SP. destruct SP as (Pn & SZ).
  destruct (largest_exists (fun i => (sig o i <= (7 # 10) * sig o p)%Q) (fun i => qle_dec2 _ _) n 0) as (m & M & _).
  - lia.
  - apply (nl_first _ _ _ _ _ _ _ H).
  - exists m. split; [apply (sensitivity_max_iff o n p (nl_shape _ _ _ _ _ _ _ H) (conj Pn SZ)); exact M|].
    destruct (le_lt_dec p m) as [L|L]; [|exact L]. exfalso. destruct M as (Mn & Mp & _).
    apply (Qlt_not_le _ _ (nl_clipped _ _ _ _ _ _ _ H m ltac:(lia))). exact Mp.
Qed.

Lemma near_figures : exists m r k,
  index_sensitivity_max o = Ok m /\ (m < p)%nat /\ responsivity o = Ok r /\ gain o = Ok k /\
  Rabs (Q2R r - K * eta) <= e / averageR (S m) (photonsR o) /\
  Rabs (Q2R k - K) <= f / averageR (S m) (sigR o) /\
  0 < averageR (S m) (photonsR o) /\ 0 < averageR (S m) (sigR o) /\
  (f / averageR (S m) (sigR o) <= K / 2 ->
   exists y, QE o = Ok (XR y) /\
     Rabs (y - 100 * eta) <= 200 / K * (e / averageR (S m) (photonsR o) + eta * (f / averageR (S m) (sigR o)))).
Proof.
  destruct near_range as (m & M & L).
  assert (NZ : forall z, 0 < Q2R z -> ~ (z == 0)%Q).
  { intros z Z E. rewrite (Qeq_eqR _ _ E) in Z. unfold Q2R in Z. simpl in Z. lra. }
  destruct (responsivity_best o n m (nl_shape _ _ _ _ _ _ _ H) M) as (r & Er & Br).
  { exists 0%nat. split; [lia|]. apply NZ, (nl_light _ _ _ _ _ _ _ H 0%nat). lia. }
  destruct (gain_best o n m (nl_shape _ _ _ _ _ _ _ H) M) as (k & Ek & Bk).
  { exists 0%nat. split; [lia|]. apply NZ, (nl_seen _ _ _ _ _ _ _ H 0%nat). lia. }
  assert (A : Rabs (Q2R r - K * eta) <= e / averageR (S m) (photonsR o)).
  { apply (slope_near _ _ _ _ _ _ Br).
    - intros i Hi. apply (nl_light _ _ _ _ _ _ _ H). lia.
    - intros i Hi. rewrite Rmult_assoc. apply (nl_signal _ _ _ _ _ _ _ H i). lia. }
  assert (B : Rabs (Q2R k - K) <= f / averageR (S m) (sigR o)).
  { apply (slope_near _ _ _ _ _ _ Bk).
    - intros i Hi. apply (nl_seen _ _ _ _ _ _ _ H). lia.
    - intros i Hi. apply (nl_noise _ _ _ _ _ _ _ H i). lia. }
  exists m, r, k. split; [exact M|]. split; [exact L|]. split; [exact Er|]. split; [exact Ek|].
  split; [exact A|]. split; [exact B|].
  split; [apply average_pos; [lia|intros; apply (nl_light _ _ _ _ _ _ _ H); lia]|].
  split; [apply average_pos; [lia|intros; apply (nl_seen _ _ _ _ _ _ _ H); lia]|].
  intros HF. set (a := e / averageR (S m) (photonsR o)) in *. set (b := f / averageR (S m) (sigR o)) in *.
  assert (K0 := nl_gain _ _ _ _ _ _ _ H). assert (E0 := nl_eta _ _ _ _ _ _ _ H).
  assert (KH : K / 2 <= Q2R k) by (clear - B HF; unfold Rabs in B; destruct (Rcase_abs (Q2R k - K)); lra).
  exists (100 * Q2R r / Q2R k). split.
  - unfold QE. rewrite Er, Ek. cbn [bind]. unfold xq, xmul, xdiv.
    destruct (Req_EM_T (Q2R k) 0) as [Z|Z]; [lra|]. do 2 f_equal. f_equal. f_equal. unfold Q2R. simpl. field.
  - replace (100 * Q2R r / Q2R k - 100 * eta) with (100 / Q2R k * ((Q2R r - K * eta) - eta * (Q2R k - K))) by (field; lra).
    assert (P : 0 < 100 / Q2R k) by (apply Rmult_lt_0_compat; [lra|apply Rinv_0_lt_compat; lra]).
    rewrite Rabs_mult, (Rabs_pos_eq (100 / Q2R k)) by lra.
    assert (Q : 100 / Q2R k <= 200 / K).
    { apply (Rmult_le_reg_r (Q2R k * K)); [apply Rmult_lt_0_compat; lra|].
      replace (100 / Q2R k * (Q2R k * K)) with (100 * K) by (field; lra).
      replace (200 / K * (Q2R k * K)) with (200 * Q2R k) by (field; lra). lra. }
    assert (T : Rabs ((Q2R r - K * eta) - eta * (Q2R k - K)) <= a + eta * b).
    { eapply Rle_trans; [apply Rabs_triang|]. rewrite Rabs_Ropp, Rabs_mult, (Rabs_pos_eq eta) by exact E0.
      apply Rplus_le_compat; [exact A|]. apply Rmult_le_compat_l; assumption. }
    apply Rmult_le_compat; [lra|apply Rabs_pos|exact Q|exact T].
Qed.
End Near.

(** ** From the truth *)
Lemma top_found o p : unforced o -> let s := r_s2y (o_t o) in
  (p < length s)%nat -> p <> 1%nat -> Forall (fun x => (0 <= x)%Q) s ->
  (forall i, (i < p)%nat -> (at_ s i < at_ s p)%Q) ->
  (forall i, (p <= i)%nat -> (S i < length s)%nat -> (at_ s (S i) <= at_ s i)%Q) ->
  fst (index_u_ysat o) = Ok (Z.of_nat p).
Proof.
  intros U s Hp P1 Hn Hup Hdown.
  assert (NE : s <> []) by (intro H; rewrite H in Hp; simpl in Hp; lia).
  destruct (saturation_index o U) as (i & E & I & C & _).
  { fold s. destruct (Nat.eq_dec (length s) 1); [right; auto|left]. lia. }
  rewrite E. do 2 f_equal. fold s in C, I.
  destruct (C (last_goes_on s NE Hn)) as (A & B).
  assert (Go : forall j, (p <= j < length s)%nat -> goes_on s j).
  { intros j Hj. left. unfold previous. destruct (S j =? length s)%nat eqn:Q.
    - unfold at_. apply (proj1 (Forall_nth _ s) Hn). lia.
    - apply Nat.eqb_neq in Q. apply Hdown; lia. }
  assert (Stop : (0 < p)%nat -> ~ goes_on s (p - 1)).
  { intros P0. unfold goes_on, previous, neighbour.
    destruct (S (p - 1) =? length s)%nat eqn:Q; [apply Nat.eqb_eq in Q; lia|].
    destruct (p - 1 =? 0)%nat eqn:Z; [apply Nat.eqb_eq in Z; lia|apply Nat.eqb_neq in Z].
    replace (S (p - 1)) with p by lia.
    intros [G|G].
    - apply (Qlt_not_le _ _ (Hup (p - 1)%nat ltac:(lia))). exact G.
    - apply (Qlt_not_le _ _ (Hup (p - 1 - 1)%nat ltac:(lia))). exact G. }
  destruct (lt_eq_lt_dec i p) as [[L|L]|L]; auto.
  - exfalso. destruct (Nat.eq_dec p 0); [lia|]. apply Stop; [lia|]. apply A. lia.
  - exfalso. destruct B as [B|B]; [lia|]. apply B. apply Go. lia.
Qed.

Lemma abs_between a b e : Rabs (a - b) <= e -> b - e <= a <= b + e.
Proof. intros H. unfold Rabs in H. destruct (Rcase_abs (a - b)); lra. Qed.
Lemma between_abs a b e : b - e <= a <= b + e -> Rabs (a - b) <= e.
Proof. intros H. unfold Rabs. destruct (Rcase_abs (a - b)); lra. Qed.

Section Stable.
Variables (o : robj) (T : truth) (n p : nat) (eta K q e : R).
Hypothesis HL : linear_law T (photonsR o) p eta K q.
Hypothesis HT : clear_points T n p e.
Hypothesis HM : measured_within o T n e.
Hypothesis HS : shaped o n.
Hypothesis HU : unforced o.
Hypothesis HV : Forall (fun v => (0 <= v)%Q) (r_s2y (o_t o)).
Hypothesis HZ : forall i, (i < n)%nat -> tr_var T i = 0 -> (at_ (r_s2y (o_t o)) i == 0)%Q.

Let LT := cl_points _ _ _ _ HT.

Lemma stable_sat : fst (index_u_ysat o) = Ok (Z.of_nat p).
Proof.
  assert (Ln : length (r_s2y (o_t o)) = n) by (destruct HS as (_ & _ & _ & E & _); exact E).
  apply (top_found o p HU); try lia; [exact HV| |].
  - intros i Hi. apply Rlt_Qlt.
    assert (A := abs_between _ _ _ (mw_var _ _ _ _ HM i ltac:(lia))).
    assert (B := abs_between _ _ _ (mw_var _ _ _ _ HM p ltac:(lia))).
    assert (R := cl_rise _ _ _ _ HT i Hi). lra.
  - intros i Hi Hs. rewrite Ln in Hs. destruct (cl_fall _ _ _ _ HT i Hi Hs) as [F|F].
    + apply Rle_Qle.
      assert (A := abs_between _ _ _ (mw_var _ _ _ _ HM i ltac:(lia))).
      assert (B := abs_between _ _ _ (mw_var _ _ _ _ HM (S i) ltac:(lia))). lra.
    + rewrite (HZ (S i) Hs F). unfold at_. apply (proj1 (Forall_nth _ _) HV). lia.
Qed.

Lemma sigR_eq i : sigR o i = Q2R (at_ (r_uy (o_t o)) i) - Q2R (at_ (r_uydark (o_t o)) i).
Proof. unfold sigR, sig. apply Q2R_minus. Qed.
Lemma noiseR_eq i : noiseR o i = Q2R (at_ (r_s2y (o_t o)) i) - Q2R (at_ (r_s2ydark (o_t o)) i).
Proof. unfold noiseR, noise. apply Q2R_minus. Qed.
Lemma sig_off i : (i < n)%nat ->
  tr_mean T i - tr_dark_mean T i - 2 * e <= sigR o i <= tr_mean T i - tr_dark_mean T i + 2 * e.
Proof.
  intros Hi. rewrite sigR_eq.
  assert (A := abs_between _ _ _ (mw_mean _ _ _ _ HM i Hi)).
  assert (B := abs_between _ _ _ (mw_dark_mean _ _ _ _ HM i Hi)). lra.
Qed.

Lemma light_pos : 0 < photonsR o 0 /\ forall i, (i <= p)%nat -> photonsR o 0 <= photonsR o i.
Proof.
  assert (E0 := ll_eta _ _ _ _ _ _ HL). assert (K0 := ll_gain _ _ _ _ _ _ HL).
  assert (KE : 0 < K * eta) by (apply Rmult_lt_0_compat; assumption).
  assert (e0 := cl_error _ _ _ _ HT). assert (SE := cl_seen _ _ _ _ HT).
  rewrite (ll_signal _ _ _ _ _ _ HL 0%nat) in SE by lia. split.
  - destruct (Rlt_le_dec 0 (photonsR o 0)) as [L|L]; [exact L|exfalso].
    assert (K * (eta * photonsR o 0) <= 0) by (rewrite <- Rmult_assoc; nra). lra.
  - intros i Hi. destruct i as [|i]; [lra|].
    assert (M := cl_more _ _ _ _ HT (S i) ltac:(lia)). rewrite !(ll_signal _ _ _ _ _ _ HL) in M by lia.
    rewrite <- !Rmult_assoc in M. apply (Rmult_le_reg_l (K * eta)); assumption.
Qed.

Lemma stable_near : near_linear o n p eta K (2 * e) (2 * e * (1 + K) + q).
Proof.
  assert (E0 := ll_eta _ _ _ _ _ _ HL). assert (K0 := ll_gain _ _ _ _ _ _ HL).
  assert (e0 := cl_error _ _ _ _ HT). assert (SE := cl_seen _ _ _ _ HT).
  assert (KE : 0 < K * eta) by (apply Rmult_lt_0_compat; assumption).
  destruct light_pos as (X0 & XI). rewrite (ll_signal _ _ _ _ _ _ HL 0%nat) in SE by lia.
  assert (XM : forall i, (i <= p)%nat -> K * (eta * photonsR o 0) <= K * (eta * photonsR o i)).
  { intros i Hi. rewrite <- !Rmult_assoc. apply Rmult_le_compat_l; [lra|]. apply XI, Hi. }
  constructor.
  - exact HS.
  - split; [lia|]. exists (Z.of_nat p). split; [exact stable_sat|left; reflexivity].
  - lra.
  - exact K0.
  - intros i Hi. specialize (XI i Hi). lra.
  - intros i Hi. assert (A := sig_off i ltac:(lia)). rewrite (ll_signal _ _ _ _ _ _ HL i Hi) in A.
    specialize (XM i Hi). lra.
  - intros i Hi. apply between_abs. assert (A := sig_off i ltac:(lia)).
    rewrite (ll_signal _ _ _ _ _ _ HL i Hi) in A. lra.
  - intros i Hi. apply between_abs. rewrite noiseR_eq.
    assert (A := sig_off i ltac:(lia)).
    assert (V := abs_between _ _ _ (mw_var _ _ _ _ HM i ltac:(lia))).
    assert (D := abs_between _ _ _ (mw_dark_var _ _ _ _ HM i ltac:(lia))).
    assert (N := abs_between _ _ _ (ll_noise _ _ _ _ _ _ HL i Hi)).
    set (m := tr_mean T i - tr_dark_mean T i) in *.
    assert (K * (m - 2 * e) <= K * sigR o i <= K * (m + 2 * e)) by (split; apply Rmult_le_compat_l; lra).
    lra.
  - apply Rle_Qle. rewrite Q2R_mult. fold (sigR o 0) (sigR o p).
    assert (A := sig_off 0%nat ltac:(lia)). assert (B := sig_off p ltac:(lia)).
    rewrite (ll_signal _ _ _ _ _ _ HL) in A, B by lia.
    assert (F := cl_first _ _ _ _ HT). rewrite !(ll_signal _ _ _ _ _ _ HL) in F by lia. replace (Q2R (7 # 10)) with (7 / 10) by (unfold Q2R; simpl; field). lra.
  - intros i Hi. apply Rlt_Qlt. rewrite Q2R_mult. fold (sigR o i) (sigR o p).
    assert (A := sig_off i ltac:(lia)). assert (B := sig_off p ltac:(lia)).
    rewrite (ll_signal _ _ _ _ _ _ HL p) in B by lia.
    assert (F := cl_clipped _ _ _ _ HT i Hi). assert (G := cl_gap _ _ _ _ HT).
    rewrite (ll_signal _ _ _ _ _ _ HL p) in F, G by lia. replace (Q2R (7 # 10)) with (7 / 10) by (unfold Q2R; simpl; field). lra.
Qed.

Lemma average_le m f g : (forall i, (i <= m)%nat -> f i <= g i) -> averageR (S m) f <= averageR (S m) g.
Proof.
  intros L. apply Rmult_le_compat_r; [apply Rlt_le, Rinv_0_lt_compat, lt_0_INR; lia|].
  apply sumR_le. intros i Hi. apply L. lia.
Qed.

Lemma stable_figures : right_within o p eta K q e.
Proof.
  destruct (near_figures _ _ _ _ _ _ _ stable_near) as (m & r & k & M & L & Er & Ek & A & B & X0 & S0 & _).
  exists m, r, k. split; [exact M|]. split; [exact L|]. split; [exact Er|]. split; [exact Ek|]. intros x.
  split; [exact X0|].
  assert (E0 := ll_eta _ _ _ _ _ _ HL). assert (K0 := ll_gain _ _ _ _ _ _ HL).
  assert (KE : 0 < K * eta) by (apply Rmult_lt_0_compat; assumption).
  assert (SE := cl_seen _ _ _ _ HT). rewrite (ll_signal _ _ _ _ _ _ HL 0%nat) in SE by lia.
  assert (N0 : 0 < INR (S m)) by (apply lt_0_INR; lia).
  assert (XA : photonsR o 0 <= x).
  { unfold x. replace (photonsR o 0) with (averageR (S m) (fun _ => photonsR o 0)).
    - apply average_le. intros i Hi. apply light_pos. lia.
    - unfold averageR. rewrite sumR_const. field. lra. }
  assert (P : 0 < K * (eta * x) - 2 * e).
  { assert (K * (eta * photonsR o 0) <= K * (eta * x)) by (rewrite <- !Rmult_assoc; apply Rmult_le_compat_l; lra). lra. }
  split; [exact P|]. split; [exact A|]. eapply Rle_trans; [exact B|].
  assert (F0 : 0 <= 2 * e * (1 + K) + q).
  { eapply Rle_trans; [apply Rabs_pos|]. apply (nl_noise _ _ _ _ _ _ _ stable_near 0%nat). lia. }
  apply Rmult_le_compat_l; [exact F0|]. apply Rinv_le_contravar; [exact P|].
  replace (K * (eta * x) - 2 * e) with (averageR (S m) (fun i => K * (eta * photonsR o i) - 2 * e)).
  - apply average_le. intros i Hi. assert (G := sig_off i ltac:(lia)).
    rewrite (ll_signal _ _ _ _ _ _ HL) in G by lia. lra.
  - unfold averageR, x, averageR.
    rewrite (sumR_ext _ _ (fun i => K * eta * photonsR o i + - (2 * e))) by (intros; ring).
    rewrite sumR_plus, sumR_scal, sumR_const. field. lra.
Qed.
End Stable.
