(** Proofs for C117: the linearity error of a measured sensor, and how unlikely a larger one is. *)
From Coq Require Import List Bool Arith ZArith QArith Qreals Reals Lia Lra.
From Verif Require Import Base_Prelude Base_Str Base_Num Base_Order Base_Sum Base_SumR Base_Xreal Model_Images Model_Loader Model_Data
  Model_Parser Model_Results Model_Emva Spec_Parser
  Spec_Images Spec_Data Spec_Results Spec_Chance Spec_Linear Spec_Any Spec_Near Spec_Figures Spec_Straight Spec_Emva Spec_Whole
  Proofs_Results Proofs_Results3 Proofs_Near Proofs_Near2 Proofs_Near3 Proofs_Near4 Proofs_Emva2 Proofs_Emva3 Proofs_Whole Proofs_Whole2
  Proofs_Figures Proofs_Figures3 Proofs_Figures4 Proofs_Straight Proofs_Straight2 Proofs_Ideal.
Import ListNotations.
Open Scope R_scope.
Set Bullet Behavior "Strict Subproofs".

Section Stable.
Variables (o : robj) (T : truth) (n p : nat) (eta K q e : R).
Hypothesis HL : linear_law T (photonsR o) p eta K q.
Hypothesis HT : clear_points T n p e.
Hypothesis HM : measured_within o T n e.
Hypothesis HS : shaped o n.
Hypothesis HU : unforced o.
Hypothesis HV : List.Forall (fun v => (0 <= v)%Q) (r_s2y (o_t o)).
Hypothesis HZ : forall i, (i < n)%nat -> tr_var T i = 0 -> (at_ (r_s2y (o_t o)) i == 0)%Q.
Hypothesis HR : clear_range T (photonsR o) p e.
Let d := signal_part (photonsR o 0) eta K e.
Hypothesis HD : sqrt (INR p) * d < 1.

Let LT := cl_points _ _ _ _ HT.
Let near := stable_near o T n p eta K q e HL HT HM HS HU HV HZ.
Let SG := sig_off o T n e HM.

Lemma stable_straight : straight_within o (low_error p d) (high_error p d).
Proof.
  pose proof (nl_saturates _ _ _ _ _ _ _ near) as SP. destruct SP as (Pn & SZ).
  destruct HR as (GAP & i & j & IJ & XX & LI & LJ).
  assert (e0 := cl_error _ _ _ _ HT). assert (SE := cl_seen _ _ _ _ HT).
  assert (SPp := SG p Pn).
  assert (F5 : Q2R (5 # 100) = 5 / 100) by (unfold Q2R; simpl; field).
  assert (F95 : Q2R (95 # 100) = 95 / 100) by (unfold Q2R; simpl; field).
  destruct (smallest_exists (fun i => ((5 # 100) * sig o p <= sig o i)%Q) (fun i => qle_dec2 _ _) n i) as (lo & Ml & Ll).
  { lia. }
  { apply Rle_Qle. rewrite Q2R_mult, F5. fold (sigR o p) (sigR o i). assert (A := SG i ltac:(lia)). lra. }
  destruct (largest_exists (fun i => (sig o i <= (95 # 100) * sig o p)%Q) (fun i => qle_dec2 _ _) n j) as (hi & Mh & Lh).
  { lia. }
  { apply Rle_Qle. rewrite Q2R_mult, F95. fold (sigR o p) (sigR o j). assert (A := SG j ltac:(lia)). lra. }
  assert (Hp : (hi < p)%nat).
  { destruct (le_lt_dec p hi) as [L|L]; [exfalso|exact L]. destruct Mh as (Mn & Mp & _).
    apply Qle_Rle in Mp. rewrite Q2R_mult, F95 in Mp. fold (sigR o p) (sigR o hi) in Mp.
    assert (A := SG hi Mn). assert (CL := cl_clipped _ _ _ _ HT hi ltac:(lia)). lra. }
  assert (KX : 0 < K * (eta * photonsR o 0) - 2 * e).
  { rewrite <- (ll_signal _ _ _ _ _ _ HL 0%nat) by lia. lra. }
  assert (SP : forall k, (k <= p)%nat -> K * (eta * photonsR o 0) - 2 * e <= sigR o k).
  { intros k Hk. assert (A := SG k ltac:(lia)). rewrite <- (ll_signal _ _ _ _ _ _ HL 0%nat) by lia.
    destruct k as [|k]; [lra|]. assert (M := cl_more _ _ _ _ HT (S k) ltac:(lia)). lra. }
  apply (error_line o n lo hi HS) with (c := K * eta) (e := 0).
  - apply (linearity_min_iff o n p HS (conj Pn SZ)). exact Ml.
  - apply (linearity_max_iff o n p HS (conj Pn SZ)). exact Mh.
  - intros k (_ & Hk) Z. apply Q2R_zero in Z. assert (A := SP k ltac:(lia)). unfold sigR in A. lra.
  - exists i, j. unfold in_range. split; [lia|]. split; [lia|]. intros Z. apply XX. unfold photonsR. apply Qeq_eqR, Z.
  - lia.
  - unfold d, signal_part. apply Rmult_le_pos; [lra|apply Rlt_le, Rinv_0_lt_compat, KX].
  - exact HD.
  - intros k (_ & Hk). fold (sigR o k) (photonsR o k). assert (A := SG k ltac:(lia)). assert (Bk := SP k ltac:(lia)).
    rewrite (ll_signal _ _ _ _ _ _ HL k) in A by lia. rewrite (Rabs_pos_eq (sigR o k)) by lra.
    apply Rle_trans with (2 * e).
    + apply between_abs. lra.
    + unfold d, signal_part. set (z := K * (eta * photonsR o 0) - 2 * e) in *.
      assert (0 <= 2 * e / z) by (apply Rmult_le_pos; [lra|apply Rlt_le, Rinv_0_lt_compat, KX]).
      replace (2 * e) with (2 * e / z * z) at 1 by (field; lra). apply Rmult_le_compat_l; assumption.
Qed.
End Stable.

Lemma range_ext T x x' p e : (forall i, (i <= p)%nat -> x i = x' i) -> clear_range T x p e -> clear_range T x' p e.
Proof.
  intros E (G & i & j & IJ & X & R). split; [exact G|]. exists i, j. split; [exact IJ|]. split; [|exact R].
  rewrite <- !E by lia. exact X.
Qed.

Section Measured.
Context {W : Type} (C : chance W) (O : W -> robj) (B D : nat -> W -> list image) (n h w p : nat) (T : truth)
  (x : nat -> R) (V M eta K q e : R).
Hypothesis ME : measurement C O B D n h w T x V M.
Hypothesis HL : linear_law T x p eta K q.
Hypothesis HC : clear_points T n p e.
Hypothesis HN : (2 <= h * w)%nat.
Hypothesis e0 : 0 < e.
Hypothesis HR : clear_range T x p e.
Hypothesis HD : sqrt (INR p) * signal_part (x 0%nat) eta K e < 1.

Lemma straight_unlikely :
  let d := signal_part (x 0%nat) eta K e in
  unlikely C (fun o => ~ straight_within (O o) (low_error p d) (high_error p d))
    (INR n / INR (h * w) * ((V + 2 * M) / (e * e) + 4 * V / e)).
Proof.
  intros d. eapply unlikely_mono; [|apply Rle_refl|eapply within_unlikely; eassumption].
  intros o N MW. apply N. clear N.
  assert (LP := cl_points _ _ _ _ HC).
  assert (L0 : forall i, (i <= p)%nat -> x i = photonsR (O o) i).
  { intros i Hi. symmetry. apply (me_light _ _ _ _ _ _ _ _ _ _ _ ME o i). lia. }
  unfold d. rewrite (L0 0%nat) by lia.
  apply (stable_straight (O o) T n p eta K q e).
  - apply (law_ext T x); assumption.
  - exact HC.
  - exact MW.
  - apply (me_shape _ _ _ _ _ _ _ _ _ _ _ ME).
  - apply (me_unforced _ _ _ _ _ _ _ _ _ _ _ ME).
  - apply Forall_forall. intros v Hv. apply (In_nth _ _ 0%Q) in Hv. destruct Hv as (i & Hi & <-).
    destruct (me_shape _ _ _ _ _ _ _ _ _ _ _ ME o) as (_ & _ & _ & EL & _). rewrite EL in Hi.
    destruct (me_computed _ _ _ _ _ _ _ _ _ _ _ ME o i Hi) as (CB & _).
    destruct (me_bright _ _ _ _ _ _ _ _ _ _ _ ME i Hi) as (OK & mu & s2 & NP & _).
    apply (computed_nonneg h w (B i o) (at_ (r_uy (o_t (O o))) i)); [apply OK| |lia|exact CB].
    apply (rs_length _ _ _ _ _ _ _ _ (np_series _ _ _ _ _ _ _ _ NP)).
  - intros i Hi. apply (me_clipped _ _ _ _ _ _ _ _ _ _ _ ME o i Hi).
  - apply (range_ext T x); assumption.
  - rewrite <- (L0 0%nat) by lia. exact HD.
Qed.
End Measured.

Section Files.
Context {W : Type} (C : chance W) (fs : W -> fsys) (h w : nat) (fname t : str) (es : list entry)
  (ps : list (entry * entry)) (visit_t visit_s : exposure_dict -> exposure_dict) (T : truth) (V M : R).
Hypothesis VT : any_order visit_t.
Hypothesis VS : any_order visit_s.
Hypothesis L : lists fname t es.
Hypothesis CS : forall o, complete_set (fs o) h w es.
Hypothesis PS : points_of es ps.
Hypothesis RF : random_files C fs ps h w T V M.
Variables (p : nat) (eta K q e : R).
Hypothesis HL : linear_law T (stated_light ps) p eta K q.
Hypothesis HC : clear_points T (length ps) p e.
Hypothesis HN : (2 <= h * w)%nat.
Hypothesis e0 : 0 < e.
Hypothesis HR : clear_range T (stated_light ps) p e.
Hypothesis HD : sqrt (INR p) * signal_part (stated_light ps 0) eta K e < 1.

Lemma file_straight :
  let d := signal_part (stated_light ps 0) eta K e in
  unlikely C (fun o => ~ exists x, emva (fs o) visit_t visit_s fname (Some t) = Ok (Some x) /\
      straight_within x (low_error p d) (high_error p d))
    (INR (length ps) / INR (h * w) * ((V + 2 * M) / (e * e) + 4 * V / e)).
Proof.
  intros d. apply (whole_event C fs h w fname t es ps visit_t visit_s VT VS L CS PS).
  apply (straight_unlikely C _ _ _ _ _ _ p T (stated_light ps) V M eta K q e
    (whole_measurement C fs h w fname t es ps visit_t visit_s T V M VT VS L CS PS RF)); assumption.
Qed.
End Files.

(** ** Cases *)
Lemma warm_range sp : clear_range warm_truth (photonsR (warm_data sp)) 2 (1 / 50).
Proof.
  split; [cbn; lra|]. exists 0%nat, 1%nat. split; [lia|]. split; [unfold photonsR, photons, Q2R; cbn; lra|]. cbn. split; lra.
Qed.
Lemma sqrt_two : sqrt (INR 2) <= 3 / 2.
Proof. replace (INR 2) with 2 by (cbn; ring). rewrite <- (sqrt_square (3 / 2)) by lra. apply sqrt_le_1_alt. lra. Qed.
Lemma warm_part sp : sqrt (INR 2) * signal_part (photonsR (warm_data sp) 0) (1 / 2) 1 (1 / 50) < 1.
Proof.
  assert (S := sqrt_two). assert (P := sqrt_pos (INR 2)).
  replace (signal_part _ _ _ _) with (1 / 24) by (unfold signal_part, photonsR, photons, Q2R; cbn; field). lra.
Qed.
Lemma row_range : clear_range row_truth (stated_light row_points) 2 (1 / 50).
Proof.
  split; [cbn; lra|]. exists 0%nat, 1%nat. split; [lia|]. split; [|cbn; split; lra].
  change (row_light 0 <> row_light 1). unfold row_light, Q2R. cbn. lra.
Qed.
Lemma row_part : sqrt (INR 2) * signal_part (stated_light row_points 0) (1 / 2) 1 (1 / 50) < 1.
Proof.
  assert (S := sqrt_two). assert (P := sqrt_pos (INR 2)).
  change (stated_light row_points 0) with (row_light 0).
  replace (signal_part _ _ _ _) with (1 / 24) by (unfold signal_part, row_light, Q2R; cbn; field). lra.
Qed.
