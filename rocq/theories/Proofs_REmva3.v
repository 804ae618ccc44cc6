(** Proofs for C119: wrong figures are unlikely in double precision as well. *)
From Coq Require Import List Bool Arith ZArith QArith Qabs Qreals Reals Lia Lra.
From Verif Require Import Base_Prelude Base_Str Base_Num Base_Order Base_Sum Base_SumR Base_Xreal Model_Images Model_Loader Model_Data
  Model_Parser Model_Results Model_Emva Model_Rounded Model_RoundedSpatial Model_RoundedEmva Spec_Parser
  Spec_Images Spec_Data Spec_Results Spec_Chance Spec_Linear Spec_Any Spec_Near Spec_Figures Spec_Straight Spec_Emva Spec_Whole
  Spec_Rounded Spec_RoundedSpatial Spec_RoundedEmva Proofs_Fit Proofs_Data Proofs_Data2 Proofs_Rounded
  Proofs_Results2 Proofs_Near Proofs_Near2 Proofs_Near3 Proofs_Emva Proofs_Emva2 Proofs_Emva3 Proofs_Whole Proofs_Figures Proofs_Figures2 Proofs_Figures3
  Proofs_Straight3 Proofs_Float Proofs_Emva4 Proofs_REmva2.
Import ListNotations.
Open Scope R_scope.
Set Bullet Behavior "Strict Subproofs".

Lemma apart_at e a b i : apart_by e a b -> (i < length b)%nat -> Rabs (Q2R (at_ a i) - Q2R (at_ b i)) <= Q2R e.
Proof.
  intro H. revert i. induction H as [|x y a b K H IH]; intros i L; cbn [length] in L; [lia|].
  destruct i as [|i]; [|apply IH; lia]. unfold at_. cbn [nth]. rewrite <- Q2R_minus, <- Q2R_Qabs. apply Qle_Rle. exact K.
Qed.
Lemma apart_length e a b : apart_by e a b -> length a = length b.
Proof. induction 1; cbn [length]; congruence. Qed.
Lemma zeros_at y x i : zeros_kept y x -> (at_ (r_s2y (o_t x)) i == 0)%Q -> (at_ (r_s2y (o_t y)) i == 0)%Q.
Proof.
  unfold zeros_kept. generalize (r_s2y (o_t y)) (r_s2y (o_t x)). intros a b H. revert i.
  induction H as [|u v a b K H IH]; intros [|i] Z; unfold at_ in *; cbn [nth] in *; try reflexivity; auto.
Qed.

Section Files.
Context {W : Type} (C : chance W) (fs : W -> fsys) (h w : nat) (fname t : str) (es : list entry)
  (ps : list (entry * entry)) (visit_t visit_s : exposure_dict -> exposure_dict) (T : truth) (V M : R)
  (ad : additions) (n : nat) (b : Z).
Hypothesis VT : any_order visit_t.
Hypothesis VS : any_order visit_s.
Hypothesis L : lists fname t es.
Hypothesis CS : forall o, complete_set (fs o) h w es.
Hypothesis PS : points_of es ps.
Hypothesis RF : random_files C fs ps h w T V M.
Hypothesis SA : sound_additions ad n h w.
Hypothesis FB : forall o, files_bits (fs o) es h w b.
Variable e : R.
Hypothesis e0 : 0 < e.
Let E := e + Q2R (variance_error b).
Hypothesis NS : noise_seen fs ps h w T E.
Let obj := the_obj fs fname t visit_t visit_s.

Lemma error_pos : 0 <= Q2R (variance_error b).
Proof.
  unfold variance_error. rewrite Q2R_div by (unfold Qeq, inject_Z; cbn [Qnum Qden]; lia). rewrite !Q2R_inject_Z.
  apply Rmult_le_pos; [apply IZR_le; apply Z.pow_nonneg; lia|]. apply Rlt_le, Rinv_0_lt_compat, IZR_lt. lia.
Qed.

Lemma all_quiet o : measured_within (obj o) T (length ps) e -> quiet_pairs_equal (fs o) es h w.
Proof.
  intros MW x A B Hx Tx I Z r c Hr Hc. pose proof error_pos as EP.
  destruct (the_chain fs h w fname t es ps visit_t visit_s VT VS L CS PS o) as (rows & _ & OK & F). fold (obj o) in OK.
  destruct OK as ((RO & _ & _ & RW) & _ & _ & A3 & A4 & A5 & A6 & _). rewrite Forall_forall in RO.
  assert (POS : forall i, (i < length ps)%nat -> exists p rw, nth_error ps i = Some p /\ nth_error rows i = Some rw /\ w_bright rw = fst p /\ w_dark rw = snd p /\ In rw rows).
  { intros i Hi. destruct (nth_error ps i) as [p|] eqn:N; [|apply nth_error_None in N; lia].
    destruct (f2_nth_error _ _ _ _ _ F N) as (rw & Hr' & X1 & X2). exists p, rw. repeat split; auto. eapply nth_error_In; eauto. }
  assert (DD : dark_entry x \/ ~ dark_entry x) by (unfold dark_entry, is_dark; destruct (feq _ _); [left|right]; congruence).
  destruct DD as [Dx|Dx].
  - (* a dark pair belongs to some point *)
    destruct (cs_bright _ _ _ _ (CS o) x Hx Tx) as (bx & Hb & Tb & Db & Eb).
    destruct PS as (_ & PB & PD).
    assert (Ib : In bx (map fst ps)) by (apply PB; auto). apply in_map_iff in Ib. destruct Ib as ((b0 & d0) & E0 & Ip). cbn [fst] in E0. subst b0.
    destruct (PD _ _ Ip) as (Hd & Td & Dd & Ed).
    assert (d0 = x).
    { apply (apart_eq es); auto; [eapply lists_apart; exact L|].
      split; [unfold temporal_entry in *; congruence|].
      destruct (cs_finite _ _ _ _ (CS o) _ Hx) as ((u & Fu) & _).
      split; [|apply dark_feq; auto]. rewrite Ed, Eb, Fu. unfold feq. simpl. apply Qeq_bool_iff. reflexivity. }
    subst d0. apply In_nth_error in Ip. destruct Ip as (i & Ni).
    assert (Hi : (i < length ps)%nat) by (apply nth_error_Some; congruence).
    destruct (POS i Hi) as (p & rw & Np & Nr & _ & Wd & Ir). rewrite Ni in Np. injection Np as <-. cbn [snd] in Wd.
    destruct (RO rw Ir) as (_ & _ & _ & _ & _ & I2). rewrite Wd in I2.
    pose proof (images_fun _ _ _ _ I I2) as EQ. injection EQ as -> ->.
    pose proof (mw_dark_var _ _ _ _ MW i Hi) as K.
    rewrite (Qeq_eqR _ _ (at_qeq _ _ _ _ _ _ A6 Nr)) in K. unfold w_dark_var in K. rewrite (Qeq_eqR _ _ Z) in K.
    destruct (NS i _ _ Ni) as (_ & [N2|N2]).
    + exfalso. unfold E in N2. replace (Q2R 0) with 0 in K by (unfold Q2R; cbn; lra).
      unfold Rabs in K. destruct (Rcase_abs _); lra.
    + apply (N2 o); auto. apply images_contents. exact I.
  - destruct PS as (_ & PB & PD).
    assert (Ib : In x (map fst ps)) by (apply PB; auto). apply in_map_iff in Ib. destruct Ib as ((b0 & d0) & E0 & Ip). cbn [fst] in E0. subst b0.
    apply In_nth_error in Ip. destruct Ip as (i & Ni).
    assert (Hi : (i < length ps)%nat) by (apply nth_error_Some; congruence).
    destruct (POS i Hi) as (p & rw & Np & Nr & Wb & _ & Ir). rewrite Ni in Np. injection Np as <-. cbn [fst] in Wb.
    destruct (RO rw Ir) as (I1 & _). rewrite Wb in I1.
    pose proof (images_fun _ _ _ _ I I1) as EQ. injection EQ as -> ->.
    pose proof (mw_var _ _ _ _ MW i Hi) as K.
    rewrite (Qeq_eqR _ _ (at_qeq _ _ _ _ _ _ A4 Nr)) in K. unfold w_var in K. rewrite (Qeq_eqR _ _ Z) in K.
    destruct (NS i _ _ Ni) as ([N1|N1] & _).
    + apply (rf_clipped _ _ _ _ _ _ _ _ RF i x d0 o _ _ Ni N1); auto. apply images_contents. exact I.
    + exfalso. unfold E in N1. replace (Q2R 0) with 0 in K by (unfold Q2R; cbn; lra).
      unfold Rabs in K. destruct (Rcase_abs _); lra.
Qed.

(** What is known of the computed data. *)
Record good_data (y : robj) : Prop := {
  gd_within : measured_within y T (length ps) E;
  gd_shape : shaped y (length ps);
  gd_unforced : unforced y;
  gd_nonneg : List.Forall (fun v => (0 <= v)%Q) (r_s2y (o_t y));
  gd_zero : forall i, (i < length ps)%nat -> tr_var T i = 0 -> (at_ (r_s2y (o_t y)) i == 0)%Q;
  gd_light : forall i, (i < length ps)%nat -> photonsR y i = stated_light ps i;
  gd_times : times y = stated_times ps
}.

Lemma computed_good o : measured_within (obj o) T (length ps) e ->
  exists y, emva_f ad (fs o) visit_t visit_s fname (Some t) = Ok (Some y) /\ good_data y.
Proof.
  intro MW. destruct (emva_near (fs o) h w visit_t visit_s fname t es ad n b VT VS L (CS o) SA (FB o)) as (x & rows & y & EX & OK & EY & ON & ZK).
  exists y. split; [exact EY|]. specialize (ZK (all_quiet o MW)).
  assert (X : obj o = x) by (unfold obj, the_obj; rewrite EX; reflexivity). rewrite <- X in *. clear X.
  pose proof (whole_measurement C fs h w fname t es ps visit_t visit_s T V M VT VS L CS PS RF) as ME.
  pose proof (me_shape _ _ _ _ _ _ _ _ _ _ _ ME o) as SH. pose proof (me_unforced _ _ _ _ _ _ _ _ _ _ _ ME o) as UF.
  fold obj in SH, UF. pose proof SH as (S1 & S2 & S3 & S4 & S5 & S6). pose proof error_pos as EP.
  assert (ZZ : forall i, (i < length ps)%nat -> tr_var T i = 0 -> (at_ (r_s2y (o_t y)) i == 0)%Q).
  { intros i Hi Z. apply (zeros_at _ _ _ ZK). apply (me_clipped _ _ _ _ _ _ _ _ _ _ _ ME o i Hi Z). }
  assert (NEAR : forall l m tr, apart_by (variance_error b) l m -> length m = length ps ->
    (forall i, (i < length ps)%nat -> Rabs (Q2R (at_ m i) - tr i) <= e) ->
    forall i, (i < length ps)%nat -> Rabs (Q2R (at_ l i) - tr i) <= E).
  { intros l m tr AP LM K i Hi. replace (Q2R (at_ l i) - tr i) with ((Q2R (at_ l i) - Q2R (at_ m i)) + (Q2R (at_ m i) - tr i)) by ring.
    eapply Rle_trans; [apply Rabs_triang|]. pose proof (apart_at _ _ _ i AP ltac:(lia)). specialize (K i Hi). unfold E. lra. }
  assert (MY : measured_within y T (length ps) E).
  { constructor.
    - apply (NEAR _ _ _ (on_mean _ _ _ _ ON)); [assumption|]. apply (mw_mean _ _ _ _ MW).
    - apply (NEAR _ _ _ (on_var _ _ _ _ ON)); [assumption|]. apply (mw_var _ _ _ _ MW).
    - apply (NEAR _ _ _ (on_dark_mean _ _ _ _ ON)); [assumption|]. apply (mw_dark_mean _ _ _ _ MW).
    - apply (NEAR _ _ _ (on_dark_var _ _ _ _ ON)); [assumption|]. apply (mw_dark_var _ _ _ _ MW). }
  assert (SY : shaped y (length ps)).
  { unfold shaped. rewrite (on_times _ _ _ _ ON), (on_photons _ _ _ _ ON), (apart_length _ _ _ (on_mean _ _ _ _ ON)), (apart_length _ _ _ (on_var _ _ _ _ ON)),
      (apart_length _ _ _ (on_dark_mean _ _ _ _ ON)), (apart_length _ _ _ (on_dark_var _ _ _ _ ON)). tauto. }
  constructor; auto.
  - unfold unforced in *. rewrite (on_forced _ _ _ _ ON). exact UF.
  - apply Forall_forall. intros v Hv. apply (In_nth _ _ 0%Q) in Hv. destruct Hv as (i & Hi & <-).
    destruct SY as (_ & _ & _ & EL & _). rewrite EL in Hi. fold (at_ (r_s2y (o_t y)) i).
    destruct (nth_error ps i) as [(pb & pd)|] eqn:Np; [|apply nth_error_None in Np; lia].
    destruct (NS i _ _ Np) as ([N|N] & _); [rewrite (ZZ i Hi N); apply Qle_refl|].
    apply Rle_Qle. replace (Q2R 0) with 0 by (unfold Q2R; cbn; lra). pose proof (mw_var _ _ _ _ MY i Hi) as K.
    unfold Rabs in K. destruct (Rcase_abs _); lra.
  - intros i Hi. rewrite <- (me_light _ _ _ _ _ _ _ _ _ _ _ ME o i Hi). fold obj. unfold photonsR, photons. rewrite (on_photons _ _ _ _ ON). reflexivity.
  - unfold times. rewrite (on_times _ _ _ _ ON). apply (file_times fs h w fname t es ps visit_t visit_s VT VS L CS PS o).
Qed.

Hypothesis HN : (2 <= h * w)%nat.
Lemma good_likely (P : robj -> Prop) : (forall y, good_data y -> P y) ->
  unlikely C (fun o => ~ exists y, emva_f ad (fs o) visit_t visit_s fname (Some t) = Ok (Some y) /\ P y)
    (INR (length ps) / INR (h * w) * ((V + 2 * M) / (e * e) + 4 * V / e)).
Proof.
  intro H. eapply unlikely_mono; [|apply Rle_refl|eapply within_unlikely; [exact (whole_measurement C fs h w fname t es ps visit_t visit_s T V M VT VS L CS PS RF)|exact HN|exact e0]].
  intros o N MW. apply N. destruct (computed_good o MW) as (y & EY & GD). exists y. auto.
Qed.

Variables (p : nat) (eta K q : R).
Hypothesis HL : linear_law T (stated_light ps) p eta K q.
Hypothesis HC : clear_points T (length ps) p E.

Lemma good_law y : good_data y -> linear_law T (photonsR y) p eta K q.
Proof. intro G. apply (law_ext T (stated_light ps)); [|exact HL]. intros i Hi. symmetry. apply (gd_light _ G). pose proof (cl_points _ _ _ _ HC). lia. Qed.
Lemma good_first y : good_data y -> photonsR y 0 = stated_light ps 0.
Proof. intro G. apply (gd_light _ G). pose proof (cl_points _ _ _ _ HC). lia. Qed.

Lemma float_gain :
  unlikely C (fun o => ~ exists y, emva_f ad (fs o) visit_t visit_s fname (Some t) = Ok (Some y) /\ right_within y p eta K q E)
    (INR (length ps) / INR (h * w) * ((V + 2 * M) / (e * e) + 4 * V / e)).
Proof.
  apply good_likely. intros y G. destruct G as [G1 G2 G3 G4 G5 G6 G7] eqn:X. clear X.
  apply (stable_figures y T (length ps) p eta K q E); auto. apply good_law. constructor; auto.
Qed.

Lemma float_linearity : clear_range T (stated_light ps) p E ->
  sqrt (INR p) * signal_part (stated_light ps 0) eta K E < 1 ->
  let d := signal_part (stated_light ps 0) eta K E in
  unlikely C (fun o => ~ exists y, emva_f ad (fs o) visit_t visit_s fname (Some t) = Ok (Some y) /\
      straight_within y (low_error p d) (high_error p d))
    (INR (length ps) / INR (h * w) * ((V + 2 * M) / (e * e) + 4 * V / e)).
Proof.
  intros CR SM d. apply good_likely. intros y G. unfold d. rewrite <- (good_first y G) in *. pose proof (good_law y G) as GL.
  pose proof (gd_light _ G) as LG.
  destruct G as [G1 G2 G3 G4 G5 G6 G7]. apply (stable_straight y T (length ps) p eta K q E); auto.
  apply (range_ext T (stated_light ps)); [|exact CR]. intros i Hi. symmetry. apply LG. pose proof (cl_points _ _ _ _ HC). lia.
Qed.

Hypothesis SK : gain_error (stated_light ps 0) eta K q E < K.
Lemma float_figures v0 d : responsivity_error (stated_light ps 0) E < K * eta ->
  dark_truth (stated_times ps) T (length ps) E v0 d -> d < Rmax (24 / 100) v0 ->
  unlikely C (fun o => ~ exists y, emva_f ad (fs o) visit_t visit_s fname (Some t) = Ok (Some y) /\ figures_right y p eta K q E v0 d)
    (INR (length ps) / INR (h * w) * ((V + 2 * M) / (e * e) + 4 * V / e)).
Proof.
  intros SR DT SD. apply good_likely. intros y G. rewrite <- (good_first y G) in *. pose proof (good_law y G) as GL.
  destruct G as [G1 G2 G3 G4 G5 G6 G7]. apply (stable_all y T (length ps) p eta K q E v0 d); auto. rewrite G7. exact DT.
Qed.
Lemma float_current a c : dark_rises (stated_times ps) T (length ps) a c ->
  unlikely C (fun o => ~ exists y, emva_f ad (fs o) visit_t visit_s fname (Some t) = Ok (Some y) /\
      current_right y (length ps) K (gain_error (stated_light ps 0) eta K q E) E a c)
    (INR (length ps) / INR (h * w) * ((V + 2 * M) / (e * e) + 4 * V / e)).
Proof.
  intros DR. apply good_likely. intros y G. rewrite <- (good_first y G) in *. pose proof (good_law y G) as GL.
  destruct G as [G1 G2 G3 G4 G5 G6 G7].
  destruct (stable_errors y T (length ps) p eta K q E GL HC G1 G2 G3 G4 G5) as (r & k & _ & Ek & _ & NK).
  apply (dark_current y T (length ps) E K _ a c); auto. { rewrite G7. exact DR. } exists k. split; assumption.
Qed.
End Files.
