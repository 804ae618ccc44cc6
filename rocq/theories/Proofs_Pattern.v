(** Proofs for C115: the spatial variance of a series. *)
From Coq Require Import List Bool Arith ZArith QArith Qreals Reals Lia Lra FunctionalExtensionality.
From Verif Require Import Base_Prelude Base_Num Base_Sum Base_SumR Base_Xreal Model_Images Model_Loader Model_Data
  Model_Results Spec_Images Spec_Data Spec_Results Spec_Chance Spec_Linear Spec_Any Spec_Near Spec_Pattern Proofs_Linear Proofs_Any
  Proofs_Any2 Proofs_Any3 Proofs_Near Proofs_Near2.
Import ListNotations.
Open Scope R_scope.

Section Squares.
Context {W I : Type} (ok : I -> Prop) (V : I -> W -> R).
(** Variables and products of two of them. *)
Definition ok2 (i : I + I * I) : Prop := match i with inl i => ok i | inr (i, j) => ok i /\ ok j end.
Definition V2 (i : I + I * I) (o : W) : R := match i with inl i => V i o | inr (i, j) => V i o * V j o end.
Lemma lin_up X : lin ok V X -> lin ok2 V2 X.
Proof.
  induction 1.
  - apply (lin_base ok2 V2 (inl i)). exact H.
  - apply lin_const.
  - apply lin_plus; assumption.
  - apply lin_scale; assumption.
Qed.
Lemma lin_prod_base X j : ok j -> lin ok V X -> lin ok2 V2 (fun o => X o * V j o).
Proof.
  intros J. induction 1.
  - apply (lin_base ok2 V2 (inr (i, j))). split; assumption.
  - apply lin_scale. apply (lin_base ok2 V2 (inl j)). exact J.
  - apply (lin_ext ok2 V2 (fun o => X o * V j o + Y o * V j o)); [intros; ring|]. apply lin_plus; assumption.
  - apply (lin_ext ok2 V2 (fun o => a * (X o * V j o))); [intros; ring|]. apply lin_scale; assumption.
Qed.
Lemma lin_prod X Y : lin ok V X -> lin ok V Y -> lin ok2 V2 (fun o => X o * Y o).
Proof.
  intros HX. induction 1.
  - apply lin_prod_base; assumption.
  - apply (lin_ext ok2 V2 (fun o => a * X o)); [intros; ring|]. apply lin_scale, lin_up, HX.
  - apply (lin_ext ok2 V2 (fun o => X o * X0 o + X o * Y o)); [intros; ring|]. apply lin_plus; assumption.
  - apply (lin_ext ok2 V2 (fun o => a * (X o * X0 o))); [intros; ring|]. apply lin_scale; assumption.
Qed.
End Squares.

Section Pattern.
Context {W : Type} (C : chance W) (S : W -> list image) (L h w : nat).
Variables (mu : nat -> nat -> R) (s2 : nat -> nat -> nat -> R) (V M D : R).
Hypothesis RS : random_series C S L h w mu (fun _ => 0) s2.
Hypothesis DOC : forall o, documented h w (S o).
Hypothesis PN : pixel_noise C S L h w mu V M D.
Hypothesis L2 : (2 <= L)%nat.
Hypothesis HW : (2 <= h * w)%nat.
Let N := INR (h * w).
Let W0 : (0 < w)%nat. Proof. clear - HW. destruct w; lia. Qed.
Let NL : 2 <= INR L. Proof. clear - L2. apply (le_INR 2). exact L2. Qed.
Let NL1 : INR L = INR (L - 1) + 1. Proof. rewrite <- S_INR. f_equal. lia. Qed.
Let N2 : 2 <= N. Proof. unfold N. clear - HW. apply (le_INR 2). exact HW. Qed.
Let N1 : N = INR (h * w - 1) + 1. Proof. unfold N. rewrite <- S_INR. f_equal. lia. Qed.

Notation ins := (inside L h w).
Notation var := (var_of S).
Notation linear := (lin ins var).
Notation square := (lin (ok2 ins) (V2 var)).
Let HI := Hint C S L h w mu (fun _ => 0) s2 RS.
Let HP := Hprod C S L h w mu (fun _ => 0) s2 RS.
Lemma sq_int i : ok2 ins i -> integrable C (V2 var i).
Proof. destruct i as [i|[i j]]; cbn [ok2]; [apply HI|intros (A & B); apply HP; assumption]. Qed.
Lemma sq_prod i j : ok2 ins i -> ok2 ins j -> integrable C (fun o => V2 var i o * V2 var j o).
Proof.
  destruct i as [i|[i i']], j as [j|[j j']]; cbn [ok2 V2].
  - apply HP.
  - intros A (B & B'). apply (pn_three _ _ _ _ _ _ _ _ _ PN i j j'); assumption.
  - intros (A & A') B. apply (int_ext C (fun o => var j o * (var i o * var i' o))); [intros; ring|].
    apply (pn_three _ _ _ _ _ _ _ _ _ PN j i i'); assumption.
  - intros (A & A') (B & B'). apply (pn_four _ _ _ _ _ _ _ _ _ PN i i' j j'); assumption.
Qed.

(** Pixel k: its average, its mean, its variance in time; the noise of image l. *)
Let a (k : nat) (o : W) : R := avgR L (k / w) (k mod w) (S o).
Let m (k : nat) : R := mu (k / w)%nat (k mod w)%nat.
Let mb : R := sumR (h * w) m / N.
Let tau (k : nat) : R := noise_at L s2 (k / w) (k mod w) / INR L.
Let v (k : nat) (o : W) : R := pixel_var S L (k / w) (k mod w) o.
Let n (k l : nat) (o : W) : R := grey l (k / w) (k mod w) (S o) - m k.
Let q (k : nat) (o : W) : R := sumR L (fun l => n k l o * n k l o) / INR L.
Let rho : R := N / (N - 1).
Let y (k : nat) (o : W) : R := rho * ((a k o - mb) * (a k o - mb) - (m k - mb) * (m k - mb)) - v k o / INR L.

Let rho_range : 1 <= rho <= 2.
Proof.
  unfold rho. split.
  - apply (Rmult_le_reg_r (N - 1)); [lra|]. unfold Rdiv. rewrite Rmult_assoc, Rinv_l by lra. lra.
  - apply (Rmult_le_reg_r (N - 1)); [lra|]. unfold Rdiv. rewrite Rmult_assoc, Rinv_l by lra. lra.
Qed.

Lemma U : uncor C ins var (h * w) a m tau.
Proof.
  destruct (uncor_avg C S L h w mu (fun _ => 0) s2 RS L2 HW) as (A & B & E & F).
  split; [exact A|]. split; [|split; [exact E|exact F]].
  intros k Hk. unfold a. rewrite (B k Hk). unfold averageR. rewrite sumR_const. unfold m. field. lra.
Qed.
Lemma lin_n k l : (k < h * w)%nat -> (l < L)%nat -> linear (n k l).
Proof.
  intros Hk Hl. destruct (flat_pos h w k Hk) as (_ & R & Q). unfold n. apply lin_minus; [|apply lin_const].
  apply lin_grey; assumption.
Qed.
Lemma a_n k o : a k o - m k = sumR L (fun l => n k l o) / INR L.
Proof. unfold a, avgR, n. rewrite sumR_minus, sumR_const. field. lra. Qed.
Lemma v_n k o : v k o = (sumR L (fun l => n k l o * n k l o) - INR L * ((a k o - m k) * (a k o - m k))) / INR (L - 1).
Proof.
  unfold v, pixel_var. f_equal.
  rewrite (sumR_ext L _ (fun l => (n k l o - sumR L (fun l => n k l o) / INR L) * (n k l o - sumR L (fun l => n k l o) / INR L))).
  - rewrite (centredR L (fun l => n k l o)) by lia. rewrite a_n. field. lra.
  - intros l Hl. unfold n. rewrite sumR_minus, sumR_const. field. lra.
Qed.
Lemma sq_v k : (k < h * w)%nat -> square (v k).
Proof.
  intros Hk. apply (lin_ext _ _ (fun o => (sumR L (fun l => n k l o * n k l o) - INR L * ((a k o - m k) * (a k o - m k))) / INR (L - 1))).
  { intros o. symmetry. apply v_n. }
  assert (A : linear (fun o => a k o - m k)) by (apply lin_minus; [apply U, Hk|apply lin_const]).
  apply lin_div, lin_minus; [|apply lin_scale, lin_prod; exact A].
  apply (lin_sum _ _ L (fun l o => n k l o * n k l o)). intros l Hl. apply lin_prod; apply lin_n; assumption.
Qed.
Lemma sq_y k : (k < h * w)%nat -> square (y k).
Proof.
  intros Hk.
  assert (A : linear (fun o => a k o - mb)) by (apply lin_minus; [apply U, Hk|apply lin_const]).
  unfold y. apply lin_minus; [|apply lin_div, sq_v, Hk].
  apply lin_scale, lin_minus; [apply lin_prod; exact A|apply lin_const].
Qed.

(** y k is computed from the history of pixel k. *)
Let hist_y (k : nat) (hs : list Z) : R :=
  let g l := IZR (nth l hs 0%Z) in
  let a := sumR L g / INR L in
  rho * ((a - mb) * (a - mb) - (m k - mb) * (m k - mb)) -
  sumR L (fun l => (g l - a) * (g l - a)) / INR (L - 1) / INR L.
Lemma grey_nth o l r c : (l < L)%nat -> grey l r c (S o) = IZR (nth l (history (S o) r c) 0%Z).
Proof.
  intros Hl. pose proof (rs_length _ _ _ _ _ _ _ _ RS o) as Len. unfold grey, history. f_equal.
  transitivity (nth l (map (fun im => px im r c) (S o)) (px (mkImg 0 0 (fun _ _ => 0%Z)) r c)).
  - symmetry. apply (map_nth (fun im => px im r c)).
  - apply nth_indep. rewrite map_length, Len. exact Hl.
Qed.
Lemma y_hist k o : y k o = hist_y k (history (S o) (k / w) (k mod w)).
Proof.
  unfold y, hist_y, a, avgR, v, pixel_var. cbv zeta.
  rewrite (sumR_ext L (fun l => grey l (k / w) (k mod w) (S o)) (fun l => IZR (nth l (history (S o) (k / w) (k mod w)) 0%Z)))
    by (intros l Hl; apply grey_nth, Hl).
  do 3 f_equal. apply sumR_ext. intros l Hl. rewrite grey_nth by exact Hl. reflexivity.
Qed.

(** Expected value and variance of y. *)
Let B := 32 * (D * D) * V / INR L + 8 * M.
Lemma int_sq X : square X -> integrable C X.
Proof. apply (lin_int C _ _ sq_int). Qed.
Lemma int_sq2 X Y : square X -> square Y -> integrable C (fun o => X o * Y o).
Proof. apply (lin_mul C _ _ sq_int sq_prod). Qed.
Lemma exp_z2 k : (k < h * w)%nat -> expect C (fun o => (a k o - m k) * (a k o - m k)) = tau k.
Proof.
  intros Hk. destruct U as (_ & E & F & _). rewrite <- (F k Hk). unfold covar. rewrite (E k Hk). reflexivity.
Qed.
Lemma exp_v k : (k < h * w)%nat -> expect C (v k) = INR L * tau k.
Proof.
  intros Hk. destruct (flat_pos h w k Hk) as (_ & R & Q). change (v k) with (pixel_var S L (k / w) (k mod w)).
  rewrite (exp_pixel_var C S L h w mu (fun _ => 0) s2 RS L2 HW _ _ R Q). unfold tau.
  rewrite (proj2 (zero_drift L ltac:(lia))). field. lra.
Qed.
Lemma y_parts k o : y k o = rho * (2 * (m k - mb) * (a k o - m k) + (a k o - m k) * (a k o - m k)) - v k o / INR L.
Proof. unfold y. ring. Qed.
Lemma exp_y k : (k < h * w)%nat -> expect C (y k) = (rho - 1) * tau k.
Proof.
  intros Hk. destruct U as (UL & UE & _).
  assert (A : linear (fun o => a k o - m k)) by (apply lin_minus; [apply UL, Hk|apply lin_const]).
  assert (IA : integrable C (fun o => a k o - m k)) by (apply (lin_int C _ _ HI), A).
  assert (IZ : integrable C (fun o => (a k o - m k) * (a k o - m k))) by (apply int_sq, lin_prod; exact A).
  rewrite (exp_ext C _ _ (y_parts k)).
  rewrite exp_minus; [|apply integrable_scale, integrable_plus; [apply integrable_scale, IA|exact IZ]|apply int_divI, int_sq, sq_v, Hk].
  rewrite exp_divI by (apply int_sq, sq_v, Hk). rewrite exp_v by exact Hk.
  rewrite expect_scale by (apply integrable_plus; [apply integrable_scale, IA|exact IZ]).
  rewrite expect_plus; [|apply integrable_scale, IA|exact IZ]. rewrite expect_scale by exact IA.
  rewrite exp_z2 by exact Hk. rewrite exp_minus; [|apply (lin_int C _ _ HI), UL, Hk|apply integrable_const].
  rewrite (UE k Hk), expect_const. field. lra.
Qed.
Lemma tau_le k : (k < h * w)%nat -> tau k <= V / INR L.
Proof.
  intros Hk. destruct (flat_pos h w k Hk) as (_ & R & Q). unfold tau, Rdiv. apply Rmult_le_compat_r; [apply Rlt_le, Rinv_0_lt_compat; lra|].
  unfold noise_at. apply (Rmult_le_reg_r (INR L)); [lra|]. unfold Rdiv. rewrite Rmult_assoc, Rinv_l by lra.
  rewrite Rmult_1_r, (Rmult_comm V), <- sumR_const. apply sumR_le. intros l Hl.
  rewrite <- (rs_var _ _ _ _ _ _ _ _ RS l _ _ Hl R Q). apply (pn_var _ _ _ _ _ _ _ _ _ PN (l, k / w, k mod w)%nat).
  repeat split; assumption.
Qed.
Lemma tau_pos k : (k < h * w)%nat -> 0 <= tau k.
Proof.
  intros Hk. rewrite <- exp_z2 by exact Hk. rewrite <- (expect_const W C 0). apply expect_le.
  - apply integrable_const.
  - apply int_sq, lin_prod; (apply lin_minus; [apply U, Hk|apply lin_const]).
  - intros o. apply Rle_0_sqr.
Qed.
Lemma q_bounds k o : (a k o - m k) * (a k o - m k) <= q k o /\ 0 <= v k o / INR L <= q k o.
Proof.
  set (T := sumR L (fun l => n k l o * n k l o)). set (z := a k o - m k).
  assert (Z : INR L * (z * z) <= T).
  { assert (Q := sumR_cauchy L (fun l => n k l o)). cbv beta in Q. fold T in Q. unfold z. rewrite a_n.
    set (sn := sumR L (fun l => n k l o)) in *. apply (Rmult_le_reg_l (INR L)); [lra|].
    replace (INR L * (INR L * (sn / INR L * (sn / INR L)))) with (sn * sn) by (field; lra). exact Q. }
  assert (Hq : q k o = T / INR L) by reflexivity.
  assert (Hv : v k o = (T - INR L * (z * z)) / INR (L - 1)) by apply v_n.
  assert (P1 : 1 <= INR (L - 1)) by lra.
  split; [|split].
  - rewrite Hq. apply (Rmult_le_reg_l (INR L)); [lra|]. replace (INR L * (T / INR L)) with T by (field; lra). exact Z.
  - rewrite Hv. apply Rmult_le_pos; [|apply Rlt_le, Rinv_0_lt_compat; lra].
    apply Rmult_le_pos; [lra|apply Rlt_le, Rinv_0_lt_compat; lra].
  - rewrite Hv, Hq. unfold Rdiv. apply Rmult_le_compat_r; [apply Rlt_le, Rinv_0_lt_compat; lra|].
    apply (Rmult_le_reg_r (INR (L - 1))); [lra|]. rewrite Rmult_assoc, Rinv_l by lra.
    assert (0 <= z * z) by apply Rle_0_sqr. assert (0 <= T) by nra. nra.
Qed.
Lemma y_square k o : (k < h * w)%nat ->
  y k o * y k o <= 32 * (D * D) * ((a k o - m k) * (a k o - m k)) + 8 * (q k o * q k o).
Proof.
  intros Hk. destruct (flat_pos h w k Hk) as (_ & R & Q0).
  rewrite y_parts. destruct (q_bounds k o) as (Z & P & Q). set (z := a k o - m k) in *. set (t := v k o / INR L) in *.
  set (d := m k - mb).
  assert (D2 : d * d <= D * D).
  { assert (A := pn_pattern _ _ _ _ _ _ _ _ _ PN _ _ R Q0).
    assert (E : pixel_meanR h w mu = mb) by (unfold pixel_meanR; rewrite (sumR2_flat h w _ W0); reflexivity).
    rewrite E in A. fold (m k) in A. fold d in A. rewrite <- (Rabs_pos_eq (d * d)) by apply Rle_0_sqr.
    rewrite Rabs_mult. apply Rmult_le_compat; auto using Rabs_pos. }
  assert (0 <= z * z) by apply Rle_0_sqr.
  set (A := 2 * rho * d * z). set (G := rho * (z * z) - t).
  replace (rho * (2 * d * z + z * z) - t) with (A + G) by (unfold A, G; ring).
  assert (GG : G * G <= 4 * (q k o * q k o)).
  { assert (- (2 * q k o) <= G <= 2 * q k o) by (unfold G; nra). nra. }
  assert (AA : A * A <= 16 * (D * D) * (z * z)).
  { unfold A. replace (2 * rho * d * z * (2 * rho * d * z)) with (4 * (rho * rho) * ((d * d) * (z * z))) by ring.
    assert (rho * rho <= 4) by nra. assert (0 <= d * d) by apply Rle_0_sqr.
    assert ((d * d) * (z * z) <= (D * D) * (z * z)) by nra. nra. }
  assert (0 <= (A - G) * (A - G)) by apply Rle_0_sqr. nra.
Qed.
Lemma exp_q2 k : (k < h * w)%nat -> integrable C (fun o => q k o * q k o) /\ expect C (fun o => q k o * q k o) <= M.
Proof.
  intros Hk. destruct (flat_pos h w k Hk) as (_ & R & Q).
  assert (SN : forall l, (l < L)%nat -> square (fun o => n k l o * n k l o)) by (intros; apply lin_prod; apply lin_n; assumption).
  assert (SQ : square (q k)).
  { unfold q. apply lin_div. apply (lin_sum _ _ L (fun l o => n k l o * n k l o)). exact SN. }
  assert (I4 : forall l, (l < L)%nat -> integrable C (fun o => (n k l o * n k l o) * (n k l o * n k l o)))
    by (intros; apply int_sq2; apply SN; assumption).
  split; [apply int_sq2; exact SQ|].
  apply Rle_trans with (expect C (fun o => sumR L (fun l => (n k l o * n k l o) * (n k l o * n k l o)) / INR L)).
  - apply expect_le; [apply int_sq2; exact SQ| |].
    + apply int_divI. apply (int_sumI C L (fun l o => (n k l o * n k l o) * (n k l o * n k l o))). exact I4.
    + intros o. unfold q. assert (A := sumR_cauchy L (fun l => n k l o * n k l o)). cbv beta in A.
      set (T := sumR L (fun l => n k l o * n k l o)) in *. set (F := sumR L (fun l => (n k l o * n k l o) * (n k l o * n k l o))) in *.
      apply (Rmult_le_reg_l (INR L * INR L)); [nra|].
      replace (INR L * INR L * (T / INR L * (T / INR L))) with (T * T) by (field; lra).
      replace (INR L * INR L * (F / INR L)) with (INR L * F) by (field; lra). exact A.
  - rewrite exp_divI by (apply (int_sumI C L (fun l o => (n k l o * n k l o) * (n k l o * n k l o))); exact I4).
    rewrite (exp_sumI C L (fun l o => (n k l o * n k l o) * (n k l o * n k l o))) by exact I4.
    apply (Rmult_le_reg_l (INR L)); [lra|]. match goal with |- _ * (?x / _) <= _ => replace (INR L * (x / INR L)) with x by (field; lra) end.
    rewrite <- sumR_const. apply sumR_le. intros l Hl.
    apply (pn_moment _ _ _ _ _ _ _ _ _ PN (l, k / w, k mod w)%nat). repeat split; assumption.
Qed.
Lemma var_y k : (k < h * w)%nat -> covar C (y k) (y k) <= B.
Proof.
  intros Hk. assert (SY := sq_y k Hk). rewrite (cov_moments C _ _ sq_int sq_prod _ _ SY SY).
  destruct (exp_q2 k Hk) as (IQ & EQ).
  assert (IZ : integrable C (fun o => (a k o - m k) * (a k o - m k)))
    by (apply int_sq, lin_prod; (apply lin_minus; [apply U, Hk|apply lin_const])).
  assert (G : expect C (fun o => y k o * y k o) <=
     expect C (fun o => 32 * (D * D) * ((a k o - m k) * (a k o - m k)) + 8 * (q k o * q k o))).
  { apply expect_le; [apply int_sq2; exact SY|apply integrable_plus; apply integrable_scale; assumption|].
    intros o. apply y_square, Hk. }
  rewrite expect_plus in G by (apply integrable_scale; assumption).
  rewrite !expect_scale in G by assumption. rewrite exp_z2 in G by exact Hk.
  assert (T := tau_le k Hk). unfold B.
  assert (0 <= expect C (y k) * expect C (y k)) by apply Rle_0_sqr.
  assert (0 <= D * D) by apply Rle_0_sqr.
  assert (D * D * tau k <= D * D * (V / INR L)) by (apply Rmult_le_compat_l; assumption).
  unfold Rdiv in *. nra.
Qed.
Lemma uncor_y : uncor C (ok2 ins) (V2 var) (h * w) y (fun k => (rho - 1) * tau k) (fun k => covar C (y k) (y k)).
Proof.
  split; [exact sq_y|]. split; [exact exp_y|]. split; [reflexivity|].
  intros i j Hi Hj Nij. destruct (flat_pos h w i Hi) as (_ & Ri & Qi). destruct (flat_pos h w j Hj) as (_ & Rj & Qj).
  assert (E : forall k, y k = fun o => hist_y k (history (S o) (k / w) (k mod w))).
  { intros k. apply functional_extensionality. intros o. apply y_hist. }
  assert (A := int_sq _ (sq_y i Hi)). assert (A' := int_sq _ (sq_y j Hj)). assert (A2 := int_sq2 _ _ (sq_y i Hi) (sq_y j Hj)).
  rewrite (E i), (E j) in *. apply (pn_independent _ _ _ _ _ _ _ _ _ PN); try assumption.
  intros Q. injection Q as Q1 Q2. apply Nij. apply (flat_inj w i j W0); assumption.
Qed.

(** The data of the series. *)
Variable X : W -> sdata.
Hypothesis HX : forall o, spatial_data_of h w (S o) (X o).
Let est (o : W) : R :=
  Q2R (number (olift2 Qminus (sd_avg_var (X o)) (omap (fun v => v / qn (sd_L (X o)))%Q (sd_var_mean (X o))))).
Let zb (o : W) : R := sumR (h * w) (fun k => a k o) / N - mb.
Lemma est_eq o : est o - spatial_varianceR h w mu = sumR (h * w) (fun k => y k o) / N - rho * (zb o * zb o).
Proof.
  destruct (figures C S L h w mu (fun _ => 0) s2 RS L2 HW DOC X HX o) as (EL & _ & vm & av & E1 & E2 & EV & EA).
  unfold est. rewrite E1, E2, EL. cbn [olift2 omap number].
  rewrite Q2R_minus, Q2R_over, EV, EA, Q2R_qn by (apply qn_neq0; lia).
  rewrite !(spatial_flat h w HW). unfold pixel_meanR. rewrite (sumR2_flat h w _ W0).
  fold N. change (fun k => avgR L (k / w) (k mod w) (S o)) with (fun k => a k o).
  change (fun k => mu (k / w)%nat (k mod w)%nat) with m. change (fun k => pixel_var S L (k / w) (k mod w) o) with (fun k => v k o).
  fold mb.
  assert (HN0 : (0 < h * w)%nat) by lia.
  assert (CA : sumR (h * w) (fun k => (a k o - sumR (h * w) (fun k => a k o) / N) * (a k o - sumR (h * w) (fun k => a k o) / N)) =
    sumR (h * w) (fun k => (a k o - mb) * (a k o - mb)) - N * (zb o * zb o)).
  { rewrite (sumR_ext (h * w) _ (fun k => ((a k o - mb) - sumR (h * w) (fun k => a k o - mb) / N) *
                                           ((a k o - mb) - sumR (h * w) (fun k => a k o - mb) / N))).
    - unfold N at 1 2. rewrite (centredR (h * w) (fun k => a k o - mb) HN0). fold N. unfold zb. rewrite sumR_minus, sumR_const.
      fold N. field. lra.
    - intros k _. rewrite sumR_minus, sumR_const. fold N. field. lra. }
  match goal with |- ?x / _ - _ - _ = _ => change x with
    (sumR (h * w) (fun k => (a k o - sumR (h * w) (fun k => a k o) / N) * (a k o - sumR (h * w) (fun k => a k o) / N))) end.
  rewrite CA. unfold y.
  rewrite sumR_minus, sumR_scale, sumR_minus, sumR_div.
  match goal with |- _ - ?x / _ = _ => change x with (sumR (h * w) (fun k => (m k - mb) * (m k - mb))) end.
  set (S1 := sumR (h * w) (fun k => (a k o - mb) * (a k o - mb))). set (S2 := sumR (h * w) (fun k => (m k - mb) * (m k - mb))).
  set (S3 := sumR (h * w) (fun k => v k o)). replace (INR (h * w - 1)) with (N - 1) by lra. unfold rho. field. lra.
Qed.

Lemma series_variance e : 0 < e ->
  unlikely C (fun o => e < Rabs (est o - spatial_varianceR h w mu)) (pattern_odds L (h * w) V M D e).
Proof.
  intros e0. assert (e2 : 0 < e / 2) by lra.
  set (g := (rho - 1) * sumR (h * w) tau / N).
  assert (A : unlikely C (fun o => e / 2 < Rabs (sumR (h * w) (fun k => y k o) / N - g)) (B / (N * (e / 2 * (e / 2))))).
  { eapply unlikely_mono; [|apply Rle_refl|apply (average_unlikely C _ _ sq_int sq_prod (h * w) _ _ _ B (e / 2) ltac:(lia) uncor_y var_y e2)].
    intros o H. rewrite sumR_scale. unfold g, N in *. exact H. }
  assert (UL := proj1 U).
  assert (LZ : linear zb).
  { apply lin_minus; [|apply lin_const]. apply lin_div, lin_sum. exact UL. }
  assert (IZ : integrable C (fun o => zb o * zb o)) by (apply int_sq, lin_prod; exact LZ).
  set (T := sumR (h * w) tau).
  assert (EZ : expect C (fun o => zb o * zb o) = T / (N * N)).
  { assert (Q := uncor_sum C ins var HI HP (h * w) a m tau U). unfold covar in Q.
    assert (EM : expect C (fun o => sumR (h * w) (fun k => a k o)) = sumR (h * w) m).
    { rewrite (exp_sumI C (h * w) a) by (intros; apply (lin_int C _ _ HI), UL; assumption).
      apply sumR_ext. apply U. }
    rewrite EM in Q. fold T in Q. rewrite <- Q.
    rewrite <- exp_divI.
    - apply exp_ext. intros o. unfold zb, mb. field. lra.
    - assert (LS : linear (fun o => sumR (h * w) (fun k => a k o) - sumR (h * w) m)).
      { apply lin_minus; [|apply lin_const]. apply lin_sum, UL. }
      apply int_sq, lin_prod; exact LS. }
  assert (T0 : 0 <= T) by (apply sumR_nonneg; intros; apply tau_pos; assumption).
  assert (TV : T <= N * (V / INR L)) by (unfold T, N; rewrite <- sumR_const; apply sumR_le; exact tau_le).
  assert (ZZ : forall o, 0 <= zb o * zb o) by (intros; apply Rle_0_sqr).
  assert (G0 : g = rho * (T / (N * N))).
  { unfold g, rho. fold T. field. lra. }
  assert (Tn : 0 <= T / (N * N)) by (apply Rmult_le_pos; [exact T0|apply Rlt_le, Rinv_0_lt_compat; nra]).
  assert (MK : unlikely C (fun o => e / 2 < rho * (zb o * zb o) + g) (2 * rho * (T / (N * N)) / (e / 2))).
  { eapply unlikely_mono; [|apply Rle_refl|apply (markov C (fun o => rho * (zb o * zb o) + g) (2 * rho * (T / (N * N))) (e / 2))].
    - intros o H. cbv beta. lra.
    - apply integrable_plus; [apply integrable_scale, IZ|apply integrable_const].
    - intros o. rewrite G0. specialize (ZZ o). nra.
    - rewrite expect_plus; [|apply integrable_scale, IZ|apply integrable_const].
      rewrite expect_scale, expect_const, EZ, G0 by exact IZ. lra.
    - exact e2. }
  eapply unlikely_mono; [| |apply (unlikely_or C _ _ _ _ A MK)].
  - intros o H. rewrite est_eq in H.
    destruct (Rlt_le_dec (e / 2) (Rabs (sumR (h * w) (fun k => y k o) / N - g))) as [H1|H1]; [left; exact H1|right].
    set (yb := sumR (h * w) (fun k => y k o) / N) in *.
    assert (0 <= g) by (rewrite G0; nra). specialize (ZZ o).
    replace (yb - rho * (zb o * zb o)) with ((yb - g) + (g - rho * (zb o * zb o))) in H by ring.
    pose proof (Rabs_triang (yb - g) (g - rho * (zb o * zb o))).
    assert (Rabs (g - rho * (zb o * zb o)) <= rho * (zb o * zb o) + g) by (apply Rabs_le; nra). lra.
  - unfold pattern_odds. fold N. apply Rplus_le_compat.
    + apply Req_le. unfold B. field. lra.
    + apply (Rmult_le_reg_r (e / 2)); [exact e2|].
      replace (2 * rho * (T / (N * N)) / (e / 2) * (e / 2)) with (2 * rho * (T / (N * N))) by (field; lra).
      replace (8 * V / (INR L * (N * e)) * (e / 2)) with (4 * (N * (V / INR L) / (N * N))) by (field; lra).
      assert (T / (N * N) <= N * (V / INR L) / (N * N)).
      { apply Rmult_le_compat_r; [apply Rlt_le, Rinv_0_lt_compat; nra|exact TV]. }
      nra.
Qed.

Lemma series_mean e : 0 < e ->
  unlikely C (fun o => e < Rabs (Q2R (sd_avg_mean (X o)) - pixel_meanR h w mu)) (level_odds L (h * w) V e).
Proof.
  intros e0. unfold level_odds.
  replace (V / (INR L * (INR (h * w) * (e * e)))) with (V / INR L / (INR (h * w) * (e * e))) by (fold N; field; lra).
  eapply unlikely_mono; [|apply Rle_refl|apply (average_unlikely C ins var HI HP (h * w) a m tau (V / INR L) e ltac:(lia) U tau_le e0)].
  intros o. destruct (figures C S L h w mu (fun _ => 0) s2 RS L2 HW DOC X HX o) as (_ & -> & _).
  unfold pixel_meanR. rewrite !(sumR2_flat h w _ W0). intros H. exact H.
Qed.
End Pattern.
