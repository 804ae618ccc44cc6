(** Expected row, column and pixel variances. *)
From Coq Require Import List Bool Arith ZArith QArith Qreals Reals Lia Lra FunctionalExtensionality.
From Verif Require Import Base_Prelude Base_Sum Base_SumR Model_Images Model_Loader Model_Data Model_Results
  Spec_Images Spec_Data Spec_Results Spec_Chance Spec_Linear Spec_Any Spec_Components
  Proofs_Data Proofs_Data2 Proofs_Results4 Proofs_Chance Proofs_Chance2 Proofs_Linear Proofs_Any Proofs_Any2 Proofs_Components.
Import ListNotations.
Open Scope R_scope.

(** ** The figures of one stack *)
Lemma Q2R_pop n f g : (0 < n)%nat -> (forall i, (i < n)%nat -> Q2R (f i) = g i) -> Q2R (pop_var n f) = spreadR n g.
Proof.
  intros Hn E. assert (N := qn_neq0 n Hn). unfold pop_var, spreadR. unfold averageR at 1.
  rewrite Q2R_over, Q2R_sum, Q2R_qn by assumption. f_equal. apply sumR_ext. intros i Hi.
  rewrite Q2R_mult, Q2R_minus, Q2R_over, Q2R_sum, Q2R_qn, E by assumption.
  rewrite (sumR_ext n (fun i => Q2R (f i)) g) by exact E. reflexivity.
Qed.

Lemma stack_split h w s d : documented h w s -> (2 <= length s)%nat -> (2 <= h * w)%nat ->
  spatial_data_of h w s d ->
  sd_M d = h /\ sd_N d = w /\ sd_L d = length s /\
  exists vm av ca ra, sd_var_mean d = Some vm /\ sd_avg_var d = Some av /\
    sd_avg_var_cav d = Some ca /\ sd_avg_var_rav d = Some ra /\
    Q2R vm = pixel_meanR h w (fun r c =>
      sumR (length s) (fun l => (grey l r c s - sumR (length s) (fun l => grey l r c s) / INR (length s)) *
                                (grey l r c s - sumR (length s) (fun l => grey l r c s) / INR (length s))) / INR (length s - 1)) /\
    Q2R av = spatial_varianceR h w (fun r c => avgR (length s) r c s) /\
    Q2R ca = column_spreadR h w (fun r c => avgR (length s) r c s) - Q2R vm / (INR (length s) * INR h) /\
    Q2R ra = row_spreadR h w (fun r c => avgR (length s) r c s) - Q2R vm / (INR (length s) * INR w).
Proof.
  intros DOC L2 HW HD. destruct (stack_figures h w s d DOC L2 HW HD) as (EL & _ & vm & av & F1 & F2 & F3 & F4).
  destruct HD as (r' & Er' & Ed').
  destruct (spatial_statistics h w s DOC L2 HW)
    as (r & d' & Er & Ed & _ & EM & EN & Am & vm' & av' & ca & ra & E1 & E2 & E3 & E4 & V1 & V2 & V3 & V4).
  rewrite Er in Er'. injection Er' as <-. rewrite Ed in Ed'. injection Ed' as <-.
  rewrite F1 in E1. injection E1 as <-. rewrite F2 in E2. injection E2 as <-.
  assert (hw : (0 < h)%nat /\ (0 < w)%nat) by nia. destruct hw as (hp & wp).
  assert (Nh := qn_neq0 h hp). assert (Nw := qn_neq0 w wp). assert (NL : (~ qn (length s) == 0)%Q) by (apply qn_neq0; lia).
  split; [exact EM|]. split; [exact EN|]. split; [exact EL|].
  exists vm, av, ca, ra. repeat (split; [assumption|]).
  assert (P : forall a b, (~ a == 0)%Q -> (~ b == 0)%Q -> (~ a * b == 0)%Q).
  { intros a b A B Z. apply Qmult_integral in Z. tauto. }
  split.
  - rewrite (Qeq_eqR _ _ V3), Q2R_minus, Q2R_over, Q2R_mult, !Q2R_qn by (apply P; assumption).
    unfold Rminus. f_equal. apply Q2R_pop; [exact wp|]. intros c Hc. unfold col_mean, averageR.
    rewrite Q2R_over, Q2R_sum, Q2R_qn by assumption. f_equal. apply sumR_ext. intros. apply avg_grey. lia.
  - rewrite (Qeq_eqR _ _ V4), Q2R_minus, Q2R_over, Q2R_mult, !Q2R_qn by (apply P; assumption).
    unfold Rminus. f_equal. apply Q2R_pop; [exact hp|]. intros c Hc. unfold row_mean, averageR.
    rewrite Q2R_over, Q2R_sum, Q2R_qn by assumption. f_equal. apply sumR_ext. intros. apply avg_grey. lia.
Qed.

(** ** The expected values *)
Section Layers.
Context {W : Type} (C : chance W) (S : W -> list image) (L h w : nat).
Variables (mu : nat -> nat -> R) (vr vc vp : R) (s2 : nat -> nat -> nat -> R).
Hypothesis LS : layered_series C S L h w mu vr vc vp s2.
Hypothesis L2 : (2 <= L)%nat.
Hypothesis HW : (2 <= h * w)%nat.
Let hp : (0 < h)%nat. Proof. clear - HW. destruct h; lia. Qed.
Let wp : (0 < w)%nat. Proof. clear - HW. destruct w; lia. Qed.
Let NL : 0 < INR L. Proof. clear - L2. apply INR_pos. lia. Qed.
Let NL1 : INR L = INR (L - 1) + 1.
Proof. rewrite <- S_INR. f_equal. clear - L2. lia. Qed.
Let Np1 : 0 < INR (L - 1). Proof. apply INR_pos. clear - L2. lia. Qed.
Let Nh : 0 < INR h. Proof. apply INR_pos, hp. Qed.
Let Nw : 0 < INR w. Proof. apply INR_pos, wp. Qed.
Let N0 : 0 < INR (h * w). Proof. apply INR_pos. clear - HW. lia. Qed.

Notation ins := (inside L h w).
Notation vars := (var_of S).
Lemma ls_Hint i : ins i -> integrable C (vars i).
Proof. intros (A & B & D). apply (ls_int _ _ _ _ _ _ _ _ _ _ LS); assumption. Qed.
Lemma ls_Hprod i j : ins i -> ins j -> integrable C (fun o => vars i o * vars j o).
Proof. intros (A & B & D) (A' & B' & D'). apply (ls_prod _ _ _ _ _ _ _ _ _ _ LS); assumption. Qed.
Lemma ls_lin l r c : (l < L)%nat -> (r < h)%nat -> (c < w)%nat -> lin ins vars (fun o => grey l r c (S o)).
Proof. intros A B D. exact (lin_base ins vars (l, r, c) (conj A (conj B D))). Qed.

Let own (r c : nat) : R := vp + averageR L (fun l => s2 l r c) / INR L.
Lemma avg_layered : layered C ins vars h w (fun r c o => avgR L r c (S o)) mu vr vc own.
Proof.
  split; [|split].
  - intros r c Hr Hc. apply lin_div, lin_sum. intros. apply ls_lin; assumption.
  - intros r c Hr Hc. unfold avgR.
    assert (J : forall l, (l < L)%nat -> integrable C (fun o => grey l r c (S o)))
      by (intros; apply (ls_int _ _ _ _ _ _ _ _ _ _ LS); assumption).
    rewrite exp_divI by (apply (int_sumI C L (fun l o => grey l r c (S o))); exact J).
    rewrite (exp_sumI C L (fun l o => grey l r c (S o))) by exact J.
    rewrite (sumR_ext L _ (fun _ => mu r c)) by (intros; apply (ls_mean _ _ _ _ _ _ _ _ _ _ LS); assumption).
    rewrite sumR_const. field. lra.
  - intros r c r' c' Hr Hc Hr' Hc'. unfold avgR.
    rewrite (cov_means C ins vars ls_Hint ls_Hprod L (fun l o => grey l r c (S o)) (fun l o => grey l r' c' (S o)) ltac:(lia))
      by (intros; apply ls_lin; assumption).
    rewrite (sumR_ext L _ (fun l => INR L * (same r r' vr + same c c' vc + same r r' (same c c' vp)) + same r r' (same c c' (s2 l r c)))).
    2:{ intros l Hl. rewrite (sumR_ext L _ (fun l' => (same r r' vr + same c c' vc + same r r' (same c c' vp)) +
           same r r' (same c c' (same l l' (s2 l r c))))).
        - rewrite sumR_plus, sumR_const, !sum_same_in, (sum_same L l (fun _ => _)) by assumption. reflexivity.
        - intros l' Hl'. rewrite (ls_covar _ _ _ _ _ _ _ _ _ _ LS) by assumption. rewrite !same_plus. ring. }
    rewrite sumR_plus, sumR_const, !sum_same_in. unfold own, averageR. rewrite !same_plus.
    unfold same. destruct (r =? r')%nat, (c =? c')%nat; field; lra.
Qed.

(** Average noise. *)
Lemma ls_int_noise r c : (r < h)%nat -> (c < w)%nat -> integrable C (pixel_var S L r c).
Proof.
  intros Hr Hc. apply int_divI.
  apply (int_centred_sum C ins vars ls_Hint ls_Hprod L (fun l o => grey l r c (S o))). intros. apply ls_lin; assumption.
Qed.
Lemma ls_exp_noise r c : (r < h)%nat -> (c < w)%nat ->
  expect C (pixel_var S L r c) = averageR L (fun l => s2 l r c).
Proof.
  intros Hr Hc. unfold pixel_var.
  rewrite exp_divI by (apply (int_centred_sum C ins vars ls_Hint ls_Hprod L (fun l o => grey l r c (S o)));
    intros; apply ls_lin; assumption).
  rewrite (exp_centred_cov C ins vars ls_Hint ls_Hprod L (fun l o => grey l r c (S o)) (fun _ => mu r c)
    (fun l l' => (vr + vc + vp) + same l l' (s2 l r c)) ltac:(lia)).
  - rewrite (sumR_ext L (fun i => (mu r c - _) * _) (fun _ => 0))
      by (intros; rewrite sumR_const; field; lra).
    rewrite sumR_0.
    rewrite (sumR_ext L (fun i => _ + same i i _) (fun l => (vr + vc + vp) + s2 l r c)) by (intros; rewrite same_refl; reflexivity).
    rewrite (sumR_ext L (fun i => sumR L _) (fun l => INR L * (vr + vc + vp) + s2 l r c)).
    2:{ intros l Hl. rewrite sumR_plus, sumR_const, (sum_same L l (fun _ => _)) by assumption. reflexivity. }
    rewrite !sumR_plus, !sumR_const. unfold averageR.
    set (T := sumR L (fun i => s2 i r c)). clearbody T. rewrite NL1. field. lra.
  - intros. apply ls_lin; assumption.
  - intros. apply (ls_mean _ _ _ _ _ _ _ _ _ _ LS); assumption.
  - intros. rewrite (ls_covar _ _ _ _ _ _ _ _ _ _ LS), !same_refl by assumption. ring.
Qed.
Definition ls_noise (o : W) : R := pixel_meanR h w (fun r c => pixel_var S L r c o).
Lemma ls_noise_average : averages C ls_noise (image_noise L h w s2).
Proof.
  unfold ls_noise, image_noise, pixel_meanR.
  assert (J : forall k, (k < h * w)%nat -> integrable C (fun o => pixel_var S L (k / w) (k mod w) o))
    by (intros k Hk; destruct (flat_pos h w k Hk) as (_ & R & D'); apply ls_int_noise; assumption).
  assert (E : forall o, sumR (h * w) (fun k => pixel_var S L (k / w) (k mod w) o) / INR (h * w) =
    sumR2 h w (fun r c => pixel_var S L r c o) / INR (h * w)) by (intros o; rewrite (sumR2_flat h w _ wp); reflexivity).
  split.
  - apply (int_ext C _ _ E). apply int_divI. apply (int_sumI C (h * w) (fun k o => pixel_var S L (k / w) (k mod w) o)). exact J.
  - rewrite <- (exp_ext C _ _ E).
    rewrite exp_divI by (apply (int_sumI C (h * w) (fun k o => pixel_var S L (k / w) (k mod w) o)); exact J).
    rewrite (exp_sumI C (h * w) (fun k o => pixel_var S L (k / w) (k mod w) o)) by exact J.
    rewrite (sumR2_flat h w _ wp). f_equal. apply sumR_ext. intros k Hk.
    destruct (flat_pos h w k Hk) as (_ & R & D'). apply ls_exp_noise; assumption.
Qed.

Lemma own_mean : pixel_meanR h w own = vp + image_noise L h w s2 / INR L.
Proof.
  unfold own, image_noise, pixel_meanR. rewrite sumR2_plus, sumR2_div.
  replace (sumR2 h w (fun _ _ => vp)) with (INR (h * w) * vp).
  2:{ unfold sumR2. rewrite (sumR_ext h _ (fun _ => INR w * vp)) by (intros; apply sumR_const).
      rewrite sumR_const, mult_INR. ring. }
  field. lra.
Qed.

(** The three variances. *)
Definition ls_total (o : W) : R := spatial_varianceR h w (fun r c => avgR L r c (S o)) - ls_noise o / INR L.
Definition ls_columns (o : W) : R := column_spreadR h w (fun r c => avgR L r c (S o)) - ls_noise o / (INR L * INR h).
Definition ls_rows (o : W) : R := row_spreadR h w (fun r c => avgR L r c (S o)) - ls_noise o / (INR L * INR w).

Lemma average_minus X Y x y k : averages C X x -> averages C Y y -> averages C (fun o => X o - Y o / k) (x - y / k).
Proof.
  intros (A & B) (D & E). split; [apply int_minus; [exact A|apply int_divI, D]|].
  rewrite exp_minus, exp_divI by (try exact A; try exact D; apply int_divI, D). congruence.
Qed.

Lemma total_average : averages C ls_total (spatial_varianceR h w mu +
  (vr * INR w * (INR h - 1) + vc * INR h * (INR w - 1)) / INR (h * w - 1) + vp).
Proof.
  assert (A : averages C (fun o => spatial_varianceR h w (fun r c => avgR L r c (S o)))
    (spatial_varianceR h w mu + (vr * INR w * (INR h - 1) + vc * INR h * (INR w - 1)) / INR (h * w - 1) + pixel_meanR h w own)).
  { split; [exact (int_pixels C ins vars ls_Hint ls_Hprod h w _ mu vr vc own avg_layered wp)|].
    exact (exp_pixels C ins vars ls_Hint ls_Hprod h w _ mu vr vc own avg_layered hp wp HW). }
  pose proof (average_minus _ _ _ _ (INR L) A ls_noise_average) as R. rewrite own_mean in R.
  destruct R as (R1 & R2). split; [exact R1|]. unfold ls_total. rewrite R2. ring.
Qed.
Lemma columns_average : averages C ls_columns
  (column_spreadR h w mu + (1 - 1 / INR w) * (vc + vp / INR h) - image_noise L h w s2 / (INR L * INR h * INR w)).
Proof.
  assert (A : averages C (fun o => column_spreadR h w (fun r c => avgR L r c (S o)))
    (column_spreadR h w mu + (1 - 1 / INR w) * (vc + pixel_meanR h w own / INR h))).
  { split; [exact (int_columns C ins vars ls_Hint ls_Hprod h w _ mu vr vc own avg_layered)|].
    exact (exp_columns C ins vars ls_Hint ls_Hprod h w _ mu vr vc own avg_layered hp wp). }
  pose proof (average_minus _ _ _ _ (INR L * INR h) A ls_noise_average) as R. rewrite own_mean in R.
  destruct R as (R1 & R2). split; [exact R1|]. unfold ls_columns. rewrite R2. field. lra.
Qed.
Lemma rows_average : averages C ls_rows
  (row_spreadR h w mu + (1 - 1 / INR h) * (vr + vp / INR w) - image_noise L h w s2 / (INR L * INR h * INR w)).
Proof.
  assert (E : pixel_meanR w h (fun c r => own r c) = pixel_meanR h w own).
  { unfold pixel_meanR, sumR2. rewrite sumR_swap, Nat.mul_comm. reflexivity. }
  assert (T := layered_transposed C ins vars h w _ mu vr vc own avg_layered).
  assert (A : averages C (fun o => row_spreadR h w (fun r c => avgR L r c (S o)))
    (row_spreadR h w mu + (1 - 1 / INR h) * (vr + pixel_meanR h w own / INR w))).
  { rewrite <- E. split; [exact (int_columns C ins vars ls_Hint ls_Hprod w h _ _ vc vr _ T)|].
    exact (exp_columns C ins vars ls_Hint ls_Hprod w h _ _ vc vr _ T wp hp). }
  pose proof (average_minus _ _ _ _ (INR L * INR w) A ls_noise_average) as R. rewrite own_mean in R.
  destruct R as (R1 & R2). split; [exact R1|]. unfold ls_rows. rewrite R2. field. lra.
Qed.
End Layers.
