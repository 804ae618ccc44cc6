(** Proofs for C94. *)
From Coq Require Import ZArith Reals Lia Lra FunctionalExtensionality.
From Coquelicot Require Import Coquelicot.
From Flocq Require Import Core.
From Verif Require Import Base_Prelude Base_Xreal Model_Camera Model_Optics Model_Digit Spec_Digit Spec_Linear Spec_Optics Spec_Optics2 Proofs_Digit Proofs_Optics2.
Open Scope R_scope.

Lemma frac_quarter y : 0 <= frac y * (1 - frac y) <= 1 / 4.
Proof.
  pose proof (frac_range y). split; [nra|].
  assert (0 <= (frac y - 1 / 2) * (frac y - 1 / 2)) by apply Rle_0_sqr. lra.
Qed.

Section Chance.
Context {W : Type} (C : chance W).
Implicit Types X Y : W -> R.

Lemma int_ext X Y : (forall w, X w = Y w) -> integrable C X -> integrable C Y.
Proof. intros H. replace Y with X; auto. apply functional_extensionality, H. Qed.
Lemma exp_ext X Y : (forall w, X w = Y w) -> expect C X = expect C Y.
Proof. intros H. f_equal. apply functional_extensionality, H. Qed.

Lemma int_minus X Y : integrable C X -> integrable C Y -> integrable C (fun w => X w - Y w).
Proof.
  intros HX HY. apply (int_ext (fun w => X w + -1 * Y w)); [intros; ring|].
  apply integrable_plus; [assumption|]. apply integrable_scale. assumption.
Qed.
Lemma exp_minus X Y : integrable C X -> integrable C Y -> expect C (fun w => X w - Y w) = expect C X - expect C Y.
Proof.
  intros HX HY. rewrite (exp_ext _ (fun w => X w + -1 * Y w)) by (intros; ring).
  rewrite expect_plus, expect_scale by (auto using integrable_scale). ring.
Qed.

(** Centred products. *)
Lemma int_centred X Y a b : integrable C X -> integrable C Y -> integrable C (fun w => X w * Y w) ->
  integrable C (fun w => (X w - a) * (Y w - b)).
Proof.
  intros HX HY HXY. apply (int_ext (fun w => (X w * Y w + - a * Y w) + (- b * X w + a * b))); [intros; ring|].
  repeat apply integrable_plus; auto using integrable_scale, integrable_const.
Qed.

Variables (t l : W -> Z) (n : W -> R) (ud ue mu s2 : R).
Hypothesis D : deliveries C t l n ud ue mu s2.
Variables (bits : nat) (K offset u_esat dsnu : R).
Hypothesis U : unclipped (IZR (img_max bits)) K offset u_esat dsnu t l n.

Let e w := IZR (t w) + IZR (l w) + dsnu + n w.
Let y w := K * e w + offset.
Let me := ud + ue + dsnu + mu.

Lemma electrons_free w : well_electrons u_esat dsnu (t w) (l w) (n w) = e w.
Proof.
  destruct (U w) as [H _]. unfold well_electrons, e. rewrite plus_IZR. cbv zeta in H.
  rewrite Rmin_left by lra. rewrite Rmax_right by lra. ring.
Qed.

Lemma int_e : integrable C e.
Proof.
  apply (int_ext (fun w => (IZR (t w) + IZR (l w)) + (dsnu + n w))); [intros; unfold e; ring|].
  destruct D. repeat apply integrable_plus; auto using integrable_const.
Qed.
Lemma exp_e : expect C e = me.
Proof.
  rewrite (exp_ext _ (fun w => (IZR (t w) + IZR (l w)) + (dsnu + n w))) by (intros; unfold e; ring).
  destruct D. rewrite !expect_plus by (repeat apply integrable_plus; auto using integrable_const).
  rewrite expect_const. unfold me. lra.
Qed.
Lemma int_y : integrable C y.
Proof. apply integrable_plus; [apply integrable_scale, int_e|apply integrable_const]. Qed.
Lemma exp_y : expect C y = K * me + offset.
Proof.
  unfold y. rewrite expect_plus, expect_scale, expect_const, exp_e;
    auto using int_e, integrable_scale, integrable_const.
Qed.

(** The variance of the electrons. *)
Lemma e_square w : (e w - me) * (e w - me) =
  ((IZR (t w) - ud) * (IZR (t w) - ud) + (IZR (l w) - ue) * (IZR (l w) - ue)) +
  ((n w - mu) * (n w - mu) + 2 * ((IZR (t w) - ud) * (IZR (l w) - ue) +
    ((IZR (t w) - ud) * (n w - mu) + (IZR (l w) - ue) * (n w - mu)))).
Proof. unfold e, me. ring. Qed.
Lemma int_e2 : integrable C (fun w => (e w - me) * (e w - me)).
Proof.
  eapply int_ext; [intros w; symmetry; apply e_square|]. destruct D.
  repeat (apply integrable_plus || apply integrable_scale); apply int_centred; assumption.
Qed.
Lemma exp_e2 : expect C (fun w => (e w - me) * (e w - me)) = ud + ue + s2.
Proof.
  rewrite (exp_ext _ _ e_square).
  pose proof (dv_mean_t _ _ _ _ _ _ _ _ D) as Mt. pose proof (dv_mean_l _ _ _ _ _ _ _ _ D) as Ml.
  pose proof (dv_mean_n _ _ _ _ _ _ _ _ D) as Mn.
  pose proof (dv_var_t _ _ _ _ _ _ _ _ D) as Vt. pose proof (dv_var_l _ _ _ _ _ _ _ _ D) as Vl.
  pose proof (dv_var_n _ _ _ _ _ _ _ _ D) as Vn. pose proof (dv_cov_tl _ _ _ _ _ _ _ _ D) as Ctl.
  pose proof (dv_cov_tn _ _ _ _ _ _ _ _ D) as Ctn. pose proof (dv_cov_ln _ _ _ _ _ _ _ _ D) as Cln.
  unfold covar in *. cbv beta in *. rewrite Mt in Vt, Ctl, Ctn. rewrite Ml in Vl, Ctl, Cln.
  rewrite Mn in Vn, Ctn, Cln. clear Mt Ml Mn.
  repeat (rewrite expect_plus || rewrite expect_scale);
    try (destruct D; repeat (apply integrable_plus || apply integrable_scale); apply int_centred; assumption).
  lra.
Qed.

Let X w u := IZR (grab_value bits K offset u_esat dsnu (t w) (l w) (n w) u).
Let in_range w : 0 <= K * e w + offset <= IZR (img_max bits).
Proof. apply U. Qed.

Lemma X_mean w : mean_over_draw (X w) (y w).
Proof. unfold X, grab_value. rewrite electrons_free. apply digit_mean, in_range. Qed.

Lemma linear_mean : mean_is C X (offset + K * (ud + ue + dsnu + mu)).
Proof.
  exists y. split; [apply X_mean|]. split; [apply int_y|]. rewrite exp_y. unfold me. ring.
Qed.

Lemma mean_is_unique (Y : W -> R -> R) m m' : mean_is C Y m -> mean_is C Y m' -> m = m'.
Proof.
  intros (F & HF & _ & <-) (G & HG & _ & <-). apply exp_ext. intros w.
  specialize (HF w). specialize (HG w). unfold mean_over_draw in *.
  apply (@is_RInt_unique R_CompleteNormedModule) in HF. apply (@is_RInt_unique R_CompleteNormedModule) in HG.
  congruence.
Qed.

(** The draw around any number. *)
Lemma X_square w m :
  mean_over_draw (fun u => (X w u - m) * (X w u - m)) (frac (y w) * (1 - frac (y w)) + (y w - m) * (y w - m)).
Proof.
  unfold X, grab_value. rewrite electrons_free. unfold mean_over_draw.
  replace (frac (y w) * (1 - frac (y w)) + (y w - m) * (y w - m))
    with ((1 - frac (y w)) * ((IZR (Zfloor (y w)) - m) * (IZR (Zfloor (y w)) - m))
      + frac (y w) * ((IZR (Zfloor (y w) + 1) - m) * (IZR (Zfloor (y w) + 1) - m))).
  - apply (step_integral bits K (e w) offset (in_range w) (fun z => (IZR z - m) * (IZR z - m))).
  - rewrite plus_IZR. unfold frac. ring.
Qed.

Lemma linear_variance v : variance_is C X v ->
  K * K * (ud + ue + s2) <= v <= K * K * (ud + ue + s2) + 1 / 4.
Proof.
  intros (m & Hm & V & HV & IV & <-).
  rewrite (mean_is_unique _ _ _ Hm linear_mean) in *. clear m Hm.
  set (m := offset + K * (ud + ue + dsnu + mu)) in *.
  assert (EV : forall w, V w = frac (y w) * (1 - frac (y w)) + (y w - m) * (y w - m)).
  { intros w. specialize (HV w). pose proof (X_square w m) as Q. unfold mean_over_draw in *.
    apply (@is_RInt_unique R_CompleteNormedModule) in HV. apply (@is_RInt_unique R_CompleteNormedModule) in Q.
    rewrite Q in HV. symmetry. exact HV. }
  assert (ES : forall w, (y w - m) * (y w - m) = K * K * ((e w - me) * (e w - me))).
  { intros w. unfold y, m, me. ring. }
  assert (IS : integrable C (fun w => (y w - m) * (y w - m))).
  { eapply int_ext; [intros w; symmetry; apply ES|]. apply integrable_scale, int_e2. }
  assert (EE : expect C (fun w => (y w - m) * (y w - m)) = K * K * (ud + ue + s2)).
  { rewrite (exp_ext _ _ ES), expect_scale, exp_e2; auto using int_e2. }
  split.
  - rewrite <- EE. apply expect_le; auto. intros w. rewrite EV. pose proof (frac_quarter (y w)). lra.
  - rewrite <- EE. rewrite <- (expect_const _ C (1 / 4)). rewrite <- expect_plus by (auto using integrable_const).
    apply expect_le; auto.
    + apply integrable_plus; auto using integrable_const.
    + intros w. rewrite EV. pose proof (frac_quarter (y w)). lra.
Qed.

(** A variance exists as soon as the quantisation noise has an expected value. *)
Lemma linear_variance_exists :
  integrable C (fun w => frac (y w) * (1 - frac (y w))) -> exists v, variance_is C X v.
Proof.
  intros I. set (m := offset + K * (ud + ue + dsnu + mu)).
  eexists. exists m. split; [exact linear_mean|].
  eexists. split; [intros w; apply X_square|]. split; [|reflexivity].
  apply integrable_plus; [exact I|].
  apply (int_ext (fun w => K * K * ((e w - me) * (e w - me)))).
  - intros w. unfold y, m, me. ring.
  - apply integrable_scale, int_e2.
Qed.
End Chance.

(** ** Bright and dark *)
Section Transfer.
Context {W W' : Type} (C : chance W) (C' : chance W').
Variables (t l : W -> Z) (n : W -> R) (t' l' : W' -> Z) (n' : W' -> R) (ud ue mu s2 : R).
Variables (bits : nat) (K offset u_esat dsnu : R).
Hypothesis D : deliveries C t l n ud ue mu s2.
Hypothesis D' : deliveries C' t' l' n' ud 0 mu s2.
Hypothesis U : unclipped (IZR (img_max bits)) K offset u_esat dsnu t l n.
Hypothesis U' : unclipped (IZR (img_max bits)) K offset u_esat dsnu t' l' n'.
Let X w u := IZR (grab_value bits K offset u_esat dsnu (t w) (l w) (n w) u).
Let X' w u := IZR (grab_value bits K offset u_esat dsnu (t' w) (l' w) (n' w) u).

Lemma light_signal m m' : mean_is C X m -> mean_is C' X' m' -> m - m' = K * ue.
Proof.
  intros H H'. rewrite (mean_is_unique _ _ _ _ H (linear_mean C t l n ud ue mu s2 D bits K offset u_esat dsnu U)).
  rewrite (mean_is_unique _ _ _ _ H' (linear_mean C' t' l' n' ud 0 mu s2 D' bits K offset u_esat dsnu U')). ring.
Qed.

Lemma photon_transfer m m' v v' : mean_is C X m -> mean_is C' X' m' -> variance_is C X v -> variance_is C' X' v' ->
  Rabs ((v - v') - K * (m - m')) <= 1 / 4.
Proof.
  intros H H' V V'. rewrite (light_signal m m' H H').
  apply (linear_variance C t l n ud ue mu s2 D bits K offset u_esat dsnu U) in V.
  apply (linear_variance C' t' l' n' ud 0 mu s2 D' bits K offset u_esat dsnu U') in V'.
  apply Rabs_le. lra.
Qed.
End Transfer.

Lemma light_response W W' (C : chance W) (C' : chance W') t l n t' l' n' ud ue mu s2 bits K offset u_esat dsnu o r f i j :
  (forall k, (k < o_n o)%nat -> o_wave o k <> 0) ->
  u_e o (fun i j k => XR (r i j k)) f i j = XR ue ->
  deliveries C t l n ud ue mu s2 -> deliveries C' t' l' n' ud 0 mu s2 ->
  unclipped (IZR (img_max bits)) K offset u_esat dsnu t l n ->
  unclipped (IZR (img_max bits)) K offset u_esat dsnu t' l' n' ->
  forall m m',
  mean_is C (fun w u => IZR (grab_value bits K offset u_esat dsnu (t w) (l w) (n w) u)) m ->
  mean_is C' (fun w u => IZR (grab_value bits K offset u_esat dsnu (t' w) (l' w) (n' w) u)) m' ->
  m - m' = K * electrons o (fun i j k =>
    photons_on (irradiance (r i j k) (or_default f (o_f_number o)) (o_wave o k / 10 ^ 9))
      (o_pixel_area o / 10 ^ 12) (o_exposure o / 10 ^ 9) (o_wave o k / 10 ^ 9)) i j.
Proof.
  intros Hw E D D' U U' m m' H H'. rewrite (light_electrons o r f Hw) in E. injection E as E.
  rewrite (light_signal C C' t l n t' l' n' ud ue mu s2 bits K offset u_esat dsnu D D' U U' m m' H H'). rewrite <- E.
  reflexivity.
Qed.

(** ** A space of eight outcomes *)
Definition mean8 (f : bool * bool * bool -> R) : R :=
  (f (true, true, true) + f (true, true, false) + f (true, false, true) + f (true, false, false)
   + f (false, true, true) + f (false, true, false) + f (false, false, true) + f (false, false, false)) / 8.
Definition coins : chance (bool * bool * bool).
Proof.
  refine (mkChance _ (fun _ => True) mean8 _ _ _ _ _ _ _); try (intros; exact I); unfold mean8.
  - intros. field.
  - intros. field.
  - intros. field.
  - intros X Y _ _ H. apply Rmult_le_compat_r; [lra|]. repeat apply Rplus_le_compat; apply H.
Defined.
Definition coin_t (w : bool * bool * bool) : Z := let '(a, _, _) := w in if a then 2 else 0.
Definition coin_l (w : bool * bool * bool) : Z := let '(_, b, _) := w in if b then 12 else 6.
Definition coin_n (w : bool * bool * bool) : R := let '(_, _, c) := w in if c then 3 / 2 else 1 / 2.

Lemma coin_deliveries : deliveries coins coin_t coin_l coin_n 1 9 1 (1 / 4).
Proof. constructor; try exact I; unfold covar, coins, expect, mean8, coin_t, coin_l, coin_n; lra. Qed.
Lemma coin_unclipped : unclipped (IZR (img_max 8)) (1 / 3) 5 100 (1 / 10) coin_t coin_l coin_n.
Proof.
  intros [[a b] c]. change (img_max 8) with 255%Z. unfold coin_t, coin_l, coin_n.
  destruct a, b, c; cbv zeta; lra.
Qed.

Lemma coin_dark_deliveries : deliveries coins coin_t (fun _ => 0%Z) coin_n 1 0 1 (1 / 4).
Proof. constructor; try exact I; unfold covar, coins, expect, mean8, coin_t, coin_n; lra. Qed.
Lemma coin_dark_unclipped : unclipped (IZR (img_max 8)) (1 / 3) 5 100 (1 / 10) coin_t (fun _ => 0%Z) coin_n.
Proof.
  intros [[a b] c]. change (img_max 8) with 255%Z. unfold coin_t, coin_n.
  destruct a, b, c; cbv zeta; lra.
Qed.
