(** Expected variances of arrays with row, column and pixel parts. *)
From Coq Require Import List Bool Arith ZArith Reals Lia Lra FunctionalExtensionality.
From Verif Require Import Base_SumR Spec_Chance Spec_Linear Spec_Any Spec_Components
  Proofs_Chance Proofs_Linear Proofs_Any Proofs_Any2.
Open Scope R_scope.

(** ** Sums of parts *)
Lemma same_refl i x : same i i x = x.
Proof. unfold same. rewrite Nat.eqb_refl. reflexivity. Qed.
Lemma same_plus i j x y : same i j (x + y) = same i j x + same i j y.
Proof. unfold same. destruct (i =? j)%nat; ring. Qed.
Lemma same_comm i j x : same i j x = same j i x.
Proof. unfold same. rewrite Nat.eqb_sym. reflexivity. Qed.
Lemma sum_same n i (x : nat -> R) : (i < n)%nat -> sumR n (fun j => same i j (x j)) = x i.
Proof.
  intros Hi. rewrite (sumR_single n _ i Hi); [apply same_refl|].
  intros j _ E. unfold same. destruct (Nat.eqb_spec i j); [congruence|reflexivity].
Qed.
Lemma same_scal i j k x : k * same i j x = same i j (k * x).
Proof. unfold same. destruct (i =? j)%nat; ring. Qed.
Lemma sum_same_in n i j (f : nat -> R) : sumR n (fun k => same i j (f k)) = same i j (sumR n f).
Proof. unfold same. destruct (i =? j)%nat; [reflexivity|apply sumR_0]. Qed.
Lemma same_div i j k x : same i j x / k = same i j (x / k).
Proof. unfold same. destruct (i =? j)%nat; [reflexivity|unfold Rdiv; ring]. Qed.

Section Cov.
Context {W I : Type} (C : chance W) (ok : I -> Prop) (V : I -> W -> R).
Hypothesis HV : forall i, ok i -> integrable C (V i).
Hypothesis HVV : forall i j, ok i -> ok j -> integrable C (fun w => V i w * V j w).
Notation linear := (lin ok V).

(** Spread of correlated variables. *)
Lemma exp_centred_cov n X m (k : nat -> nat -> R) : (0 < n)%nat ->
  (forall i, (i < n)%nat -> linear (X i)) -> (forall i, (i < n)%nat -> expect C (X i) = m i) ->
  (forall i j, (i < n)%nat -> (j < n)%nat -> covar C (X i) (X j) = k i j) ->
  expect C (fun w => sumR n (fun i => (X i w - sumR n (fun i => X i w) / INR n) *
                                      (X i w - sumR n (fun i => X i w) / INR n))) =
  sumR n (fun i => (m i - sumR n m / INR n) * (m i - sumR n m / INR n)) +
  (sumR n (fun i => k i i) - sumR n (fun i => sumR n (fun j => k i j)) / INR n).
Proof.
  intros Hn HX HM HC. assert (N := INR_pos n Hn).
  assert (HS : linear (fun w => sumR n (fun i => X i w))) by (apply lin_sum, HX).
  assert (M : forall A B, linear A -> linear B -> integrable C (fun w => A w * B w))
    by (intros; eapply lin_mul; eauto).
  rewrite (exp_ext C _ (fun w => sumR n (fun i => X i w * X i w)
     - (sumR n (fun i => X i w) * sumR n (fun i => X i w)) / INR n)).
  2:{ intros w. apply (centredR n (fun i => X i w) Hn). }
  rewrite exp_minus; [|apply (int_sumI C n (fun i w => X i w * X i w)); auto|apply int_divI; auto].
  rewrite exp_divI by auto.
  rewrite (exp_sumI C n (fun i w => X i w * X i w)) by auto. rewrite (centredR n m Hn).
  assert (A : expect C (fun w => sumR n (fun i => X i w) * sumR n (fun i => X i w)) =
              sumR n m * sumR n m + sumR n (fun i => sumR n (fun j => k i j))).
  { assert (Q := cov_moments C ok V HV HVV _ _ HS HS).
    rewrite (cov_sum C ok V HV HVV n n X X HX HX) in Q.
    rewrite (exp_sumI C n X) in Q by (intros; eapply lin_int; eauto).
    rewrite (sumR_ext n (fun i => expect C (X i)) m) in Q by (intros; apply HM; assumption).
    rewrite (sumR_ext n (fun i => sumR n (fun j => covar C (X i) (X j))) (fun i => sumR n (fun j => k i j))) in Q
      by (intros; apply sumR_ext; intros; apply HC; assumption).
    lra. }
  rewrite A.
  rewrite (sumR_ext n (fun i => expect C (fun w => X i w * X i w)) (fun i => m i * m i + k i i)).
  2:{ intros i Hi. assert (Q := cov_moments C ok V HV HVV (X i) (X i) (HX i Hi) (HX i Hi)).
      rewrite (HC i i Hi Hi), (HM i Hi) in Q. lra. }
  rewrite sumR_plus. field. lra.
Qed.

(** Covariance of means. *)
Lemma cov_means k X Y : (0 < k)%nat ->
  (forall j, (j < k)%nat -> linear (X j)) -> (forall j, (j < k)%nat -> linear (Y j)) ->
  covar C (fun w => sumR k (fun j => X j w) / INR k) (fun w => sumR k (fun j => Y j w) / INR k) =
  sumR k (fun i => sumR k (fun j => covar C (X i) (Y j))) / (INR k * INR k).
Proof.
  intros Hk HX HY. assert (N := INR_pos k Hk).
  rewrite (cov_div C ok V HV HVV (fun w => sumR k (fun j => X j w)) (fun w => sumR k (fun j => Y j w)))
    by (try (apply lin_sum; assumption); lra).
  rewrite (cov_sum C ok V HV HVV k k X Y HX HY). reflexivity.
Qed.

(** An array of variables with row, column and own parts. *)
Definition layered (h w : nat) (X : nat -> nat -> W -> R) (m : nat -> nat -> R) (vr vc : R) (n : nat -> nat -> R) : Prop :=
  (forall r c, (r < h)%nat -> (c < w)%nat -> linear (X r c)) /\
  (forall r c, (r < h)%nat -> (c < w)%nat -> expect C (X r c) = m r c) /\
  (forall r c r' c', (r < h)%nat -> (c < w)%nat -> (r' < h)%nat -> (c' < w)%nat ->
     covar C (X r c) (X r' c') = same r r' vr + same c c' vc + same r r' (same c c' (n r c))).

Lemma layered_transposed h w X m vr vc n : layered h w X m vr vc n ->
  layered w h (fun c r => X r c) (fun c r => m r c) vc vr (fun c r => n r c).
Proof.
  intros (A & B & D). split; [|split]; auto.
  intros c r c' r' Hc Hr Hc' Hr'. rewrite D by assumption.
  unfold same. destruct (r =? r')%nat, (c =? c')%nat; ring.
Qed.

Section Array.
Variables (h w : nat) (X : nat -> nat -> W -> R) (m : nat -> nat -> R) (vr vc : R) (n : nat -> nat -> R).
Hypothesis LY : layered h w X m vr vc n.
Hypothesis Hh : (0 < h)%nat.
Hypothesis Hw : (0 < w)%nat.
Let Nh : 0 < INR h. Proof. apply INR_pos, Hh. Qed.
Let Nw : 0 < INR w. Proof. apply INR_pos, Hw. Qed.
Let Nn : 0 < INR (h * w). Proof. apply INR_pos. clear - Hh Hw. nia. Qed.

Definition colavg (c : nat) (o : W) : R := sumR h (fun r => X r c o) / INR h.

Lemma colavg_lin c : (c < w)%nat -> linear (colavg c).
Proof. intros Hc. apply lin_div, lin_sum. intros r Hr. apply LY; assumption. Qed.
Lemma colavg_mean c : (c < w)%nat -> expect C (colavg c) = averageR h (fun r => m r c).
Proof.
  intros Hc. destruct LY as (A & B & _). unfold colavg, averageR.
  rewrite exp_divI by (apply (int_sumI C h (fun r => X r c)); intros; eapply lin_int; eauto).
  rewrite (exp_sumI C h (fun r => X r c)) by (intros; eapply lin_int; eauto).
  f_equal. apply sumR_ext. intros r Hr. apply B; assumption.
Qed.
Lemma colavg_cov c c' : (c < w)%nat -> (c' < w)%nat ->
  covar C (colavg c) (colavg c') = vr / INR h + same c c' (vc + averageR h (fun r => n r c) / INR h).
Proof.
  intros Hc Hc'. destruct LY as (A & B & D). unfold colavg.
  rewrite (cov_means h (fun r => X r c) (fun r => X r c') Hh) by (intros; apply A; assumption).
  rewrite (sumR_ext h _ (fun r => vr + same c c' (INR h * vc + n r c))).
  2:{ intros r Hr. rewrite (sumR_ext h _ (fun r' => same r r' vr + same c c' vc + same r r' (same c c' (n r c))))
        by (intros; apply D; assumption).
      rewrite !sumR_plus, !(sum_same h r (fun _ => _)), sumR_const, same_plus, <- same_scal by assumption. ring. }
  rewrite sumR_plus, sumR_const, sum_same_in, sumR_plus, sumR_const. unfold averageR.
  unfold same. destruct (c =? c')%nat; field; lra.
Qed.

(** Variance of the column means. *)
Lemma colavg_spread o : column_spreadR h w (fun r c => X r c o) =
  sumR w (fun i => (colavg i o - sumR w (fun i => colavg i o) / INR w) *
                   (colavg i o - sumR w (fun i => colavg i o) / INR w)) / INR w.
Proof. reflexivity. Qed.
Lemma int_columns : integrable C (fun o => column_spreadR h w (fun r c => X r c o)).
Proof.
  unfold column_spreadR, spreadR, averageR at 1. apply int_divI.
  apply (int_centred_sum C ok V HV HVV w colavg). exact colavg_lin.
Qed.
Lemma exp_columns : expect C (fun o => column_spreadR h w (fun r c => X r c o)) =
  column_spreadR h w m + (1 - 1 / INR w) * (vc + pixel_meanR h w n / INR h).
Proof.
  rewrite (exp_ext C _ _ colavg_spread).
  rewrite exp_divI by (apply (int_centred_sum C ok V HV HVV w colavg); exact colavg_lin).
  rewrite (exp_centred_cov w colavg _ _ Hw colavg_lin colavg_mean colavg_cov).
  rewrite (eq_refl : column_spreadR h w m = sumR w (fun i =>
    (averageR h (fun r => m r i) - sumR w (fun i => averageR h (fun r => m r i)) / INR w) *
    (averageR h (fun r => m r i) - sumR w (fun i => averageR h (fun r => m r i)) / INR w)) / INR w).
  set (T := sumR w (fun i => _ * _)). clearbody T.
  assert (E : sumR w (fun c => averageR h (fun r => n r c)) = INR w * pixel_meanR h w n).
  { unfold averageR. rewrite sumR_div, sumR_swap. unfold pixel_meanR, sumR2. rewrite mult_INR. field. lra. }
  rewrite (sumR_ext w (fun i => vr / INR h + same i i _) (fun c => vr / INR h + (vc + averageR h (fun r => n r c) / INR h)))
    by (intros; rewrite same_refl; reflexivity).
  rewrite (sumR_ext w (fun i => sumR w (fun j => vr / INR h + same i j _))
    (fun c => INR w * (vr / INR h) + (vc + averageR h (fun r => n r c) / INR h))).
  2:{ intros c Hc. rewrite sumR_plus, sumR_const, (sum_same w c (fun _ => _)) by assumption. reflexivity. }
  rewrite !sumR_plus, !sumR_const, sumR_div, E. field. lra.
Qed.

(** Variance of all pixels. *)
Let flatX (k : nat) : W -> R := X (k / w)%nat (k mod w)%nat.
Let kern (r c r' c' : nat) : R := same r r' vr + same c c' vc + same r r' (same c c' (n r c)).
Lemma flat_lin k : (k < h * w)%nat -> linear (flatX k).
Proof. intros Hk. destruct (flat_pos h w k Hk) as (_ & R & D). apply LY; assumption. Qed.
Lemma flat_mean k : (k < h * w)%nat -> expect C (flatX k) = m (k / w)%nat (k mod w)%nat.
Proof. intros Hk. destruct (flat_pos h w k Hk) as (_ & R & D). apply LY; assumption. Qed.
Lemma flat_cov k k' : (k < h * w)%nat -> (k' < h * w)%nat ->
  covar C (flatX k) (flatX k') = kern (k / w) (k mod w) (k' / w) (k' mod w).
Proof.
  intros Hk Hk'. destruct (flat_pos h w k Hk) as (_ & R & D). destruct (flat_pos h w k' Hk') as (_ & R' & D').
  apply LY; assumption.
Qed.
Lemma kern_sum r c : (r < h)%nat -> (c < w)%nat -> sumR2 h w (kern r c) = INR w * vr + INR h * vc + n r c.
Proof.
  intros Hr Hc. unfold sumR2, kern.
  rewrite (sumR_ext h _ (fun r' => same r r' (INR w * vr) + vc + same r r' (n r c))).
  - rewrite !sumR_plus, !(sum_same h r (fun _ => _)), sumR_const by assumption. ring.
  - intros r' _. rewrite !sumR_plus, sumR_const, (sum_same w c (fun _ => _)), sum_same_in,
      (sum_same w c (fun _ => _)), same_scal by assumption. reflexivity.
Qed.

Hypothesis HW : (2 <= h * w)%nat.
Let Nm : 0 < INR (h * w - 1). Proof. apply INR_pos. clear - HW. lia. Qed.
Let N1 : INR (h * w) = INR (h * w - 1) + 1.
Proof. rewrite <- S_INR. f_equal. clear - HW. lia. Qed.

Lemma flat_variance f : spatial_varianceR h w f =
  sumR (h * w) (fun k => (f (k / w)%nat (k mod w)%nat - sumR (h * w) (fun k => f (k / w)%nat (k mod w)%nat) / INR (h * w)) *
     (f (k / w)%nat (k mod w)%nat - sumR (h * w) (fun k => f (k / w)%nat (k mod w)%nat) / INR (h * w))) / INR (h * w - 1).
Proof.
  unfold spatial_varianceR, pixel_meanR. rewrite (sumR2_flat h w f Hw). rewrite (sumR2_flat h w _ Hw). reflexivity.
Qed.
Lemma flat_spread o : spatial_varianceR h w (fun r c => X r c o) =
  sumR (h * w) (fun k => (flatX k o - sumR (h * w) (fun k => flatX k o) / INR (h * w)) *
                         (flatX k o - sumR (h * w) (fun k => flatX k o) / INR (h * w))) / INR (h * w - 1).
Proof. apply flat_variance. Qed.
Lemma int_pixels : integrable C (fun o => spatial_varianceR h w (fun r c => X r c o)).
Proof.
  eapply int_ext; [intros o; symmetry; apply flat_variance|]. apply int_divI.
  apply (int_centred_sum C ok V HV HVV (h * w) flatX flat_lin).
Qed.
Lemma exp_pixels : expect C (fun o => spatial_varianceR h w (fun r c => X r c o)) =
  spatial_varianceR h w m +
  (vr * INR w * (INR h - 1) + vc * INR h * (INR w - 1)) / INR (h * w - 1) + pixel_meanR h w n.
Proof.
  rewrite (exp_ext C _ _ flat_spread).
  rewrite exp_divI by (apply (int_centred_sum C ok V HV HVV (h * w) flatX flat_lin)).
  rewrite (exp_centred_cov (h * w) flatX _ _ ltac:(lia) flat_lin flat_mean flat_cov).
  rewrite flat_variance.
  set (T := sumR (h * w) (fun i => _ * _)). clearbody T.
  rewrite <- (sumR2_flat h w (fun r c => kern r c r c) Hw).
  rewrite (sumR_ext (h * w) (fun i => sumR (h * w) _) (fun k => INR w * vr + INR h * vc + n (k / w)%nat (k mod w)%nat)).
  2:{ intros k Hk. destruct (flat_pos h w k Hk) as (_ & R & D).
      rewrite <- (sumR2_flat h w (kern (k / w) (k mod w)) Hw). apply kern_sum; assumption. }
  rewrite sumR_plus, sumR_const, <- (sumR2_flat h w n Hw).
  rewrite (sumR2_ext h w (fun r c => kern r c r c) (fun r c => (vr + vc) + n r c))
    by (intros; unfold kern; rewrite !same_refl; reflexivity).
  rewrite sumR2_plus. unfold pixel_meanR.
  replace (sumR2 h w (fun _ _ => vr + vc)) with (INR (h * w) * (vr + vc)).
  2:{ unfold sumR2. rewrite (sumR_ext h _ (fun _ => INR w * (vr + vc))) by (intros; apply sumR_const).
      rewrite sumR_const, mult_INR. ring. }
  set (Q := sumR2 h w n). clearbody Q.
  assert (E : INR (h * w) = INR h * INR w) by apply mult_INR.
  replace (INR (h * w - 1)) with (INR h * INR w - 1) in * by lra. rewrite E in *.
  field. lra.
Qed.
End Array.
End Cov.
