(** Power spectrum: symmetry, Parseval, pure waves. *)
From Coq Require Import List Bool Arith ZArith Reals Lra Lia.
From Verif Require Import Base_Prelude Base_Sum Base_Xreal Base_SumR Model_Images Model_Hist
  Spec_Hist Proofs_Hist Proofs_Hist3 Model_FFT Spec_FFT.
Import ListNotations.
Open Scope R_scope.

Local Arguments INR : simpl never.

Lemma INR_nz n : (0 < n)%nat -> INR n <> 0.
Proof. intro H. assert (A := INR_pos n H). lra. Qed.

Lemma fabs_modulus c x k : (0 < c)%nat -> fabs c x k = modulus2 c x k / INR c.
Proof.
  intro H. unfold fabs, modulus2, fft_re, fft_im.
  assert (P := INR_pos c H).
  assert (S : sqrt (INR c) * sqrt (INR c) = INR c) by (apply sqrt_sqrt; lra).
  assert (S0 : sqrt (INR c) <> 0). { intro E. rewrite E in S. lra. }
  set (a := sumR c _). set (b := sumR c _). set (s := sqrt (INR c)) in *.
  rewrite <- S. field. auto.
Qed.

(** ** Symmetry *)
Lemma angle_mirror c k j : (0 < c)%nat -> (k <= c)%nat ->
  2 * PI * INR (c - k) * INR j / INR c = - (2 * PI * INR k * INR j / INR c) + 2 * INR j * PI.
Proof. intros H L. rewrite minus_INR by auto. field. apply INR_nz. auto. Qed.

Lemma modulus_mirror c x k : (0 < c)%nat -> (k <= c)%nat -> modulus2 c x (c - k) = modulus2 c x k.
Proof.
  intros H L. unfold modulus2.
  rewrite (sumR_ext c (fun j => x j * cos (2 * PI * INR (c - k) * INR j / INR c))
             (fun j => x j * cos (2 * PI * INR k * INR j / INR c))).
  2:{ intros j _. rewrite angle_mirror, cos_turns, cos_neg by auto. reflexivity. }
  rewrite (sumR_ext c (fun j => x j * sin (2 * PI * INR (c - k) * INR j / INR c))
             (fun j => -1 * (x j * sin (2 * PI * INR k * INR j / INR c)))).
  2:{ intros j _. rewrite angle_mirror, sin_turns, sin_neg by auto. ring. }
  rewrite sumR_scal. ring.
Qed.

Lemma spectrum_mirror h w f k : (0 < w)%nat -> (k <= w)%nat ->
  spectrum h w f (w - k) = spectrum h w f k.
Proof.
  intros H L. unfold spectrum. f_equal. apply sumR_ext. intros r _.
  rewrite modulus_mirror by auto. reflexivity.
Qed.

(** ** Parseval *)
Lemma modulus_double c x k :
  modulus2 c x k =
  sumR c (fun j => sumR c (fun l => x j * x l *
     cos (2 * PI * INR k * INR j / INR c - 2 * PI * INR k * INR l / INR c))).
Proof.
  unfold modulus2. simpl pow. rewrite !Rmult_1_r.
  rewrite !sumR_mult, <- sumR_plus. apply sumR_ext. intros j _.
  rewrite <- sumR_plus. apply sumR_ext. intros l _. rewrite cos_minus. ring.
Qed.

Lemma sum_cos_diff c j l : (j < c)%nat -> (l < c)%nat ->
  sumR c (fun k => cos (2 * PI * INR k * INR j / INR c - 2 * PI * INR k * INR l / INR c)) =
  if (l =? j)%nat then INR c else 0.
Proof.
  intros Hj Hl. assert (N : INR c <> 0) by (apply INR_nz; lia).
  destruct (Nat.eqb_spec l j) as [->|D].
  - rewrite (sumR_ext c _ (fun _ => 1)).
    + rewrite sumR_const. ring.
    + intros k _. rewrite Rminus_diag_eq by reflexivity. apply cos_0.
  - destruct (Nat.lt_trichotomy l j) as [L|[L|L]]; [|lia|].
    + rewrite <- (sum_cos_zero c (j - l) ltac:(lia)). apply sumR_ext. intros k _.
      rewrite minus_INR by lia. f_equal. field. auto.
    + rewrite <- (sum_cos_zero c (l - j) ltac:(lia)). apply sumR_ext. intros k _.
      rewrite minus_INR by lia. rewrite <- cos_neg. f_equal. field. auto.
Qed.

Lemma parseval c x : (0 < c)%nat ->
  sumR c (fun k => modulus2 c x k / INR c) = sumR c (fun j => x j ^ 2).
Proof.
  intro H. assert (N := INR_nz c H).
  rewrite (sumR_ext c _ (fun k => / INR c * sumR c (fun j => sumR c (fun l => x j * x l *
     cos (2 * PI * INR k * INR j / INR c - 2 * PI * INR k * INR l / INR c))))).
  2:{ intros k _. rewrite modulus_double. unfold Rdiv. ring. }
  rewrite sumR_scal, sumR_swap.
  rewrite (sumR_ext c _ (fun j => INR c * x j ^ 2)).
  - rewrite sumR_scal. field. auto.
  - intros j Hj. rewrite sumR_swap.
    rewrite (sumR_ext c _ (fun l => if (l =? j)%nat then x j * x l * INR c else 0)).
    + rewrite (sumR_delta c j (fun l => x j * x l * INR c)) by auto. ring.
    + intros l Hl. rewrite sumR_scal, sum_cos_diff by auto.
      destruct (l =? j)%nat; ring.
Qed.

Lemma spectrum_energy h w f : (0 < h)%nat -> (0 < w)%nat ->
  sumR w (spectrum h w f) = energy h w f.
Proof.
  intros Hh Hw. unfold spectrum, energy. unfold Rdiv at 1.
  rewrite (sumR_scal_r w (/ INR h) (fun k => sumR h (fun r =>
     modulus2 w (fun j => f r j - mean_of h w f) k / INR w))).
  rewrite sumR_swap.
  rewrite (sumR_ext h _ (fun r => sumR w (fun j => (f r j - mean_of h w f) ^ 2))).
  2:{ intros r _. apply parseval. auto. }
  unfold Rdiv. rewrite sumR_scal_r. f_equal. apply sumR_swap.
Qed.

(** ** The returned list *)
Lemma xdiv_fin_ x y : y <> 0 -> xdiv (XR x) (XR y) = XR (x / y).
Proof. intro H. unfold xdiv. destruct (Req_EM_T y 0); [congruence|reflexivity]. Qed.

Lemma modulus_ext c x y k : (forall j, (j < c)%nat -> x j = y j) -> modulus2 c x k = modulus2 c y k.
Proof.
  intro H. unfold modulus2. f_equal; f_equal; apply sumR_ext; intros j Hj; rewrite H by auto; reflexivity.
Qed.

Lemma fft_rows_eq h w f n : (0 < h)%nat -> (0 < w)%nat -> (0 < n)%nat ->
  fft_rows h w f n = Ok (map XR (map (fun k => spectrum h w f k / INR n ^ 2) (seq 0 (w / 2 + 1)))).
Proof.
  intros Hh Hw Hn. unfold fft_rows.
  destruct (Nat.eqb_spec w 0); [lia|]. f_equal. rewrite map_map. apply map_ext. intro k.
  destruct (Nat.eqb_spec h 0); [lia|].
  rewrite xdiv_fin_.
  - f_equal. f_equal. unfold spectrum. f_equal. apply sumR_ext. intros r _.
    rewrite fabs_modulus by auto. f_equal. apply modulus_ext. intros j _.
    unfold mean_of. rewrite mult_INR. reflexivity.
  - apply pow_nonzero. apply INR_nz. auto.
Qed.

Lemma spectrum_nonneg h w f k : (0 < h)%nat -> (0 < w)%nat -> 0 <= spectrum h w f k.
Proof.
  intros Hh Hw. unfold spectrum, Rdiv. apply Rmult_le_pos.
  - apply sumR_nonneg. intros r _. apply Rmult_le_pos.
    + unfold modulus2. apply Rplus_le_le_0_compat; apply pow2_ge_0.
    + left. apply Rinv_0_lt_compat, INR_pos. auto.
  - left. apply Rinv_0_lt_compat, INR_pos. auto.
Qed.

Lemma half_index w k : (k < w)%nat -> (Nat.min k (w - k) < w / 2 + 1)%nat.
Proof.
  intro H. assert (D := Nat.div_mod w 2 ltac:(lia)).
  assert (M := Nat.mod_upper_bound w 2 ltac:(lia)). lia.
Qed.

(** Everything that can be said about the list itself. *)
Lemma fft_list h w f n : (0 < h)%nat -> (0 < w)%nat -> (0 < n)%nat ->
  exists l, fft_rows h w f n = Ok (map XR l) /\ length l = (w / 2 + 1)%nat /\
    (forall k, (k <= w / 2)%nat -> nth k l 0 = spectrum h w f k / INR n ^ 2 /\ 0 <= nth k l 0) /\
    sumR w (fun k => nth (Nat.min k (w - k)) l 0) = energy h w f / INR n ^ 2.
Proof.
  intros Hh Hw Hn. eexists. split; [apply fft_rows_eq; auto|].
  assert (P : 0 < INR n ^ 2) by (apply pow_lt, INR_pos; auto).
  split; [rewrite map_length, seq_length; reflexivity|]. split.
  - intros k Hk. rewrite nth_map_seq by lia. split; [reflexivity|].
    unfold Rdiv. apply Rmult_le_pos; [apply spectrum_nonneg; auto|].
    left. apply Rinv_0_lt_compat. auto.
  - rewrite <- spectrum_energy by auto. unfold Rdiv. rewrite <- sumR_scal_r.
    apply sumR_ext. intros k Hk. rewrite nth_map_seq by (apply half_index; auto).
    unfold Rdiv. f_equal. destruct (Nat.min_spec k (w - k)) as [[_ ->]|[_ ->]]; [reflexivity|].
    apply spectrum_mirror; auto. lia.
Qed.

(** ** Scaling and constants *)
Lemma mean_scal h w f a : mean_of h w (fun r c => a * f r c) = a * mean_of h w f.
Proof. unfold mean_of. rewrite sumR2_scal. unfold Rdiv. ring. Qed.

Lemma modulus_scal w x a k : modulus2 w (fun j => a * x j) k = a ^ 2 * modulus2 w x k.
Proof.
  unfold modulus2.
  rewrite (sumR_ext w (fun j => a * x j * cos (2 * PI * INR k * INR j / INR w))
             (fun j => a * (x j * cos (2 * PI * INR k * INR j / INR w)))) by (intros; ring).
  rewrite (sumR_ext w (fun j => a * x j * sin (2 * PI * INR k * INR j / INR w))
             (fun j => a * (x j * sin (2 * PI * INR k * INR j / INR w)))) by (intros; ring).
  rewrite !sumR_scal. ring.
Qed.

Lemma spectrum_scal h w f a k : spectrum h w (fun r c => a * f r c) k = a ^ 2 * spectrum h w f k.
Proof.
  unfold spectrum. rewrite mean_scal.
  rewrite (sumR_ext h _ (fun r => a ^ 2 * (modulus2 w (fun j => f r j - mean_of h w f) k / INR w))).
  - rewrite sumR_scal. unfold Rdiv. ring.
  - intros r _. rewrite (modulus_ext w _ (fun j => a * (f r j - mean_of h w f))) by (intros; ring).
    rewrite modulus_scal. unfold Rdiv. ring.
Qed.

Lemma fft_sum_of_n h w f n : (0 < h)%nat -> (0 < w)%nat -> (0 < n)%nat ->
  fft_rows h w (fun r c => INR n * f r c) n = fft_rows h w f 1.
Proof.
  intros Hh Hw Hn. rewrite !fft_rows_eq by (auto; lia). f_equal. f_equal. apply map_ext. intro k.
  rewrite spectrum_scal. assert (N := INR_nz n Hn). change (INR 1) with 1. field. auto.
Qed.

Lemma spectrum_const h w b k : (0 < h)%nat -> (0 < w)%nat -> spectrum h w (fun _ _ => b) k = 0.
Proof.
  intros Hh Hw. assert (N1 := INR_nz h Hh). assert (N2 := INR_nz w Hw).
  assert (M : mean_of h w (fun _ _ => b) = b).
  { unfold mean_of. rewrite sumR2_const. field. auto. }
  unfold spectrum. rewrite M.
  rewrite (sumR_ext h _ (fun _ => 0)); [rewrite sumR_0; unfold Rdiv; ring|]. intros r _.
  unfold modulus2.
  rewrite (sumR_ext w (fun j => (b - b) * cos (2 * PI * INR k * INR j / INR w)) (fun _ => 0)) by (intros; ring).
  rewrite (sumR_ext w (fun j => (b - b) * sin (2 * PI * INR k * INR j / INR w)) (fun _ => 0)) by (intros; ring).
  rewrite sumR_0. unfold Rdiv. ring.
Qed.

(** ** A pure wave *)
Definition wave (w k0 : nat) (c : nat) : R := cos (2 * PI * INR k0 * INR c / INR w).

Lemma sum_cos_nat w m : (0 < m < w)%nat ->
  sumR w (fun j => cos (2 * PI * INR m * INR j / INR w)) = 0.
Proof.
  intro H. rewrite <- (sum_cos_zero w m H). apply sumR_ext. intros j _. f_equal. field.
  apply INR_nz. lia.
Qed.
Lemma sum_sin_nat w m : (m < w)%nat ->
  sumR w (fun j => sin (2 * PI * INR m * INR j / INR w)) = 0.
Proof.
  intro H. rewrite <- (sum_sin_zero w m H). apply sumR_ext. intros j _. f_equal. field.
  apply INR_nz. lia.
Qed.

Lemma prod_cos a b : cos a * cos b = (cos (a - b) + cos (a + b)) / 2.
Proof. rewrite cos_minus, cos_plus. field. Qed.
Lemma prod_cos_sin a b : cos a * sin b = (sin (a + b) - sin (a - b)) / 2.
Proof. rewrite sin_minus, sin_plus. field. Qed.

Lemma wave_re w k0 k : (0 < k0)%nat -> (2 * k0 < w)%nat -> (k <= w / 2)%nat ->
  sumR w (fun j => wave w k0 j * cos (2 * PI * INR k * INR j / INR w)) =
  if (k =? k0)%nat then INR w / 2 else 0.
Proof.
  intros H0 H2 Hk. assert (N : INR w <> 0) by (apply INR_nz; lia).
  assert (Hk' : (2 * k <= w)%nat).
  { assert (D := Nat.div_mod w 2 ltac:(lia)). lia. }
  rewrite (sumR_ext w _ (fun j =>
     / 2 * cos (2 * PI * INR k0 * INR j / INR w - 2 * PI * INR k * INR j / INR w)
     + / 2 * cos (2 * PI * INR (k0 + k) * INR j / INR w))).
  2:{ intros j _. unfold wave. rewrite prod_cos.
      replace (2 * PI * INR (k0 + k) * INR j / INR w)
        with (2 * PI * INR k0 * INR j / INR w + 2 * PI * INR k * INR j / INR w)
        by (rewrite plus_INR; field; auto). field. }
  rewrite sumR_plus, !sumR_scal, sum_cos_nat by lia.
  rewrite (sumR_ext w _ (fun j => cos (2 * PI * INR j * INR k0 / INR w - 2 * PI * INR j * INR k / INR w))).
  2:{ intros j _. f_equal. field. auto. }
  rewrite sum_cos_diff by lia. destruct (k =? k0)%nat; field.
Qed.

Lemma wave_im w k0 k : (0 < k0)%nat -> (2 * k0 < w)%nat -> (k <= w / 2)%nat ->
  sumR w (fun j => wave w k0 j * sin (2 * PI * INR k * INR j / INR w)) = 0.
Proof.
  intros H0 H2 Hk. assert (N : INR w <> 0) by (apply INR_nz; lia).
  assert (Hk' : (2 * k <= w)%nat).
  { assert (D := Nat.div_mod w 2 ltac:(lia)). lia. }
  rewrite (sumR_ext w _ (fun j =>
     / 2 * sin (2 * PI * INR (k0 + k) * INR j / INR w)
     + (- / 2) * sin (2 * PI * INR k0 * INR j / INR w - 2 * PI * INR k * INR j / INR w))).
  2:{ intros j _. unfold wave. rewrite prod_cos_sin.
      replace (2 * PI * INR (k0 + k) * INR j / INR w)
        with (2 * PI * INR k0 * INR j / INR w + 2 * PI * INR k * INR j / INR w)
        by (rewrite plus_INR; field; auto). field. }
  rewrite sumR_plus, !sumR_scal, sum_sin_nat by lia.
  destruct (Nat.le_gt_cases k k0) as [L|L].
  - rewrite (sumR_ext w (fun j => sin (2 * PI * INR k0 * INR j / INR w - 2 * PI * INR k * INR j / INR w))
       (fun j => sin (2 * PI * INR (k0 - k) * INR j / INR w))).
    + rewrite sum_sin_nat by lia. ring.
    + intros j _. f_equal. rewrite minus_INR by auto. field. auto.
  - rewrite (sumR_ext w (fun j => sin (2 * PI * INR k0 * INR j / INR w - 2 * PI * INR k * INR j / INR w))
       (fun j => -1 * sin (2 * PI * INR (k - k0) * INR j / INR w))).
    + rewrite sumR_scal, sum_sin_nat by lia. ring.
    + intros j _. replace (2 * PI * INR k0 * INR j / INR w - 2 * PI * INR k * INR j / INR w)
        with (- (2 * PI * INR (k - k0) * INR j / INR w)) by (rewrite minus_INR by lia; field; auto).
      rewrite sin_neg. ring.
Qed.

Lemma wave_mean h w k0 A B : (0 < h)%nat -> (0 < k0)%nat -> (2 * k0 < w)%nat ->
  mean_of h w (fun _ c => B + A * wave w k0 c) = B.
Proof.
  intros Hh H0 H2. assert (N1 := INR_nz h Hh). assert (N : INR w <> 0) by (apply INR_nz; lia).
  unfold mean_of, sumR2.
  rewrite (sumR_ext h _ (fun _ => INR w * B)).
  - rewrite sumR_const. field. auto.
  - intros r _. rewrite sumR_plus, sumR_const, sumR_scal. unfold wave.
    rewrite sum_cos_nat by lia. ring.
Qed.

Lemma wave_spectrum h w k0 A B k : (0 < h)%nat -> (0 < k0)%nat -> (2 * k0 < w)%nat -> (k <= w / 2)%nat ->
  spectrum h w (fun _ c => B + A * wave w k0 c) k = if (k =? k0)%nat then A ^ 2 * INR w / 4 else 0.
Proof.
  intros Hh H0 H2 Hk. assert (N1 := INR_nz h Hh). assert (N : INR w <> 0) by (apply INR_nz; lia).
  unfold spectrum. rewrite wave_mean by auto.
  rewrite (sumR_ext h _ (fun _ => if (k =? k0)%nat then A ^ 2 * INR w / 4 else 0)).
  - rewrite sumR_const. field. auto.
  - intros r _. rewrite (modulus_ext w _ (fun j => A * wave w k0 j)) by (intros; ring).
    rewrite modulus_scal. unfold modulus2. rewrite wave_re, wave_im by auto.
    destruct (k =? k0)%nat; field; auto.
Qed.

Lemma wave_fft h w k0 A B : (0 < h)%nat -> (0 < k0)%nat -> (2 * k0 < w)%nat ->
  fft_rows h w (fun _ c => B + A * wave w k0 c) 1 =
  Ok (map XR (map (fun k => if (k =? k0)%nat then A ^ 2 * INR w / 4 else 0) (seq 0 (w / 2 + 1)))).
Proof.
  intros Hh H0 H2. rewrite fft_rows_eq by lia. f_equal. f_equal. apply map_ext_in. intros k Hk.
  apply in_seq in Hk. rewrite wave_spectrum by (auto; lia). change (INR 1) with 1. field.
Qed.

(** ** Masked images *)
Lemma fft_rows_ext h w f g n :
  (forall r c, (r < h)%nat -> (c < w)%nat -> f r c = g r c) -> fft_rows h w f n = fft_rows h w g n.
Proof.
  intro H. unfold fft_rows. destruct (w =? 0)%nat; [reflexivity|]. f_equal. apply map_ext. intro k.
  f_equal. destruct (h =? 0)%nat; [reflexivity|]. f_equal. f_equal.
  rewrite (sumR2_ext h w f g H). apply sumR_ext. intros r Hr.
  unfold fabs, fft_re, fft_im.
  assert (E : forall t : nat -> R,
     sumR w (fun j => (f r j - sumR2 h w g / INR (h * w)) * t j) =
     sumR w (fun j => (g r j - sumR2 h w g / INR (h * w)) * t j)).
  { intro t. apply sumR_ext. intros j Hj. rewrite H by auto. reflexivity. }
  rewrite !E. reflexivity.
Qed.

Lemma masked_fft width data masks n :
  length masks = length data -> (forall d, In d data -> length d = width) ->
  kept_rows data masks <> [] ->
  exists c,
    (forall r, In r (kept_rows data masks) -> (1 <= c <= length r)%nat) /\
    (exists r, In r (kept_rows data masks) /\ length r = c) /\
    FFT1288_masked width data masks n =
    fft_rows (length (kept_rows data masks)) c
      (fun r j => IZR (nth j (nth r (kept_rows data masks) []) 0%Z)) n.
Proof.
  intros L1 L2 NE. destruct (compress_spec width data masks L1 L2) as (c & E & B & X).
  exists c. split; [auto|]. split; [auto|]. unfold FFT1288_masked. rewrite E.
  set (K := kept_rows data masks) in *.
  assert (Ew : match map (firstn c) K with [] => width | row :: _ => length row end = c).
  { destruct K as [|x K]; [congruence|]. simpl. rewrite firstn_length.
    specialize (B x (or_introl eq_refl)). lia. }
  rewrite Ew, map_length. apply fft_rows_ext. intros r j Hr Hj. f_equal.
  rewrite (nth_indep _ [] (firstn c [])) by (rewrite map_length; auto).
  rewrite (map_nth (firstn c)).
  clear - Hj. revert j Hj. generalize (nth r K []). intro l. revert c.
  induction l as [|x l IH]; intros c j Hj; [rewrite firstn_nil; destruct j; reflexivity|].
  destruct c; [lia|]. destruct j; [reflexivity|]. simpl. apply IH. lia.
Qed.

(** ** Labels *)
Lemma getfrecs_nth {A} (l : list A) k : (k < length l)%nat ->
  nth k (GetFrecs l) 0 = INR k / (2 * INR (length l)).
Proof.
  intro H. unfold GetFrecs. rewrite nth_map_seq by auto. rewrite mult_INR.
  change (INR 2) with (1 + 1). assert (N : INR (length l) <> 0) by (apply INR_nz; lia).
  field. auto.
Qed.

Lemma fft_both h w f (rotate : bool) n :
  (0 < h)%nat -> (0 < w)%nat -> (0 < n)%nat ->
  let H := if rotate then w else h in
  let W := if rotate then h else w in
  let g := fun r c => if rotate then f c r else f r c in
  exists l, FFT1288 h w f rotate n = Ok (map XR l) /\ length l = (W / 2 + 1)%nat /\
    (forall k, (k <= W / 2)%nat -> nth k l 0 = spectrum H W g k / INR n ^ 2 /\ 0 <= nth k l 0) /\
    sumR W (fun k => nth (Nat.min k (W - k)) l 0) = energy H W g / INR n ^ 2.
Proof.
  intros Hh Hw Hn. unfold FFT1288. destruct rotate.
  - exact (fft_list w h (fun r c => f c r) n Hw Hh Hn).
  - exact (fft_list h w f n Hh Hw Hn).
Qed.

Lemma fft_scaled h w f (rotate : bool) n : (0 < h)%nat -> (0 < w)%nat -> (0 < n)%nat ->
  FFT1288 h w (fun r c => INR n * f r c) rotate n = FFT1288 h w f rotate 1.
Proof.
  intros Hh Hw Hn. unfold FFT1288. destruct rotate.
  - apply (fft_sum_of_n w h (fun r c => f c r)); auto.
  - apply fft_sum_of_n; auto.
Qed.

Lemma fft_constant h w b (rotate : bool) n : (0 < h)%nat -> (0 < w)%nat -> (0 < n)%nat ->
  exists l, FFT1288 h w (fun _ _ => b) rotate n = Ok (map XR l) /\ forall x, In x l -> x = 0.
Proof.
  intros Hh Hw Hn.
  assert (G : forall h w, (0 < h)%nat -> (0 < w)%nat ->
    exists l, fft_rows h w (fun _ _ => b) n = Ok (map XR l) /\ forall x, In x l -> x = 0).
  { clear - Hn. intros h w Hh Hw. eexists. split; [apply fft_rows_eq; auto|].
    intros x Hx. apply in_map_iff in Hx. destruct Hx as (k & <- & _).
    rewrite spectrum_const by auto. unfold Rdiv. ring. }
  unfold FFT1288. destruct rotate; apply G; auto.
Qed.

Lemma labels_wrong h w k0 A : (0 < h)%nat -> (0 < k0)%nat -> (2 * k0 < w)%nat ->
  Nat.even w = true -> A <> 0 ->
  exists l, FFT1288 h w (fun _ c => A * cos (2 * PI * INR k0 * INR c / INR w)) false 1 = Ok (map XR l) /\
    0 < nth k0 l 0 /\
    nth k0 (GetFrecs l) 0 = INR k0 / (INR w + 2) /\
    nth k0 (GetFrecs l) 0 < INR k0 / INR w.
Proof.
  intros Hh H0 H2 Ev HA. eexists. split; [|split; [|split]].
  - unfold FFT1288. rewrite (fft_rows_ext h w _ (fun _ c => 0 + A * wave w k0 c)).
    + apply wave_fft; auto.
    + intros. unfold wave. ring.
  - assert (K : (k0 < w / 2 + 1)%nat).
    { assert (D := Nat.div_mod w 2 ltac:(lia)). assert (M := Nat.mod_upper_bound w 2 ltac:(lia)). lia. }
    rewrite nth_map_seq by auto. rewrite Nat.eqb_refl.
    assert (0 < INR w) by (apply INR_pos; lia).
    assert (0 < A ^ 2). { assert (P := pow2_ge_0 A). assert (A ^ 2 <> 0) by (apply pow_nonzero; auto). lra. }
    apply Rdiv_lt_0_compat; [apply Rmult_lt_0_compat; auto|lra].
  - assert (K : (k0 < w / 2 + 1)%nat).
    { assert (D := Nat.div_mod w 2 ltac:(lia)). assert (M := Nat.mod_upper_bound w 2 ltac:(lia)). lia. }
    rewrite getfrecs_nth by (rewrite map_length, seq_length; auto).
    rewrite map_length, seq_length, plus_INR. change (INR 1) with 1.
    apply Nat.even_spec in Ev. destruct Ev as [m ->].
    rewrite (Nat.mul_comm 2 m), Nat.div_mul by lia. rewrite mult_INR. change (INR 2) with (1 + 1).
    f_equal. ring.
  - assert (K : (k0 < w / 2 + 1)%nat).
    { assert (D := Nat.div_mod w 2 ltac:(lia)). assert (M := Nat.mod_upper_bound w 2 ltac:(lia)). lia. }
    rewrite getfrecs_nth by (rewrite map_length, seq_length; auto).
    rewrite map_length, seq_length, plus_INR. change (INR 1) with 1.
    assert (Hw : (0 < w)%nat) by lia. assert (Pw := INR_pos w Hw). assert (P0 := INR_pos k0 H0).
    apply Nat.even_spec in Ev. destruct Ev as [m ->].
    rewrite (Nat.mul_comm 2 m), Nat.div_mul by lia. rewrite mult_INR. change (INR 2) with (1 + 1).
    rewrite mult_INR in Pw. change (INR 2) with (1 + 1) in Pw.
    unfold Rdiv. apply Rmult_lt_compat_l; auto. apply Rinv_lt_contravar; [|lra].
    apply Rmult_lt_0_compat; lra.
Qed.

Lemma labels_below_half {A} (l : list A) k : (k < length l)%nat ->
  nth k (GetFrecs l) 0 = INR k / (2 * INR (length l)) /\ 0 <= nth k (GetFrecs l) 0 < 1 / 2.
Proof.
  intro H. rewrite getfrecs_nth by auto. split; [reflexivity|].
  assert (P : 0 < INR (length l)) by (apply INR_pos; lia).
  assert (L : INR k < INR (length l)) by (apply lt_INR; auto).
  assert (P0 := pos_INR k). split.
  - apply Rmult_le_pos; auto. left. apply Rinv_0_lt_compat. lra.
  - apply (Rmult_lt_reg_r (2 * INR (length l))); [lra|].
    replace (INR k / (2 * INR (length l)) * (2 * INR (length l))) with (INR k) by (field; lra). lra.
Qed.

Lemma labels_odd h w f : (0 < h)%nat -> Nat.odd w = true ->
  exists l, FFT1288 h w f false 1 = Ok (map XR l) /\
    forall k, (k <= w / 2)%nat -> nth k (GetFrecs l) 0 = INR k / (INR w + 1).
Proof.
  intros Hh Ho. apply Nat.odd_spec in Ho. destruct Ho as [m E].
  assert (D : (w / 2 = m)%nat).
  { subst w. rewrite (Nat.mul_comm 2 m), Nat.div_add_l by lia. change (1 / 2)%nat with 0%nat. lia. }
  eexists. split; [unfold FFT1288; apply fft_rows_eq; lia|].
  intros k Hk. rewrite getfrecs_nth by (rewrite map_length, seq_length; lia).
  rewrite map_length, seq_length, D, plus_INR, E, plus_INR, mult_INR. change (INR 1) with 1.
  change (INR 2) with (1 + 1). f_equal. ring.
Qed.
