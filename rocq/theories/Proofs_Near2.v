(** Proofs for C102: unlikely errors. *)
From Coq Require Import List Bool Arith ZArith QArith Qreals Reals Lia Lra FunctionalExtensionality.
From Verif Require Import Base_Prelude Base_Num Base_Sum Base_SumR Base_Xreal Model_Images Model_Loader Model_Data
  Model_Results Spec_Images Spec_Data Spec_Results Spec_Chance Spec_Linear Spec_Any Spec_Near Proofs_Linear Proofs_Any
  Proofs_Any2 Proofs_Near.
Import ListNotations.
Open Scope R_scope.

Section Unlikely.
Context {W : Type} (C : chance W).

Lemma unlikely_mono (A B : W -> Prop) d d' : (forall o, A o -> B o) -> d <= d' -> unlikely C B d -> unlikely C A d'.
Proof.
  intros H L (g & I & P & G & E). exists g. split; [exact I|]. split; [exact P|]. split; [|lra].
  intros o Ho. apply G, H, Ho.
Qed.
Lemma unlikely_or (A B : W -> Prop) d d' : unlikely C A d -> unlikely C B d' -> unlikely C (fun o => A o \/ B o) (d + d').
Proof.
  intros (g & I & P & G & E) (g' & I' & P' & G' & E'). exists (fun o => g o + g' o).
  split; [apply integrable_plus; assumption|]. split; [intros o; specialize (P o); specialize (P' o); lra|].
  split.
  - intros o [H|H]; [specialize (G o H); specialize (P' o); lra|specialize (G' o H); specialize (P o); lra].
  - rewrite expect_plus by assumption. lra.
Qed.
Lemma unlikely_some n (A : nat -> W -> Prop) d : (forall i, (i < n)%nat -> unlikely C (A i) d) ->
  unlikely C (fun o => exists i, (i < n)%nat /\ A i o) (INR n * d).
Proof.
  induction n as [|n IH]; intros H.
  - exists (fun _ => 0). split; [apply integrable_const|]. split; [intros; lra|]. split.
    + intros o (i & Hi & _). lia.
    + rewrite expect_const. simpl. lra.
  - apply (unlikely_mono _ (fun o => (exists i, (i < n)%nat /\ A i o) \/ A n o) (INR n * d + d)).
    + intros o (i & Hi & Ai). destruct (Nat.eq_dec i n) as [->|E]; [right; exact Ai|left].
      exists i. split; [lia|exact Ai].
    + rewrite S_INR. lra.
    + apply unlikely_or; [apply IH; intros; apply H; lia|apply H; lia].
Qed.

Lemma markov X v e : integrable C X -> (forall o, 0 <= X o) -> expect C X <= v -> 0 < e ->
  unlikely C (fun o => e < X o) (v / e).
Proof.
  intros I P E e0. assert (0 < / e) by (apply Rinv_0_lt_compat, e0).
  exists (fun o => / e * X o). split; [apply integrable_scale, I|].
  split; [intros o; apply Rmult_le_pos; [lra|apply P]|]. split.
  - intros o Ho. replace 1 with (/ e * e) by (field; lra). apply Rmult_le_compat_l; lra.
  - rewrite expect_scale by exact I. unfold Rdiv. rewrite Rmult_comm. apply Rmult_le_compat_r; lra.
Qed.
Lemma chebyshev X v e : integrable C (fun o => X o * X o) -> expect C (fun o => X o * X o) <= v -> 0 < e ->
  unlikely C (fun o => e < Rabs (X o)) (v / (e * e)).
Proof.
  intros I E e0. apply (unlikely_mono _ (fun o => e * e < X o * X o) (v / (e * e))); [|lra|].
  - intros o Ho. replace (X o * X o) with (Rabs (X o) * Rabs (X o)) by (rewrite <- Rabs_mult; apply Rabs_pos_eq, Rle_0_sqr).
    apply Rmult_le_0_lt_compat; lra.
  - apply (markov (fun o => X o * X o)); [exact I|intros; apply Rle_0_sqr|exact E|apply Rmult_lt_0_compat; exact e0].
Qed.

Section Average.
Context {I : Type} (ok : I -> Prop) (V : I -> W -> R).
Hypothesis HV : forall i, ok i -> integrable C (V i).
Hypothesis HVV : forall i j, ok i -> ok j -> integrable C (fun w => V i w * V j w).

Lemma centred_moment X : lin ok V X -> integrable C (fun o => (X o - expect C X) * (X o - expect C X)).
Proof. intros L. apply (lin_mul C ok V HV HVV); apply lin_minus; auto using lin_const. Qed.

(** The sum of n uncorrelated variables varies by the sum of their variances. *)
Lemma average_unlikely n X m v B e : (0 < n)%nat -> uncor C ok V n X m v ->
  (forall k, (k < n)%nat -> v k <= B) -> 0 < e ->
  unlikely C (fun o => e < Rabs (sumR n (fun k => X k o) / INR n - sumR n m / INR n)) (B / (INR n * (e * e))).
Proof.
  intros Hn U HB e0. assert (N0 : 0 < INR n) by (apply lt_0_INR, Hn).
  assert (US := uncor_sum C ok V HV HVV n X m v U). destruct U as (HX & HM & _).
  assert (Lm : lin ok V (fun o => sumR n (fun k => X k o))) by (apply lin_sum, HX).
  assert (EM : expect C (fun o => sumR n (fun k => X k o)) = sumR n m).
  { rewrite (exp_sumI C n X) by (intros; apply (lin_int C ok V HV), HX; assumption).
    apply sumR_ext. intros k Hk. apply HM, Hk. }
  assert (CI := centred_moment _ Lm). unfold covar in US. rewrite EM in CI, US.
  assert (EQ : forall o, (sumR n (fun k => X k o) / INR n - sumR n m / INR n) *
                         (sumR n (fun k => X k o) / INR n - sumR n m / INR n) =
     / (INR n * INR n) * ((sumR n (fun k => X k o) - sumR n m) * (sumR n (fun k => X k o) - sumR n m)))
    by (intros o; field; lra).
  replace (B / (INR n * (e * e))) with (B / INR n / (e * e)) by (field; lra).
  apply (chebyshev (fun o => sumR n (fun k => X k o) / INR n - sumR n m / INR n)); [| |exact e0].
  - eapply int_ext; [intros o; symmetry; apply EQ|]. apply integrable_scale, CI.
  - rewrite (exp_ext C _ _ EQ), expect_scale by exact CI. rewrite US.
    apply (Rmult_le_reg_l (INR n * INR n)); [apply Rmult_lt_0_compat; exact N0|].
    replace (INR n * INR n * (/ (INR n * INR n) * sumR n v)) with (sumR n v) by (field; lra).
    replace (INR n * INR n * (B / INR n)) with (INR n * B) by (field; lra).
    rewrite <- sumR_const. apply sumR_le. exact HB.
Qed.
End Average.
End Unlikely.

Section Pair.
Context {W : Type} (C : chance W) (S : W -> list image) (h w : nat).
Variables (mu : nat -> nat -> R) (s2 : nat -> nat -> nat -> R) (V M : R).
Hypothesis NP : noisy_pair C S h w mu s2 V M.
Variable T : W -> tdata.
Hypothesis HN : (2 <= h * w)%nat.
Hypothesis OK : forall o A B, S o = [A; B] -> pair_ok h w A B.
Hypothesis HT : forall o, temporal_data_of (S o) (T o).

Let RS := np_series _ _ _ _ _ _ _ _ NP.
Let W0 : (0 < w)%nat. Proof. destruct w; lia. Qed.
Let N0 : 0 < INR (h * w). Proof. apply lt_0_INR. lia. Qed.

Lemma pair_val o :
  Q2R (td_mean (h * w) (T o)) = sumR (h * w) (fun k => avgR 2 (k / w) (k mod w) (S o)) / INR (h * w) /\
  Q2R (td_s2 (h * w) (T o)) =
    (sumR (h * w) (fun k => diff h w (S o) k * diff h w (S o) k) / INR (h * w)) / 2 -
    (sumR (h * w) (fun k => diff h w (S o) k) * sumR (h * w) (fun k => diff h w (S o) k)) / (2 * (INR (h * w) * INR (h * w))).
Proof.
  pose proof (rs_length _ _ _ _ _ _ _ _ RS o) as Len. pose proof (HT o) as HTo. pose proof (OK o) as OKo.
  destruct (S o) as [|A [|B [|D s]]] eqn:E; try discriminate Len.
  destruct (pair_figures h w A B (T o) (OKo A B eq_refl) HTo) as (E1 & E2). split.
  - rewrite E1. unfold pixel_meanR. rewrite (sumR2_flat h w _ W0). f_equal. apply sumR_ext. intros k _.
    unfold avgR. cbn [sumR]. simpl (INR 2). field.
  - rewrite E2, (centredR (h * w) (diff h w [A; B]) ltac:(lia)).
    change (sumR (h * w) (fun k => diff h w [A; B] k)) with (sumR (h * w) (diff h w [A; B])).
    field. lra.
Qed.

Lemma pair_mean e : 0 < e ->
  unlikely C (fun o => e < Rabs (Q2R (td_mean (h * w) (T o)) - pixel_meanR h w mu)) (V / (2 * INR (h * w) * (e * e))).
Proof.
  intros e0.
  assert (U := uncor_avg C S 2 h w mu (fun _ => 0) s2 RS ltac:(lia) HN).
  assert (A := average_unlikely C (inside 2 h w) (var_of S) (Hint C S 2 h w _ _ _ RS) (Hprod C S 2 h w _ _ _ RS)
    (h * w) _ _ _ (V / 2) e ltac:(lia) U).
  replace (V / (2 * INR (h * w) * (e * e))) with (V / 2 / (INR (h * w) * (e * e))) by (field; lra).
  eapply unlikely_mono; [|apply Rle_refl|apply A; [|exact e0]].
  - intros o. rewrite (proj1 (pair_val o)). cbv beta.
    replace (pixel_meanR h w mu) with
      (sumR (h * w) (fun k => mu (k / w)%nat (k mod w)%nat + averageR 2 (fun _ => 0)) / INR (h * w)); [intros G; exact G|].
    unfold pixel_meanR. rewrite (sumR2_flat h w _ W0). f_equal. apply sumR_ext. intros k _.
    unfold averageR. cbn [sumR]. simpl (INR 2). field.
  - intros k Hk. destruct (flat_pos h w k Hk) as (_ & R & D). unfold noise_at. cbn [sumR]. simpl (INR 2).
    pose proof (np_var _ _ _ _ _ _ _ _ NP 0%nat _ _ ltac:(lia) R D).
    pose proof (np_var _ _ _ _ _ _ _ _ NP 1%nat _ _ ltac:(lia) R D). lra.
Qed.

(** The squares of the differences. *)
Definition sq_of (i : nat * nat) (o : W) : R := change (fst i) (snd i) (S o) * change (fst i) (snd i) (S o).
Definition on_chip (i : nat * nat) : Prop := (fst i < h)%nat /\ (snd i < w)%nat.
Lemma sq_int i : on_chip i -> integrable C (sq_of i).
Proof. intros (A & B). apply (np_square _ _ _ _ _ _ _ _ NP); assumption. Qed.
Lemma sq_prod i j : on_chip i -> on_chip j -> integrable C (fun o => sq_of i o * sq_of j o).
Proof. intros (A & B) (A' & B'). apply (np_four_int _ _ _ _ _ _ _ _ NP); assumption. Qed.

Lemma diff_uncor : uncor C (inside 2 h w) (var_of S) (h * w) (fun k o => diff h w (S o) k) (fun _ => 0)
  (fun k => 2 * both s2 (k / w)%nat (k mod w)%nat).
Proof.
  destruct (uncor_diff C S 2 h w mu (fun _ => 0) s2 RS eq_refl) as (A & B & D & E).
  split; [exact A|]. split; [intros k Hk; rewrite B by exact Hk; ring|].
  split; [intros k Hk; rewrite D by exact Hk; unfold both; field|exact E].
Qed.

Lemma sq_mean k : (k < h * w)%nat ->
  expect C (fun o => diff h w (S o) k * diff h w (S o) k) = 2 * both s2 (k / w)%nat (k mod w)%nat.
Proof.
  intros Hk. destruct diff_uncor as (A & B & D & _).
  pose proof (cov_moments C _ _ (Hint C S 2 h w _ _ _ RS) (Hprod C S 2 h w _ _ _ RS) _ _ (A k Hk) (A k Hk)) as Q.
  rewrite (D k Hk), (B k Hk) in Q. lra.
Qed.

Lemma sq_uncor : uncor C on_chip sq_of (h * w) (fun k o => diff h w (S o) k * diff h w (S o) k)
  (fun k => 2 * both s2 (k / w)%nat (k mod w)%nat)
  (fun k => covar C (sq_of (k / w, k mod w)%nat) (sq_of (k / w, k mod w)%nat)).
Proof.
  split; [|split; [|split]].
  - intros k Hk. destruct (flat_pos h w k Hk) as (_ & R & D). apply (lin_base on_chip sq_of (k / w, k mod w)%nat). split; assumption.
  - intros k Hk. apply sq_mean, Hk.
  - intros k Hk. reflexivity.
  - intros k k' Hk Hk' Ne. destruct (flat_pos h w k Hk) as (_ & R & D). destruct (flat_pos h w k' Hk') as (_ & R' & D').
    apply (np_squares _ _ _ _ _ _ _ _ NP); try assumption. intro E. apply Ne, (flat_inj w k k' W0); congruence.
Qed.

Lemma sq_var k : (k < h * w)%nat ->
  covar C (sq_of (k / w, k mod w)%nat) (sq_of (k / w, k mod w)%nat) <= M.
Proof.
  intros Hk. destruct (flat_pos h w k Hk) as (_ & R & D).
  assert (L : lin on_chip sq_of (sq_of (k / w, k mod w)%nat)) by (apply lin_base; split; assumption).
  rewrite (cov_moments C on_chip sq_of sq_int sq_prod _ _ L L).
  pose proof (np_four _ _ _ _ _ _ _ _ NP _ _ R D) as F.
  assert (0 <= expect C (sq_of (k / w, k mod w)%nat) * expect C (sq_of (k / w, k mod w)%nat)) by apply Rle_0_sqr.
  unfold sq_of in *. cbn [fst snd] in *. lra.
Qed.

Lemma pair_var e : 0 < e ->
  unlikely C (fun o => e < Rabs (Q2R (td_s2 (h * w) (T o)) - pixel_meanR h w (both s2)))
    (M / (INR (h * w) * (e * e)) + 2 * V / (INR (h * w) * e)).
Proof.
  intros e0. set (N := INR (h * w)) in *.
  assert (A := average_unlikely C on_chip sq_of sq_int sq_prod (h * w) _ _ _ M e ltac:(lia) sq_uncor sq_var e0).
  destruct diff_uncor as (DL & DM & DV & DC).
  pose proof (Hint C S 2 h w _ _ _ RS) as HI. pose proof (Hprod C S 2 h w _ _ _ RS) as HP.
  assert (LS : lin (inside 2 h w) (var_of S) (fun o => sumR (h * w) (fun k => diff h w (S o) k))).
  { apply (lin_sum (inside 2 h w) (var_of S) (h * w) (fun k o => diff h w (S o) k)), DL. }
  pose proof (lin_mul C _ _ HI HP _ _ LS LS) as I2.
  assert (E2 : expect C (fun o => sumR (h * w) (fun k => diff h w (S o) k) * sumR (h * w) (fun k => diff h w (S o) k)) <= N * (2 * V)).
  { pose proof (uncor_sum C _ _ HI HP _ _ _ _ diff_uncor) as US. cbv beta in US.
    rewrite (cov_moments C _ _ HI HP _ _ LS LS) in US.
    rewrite (exp_sumI C (h * w) (fun k o => diff h w (S o) k)) in US by (intros; apply (lin_int C _ _ HI), DL; assumption).
    rewrite (sumR_ext (h * w) (fun k => expect C (fun o => diff h w (S o) k)) (fun _ => 0)) in US by (intros; apply DM; assumption).
    rewrite sumR_0 in US.
    assert (sumR (h * w) (fun k => 2 * both s2 (k / w)%nat (k mod w)%nat) <= N * (2 * V)).
    { unfold N. rewrite <- sumR_const. apply sumR_le. intros k Hk. destruct (flat_pos h w k Hk) as (_ & R & D).
      pose proof (np_var _ _ _ _ _ _ _ _ NP 0%nat _ _ ltac:(lia) R D).
      pose proof (np_var _ _ _ _ _ _ _ _ NP 1%nat _ _ ltac:(lia) R D). unfold both. lra. }
    lra. }
  assert (B := markov C (fun o => sumR (h * w) (fun k => diff h w (S o) k) * sumR (h * w) (fun k => diff h w (S o) k))
    (N * (2 * V)) (N * N * e) I2 (fun o => Rle_0_sqr _) E2 ltac:(repeat apply Rmult_lt_0_compat; assumption)).
  eapply unlikely_mono; [| |apply (unlikely_or _ _ _ _ _ A B)].
  - intros o Ho. rewrite (proj2 (pair_val o)) in Ho. fold N in Ho |- *.
    set (q := sumR (h * w) (fun k => diff h w (S o) k * diff h w (S o) k) / N) in *.
    set (s := sumR (h * w) (fun k => diff h w (S o) k) * sumR (h * w) (fun k => diff h w (S o) k)) in *.
    assert (EM : sumR (h * w) (fun k => 2 * both s2 (k / w)%nat (k mod w)%nat) / N = 2 * pixel_meanR h w (both s2)).
    { rewrite sumR_scal. unfold pixel_meanR. rewrite (sumR2_flat h w _ W0). fold N. field. lra. }
    rewrite EM. set (m := pixel_meanR h w (both s2)) in *.
    destruct (Rlt_le_dec e (Rabs (q - 2 * m))) as [L|L]; [left; exact L|right].
    destruct (Rlt_le_dec (N * N * e) s) as [L'|L']; [exact L'|exfalso].
    assert (P : 0 <= s) by (apply Rle_0_sqr).
    assert (NN : 0 < N * N) by (apply Rmult_lt_0_compat; assumption).
    assert (Q1 : s / (2 * (N * N)) <= e / 2).
    { apply (Rmult_le_reg_r (2 * (N * N))); [lra|].
      replace (s / (2 * (N * N)) * (2 * (N * N))) with s by (field; lra). lra. }
    assert (Q0 : 0 <= s / (2 * (N * N))) by (apply Rmult_le_pos; [exact P|apply Rlt_le, Rinv_0_lt_compat; lra]).
    apply abs_between in L.
    assert (Rabs (q / 2 - s / (2 * (N * N)) - m) <= e) by (apply between_abs; lra).
    lra.
  - fold N. apply Rplus_le_compat_l. apply Req_le. field. lra.
Qed.
End Pair.
