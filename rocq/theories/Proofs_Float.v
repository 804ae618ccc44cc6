(** Facts about binary64 arithmetic. *)
From Coq Require Import List Bool Arith ZArith QArith Qabs Qreals Reals Lia Lra.
From Flocq Require Import Core Relative.
From Verif Require Import Base_Prelude Base_Num Base_Order Base_Float Spec_Num Proofs_Round Proofs_Num.
Import ListNotations.
Open Scope Z_scope.

Definition finite (x : pyfloat) : Prop := exists q, x = FFin q.

Notation rn := (round radix2 fexp64 ZnearestE).

Lemma rn_le x y : (x <= y)%R -> (rn x <= rn y)%R.
Proof. intro H. apply round_le; try typeclasses eauto. exact H. Qed.

(** Rounding is monotone, also across overflow. *)
Lemma rnd64_mono p q : (p <= q)%Q -> fle (rnd64 p) (rnd64 q).
Proof.
  intro H. apply Qle_Rle in H. pose proof (rn_le _ _ H) as M. unfold fle.
  destruct (rnd64 p) as [u|n|] eqn:P; destruct (rnd64 q) as [v|m|] eqn:Q0;
    try (exfalso; eapply rnd64_not_nan; eassumption); simpl.
  - rewrite <- (rnd64_finite _ _ P), <- (rnd64_finite _ _ Q0) in M. apply Rle_Qle in M.
    apply Qle_bool_iff in M. rewrite M. reflexivity.
  - destruct m; auto. exfalso.
    destruct (rnd64_infinite _ _ Q0) as (B & S). destruct S as (S & _). specialize (S eq_refl).
    pose proof (rnd64_finite_small _ _ P) as F. rewrite (rnd64_finite _ _ P) in F.
    assert (rn (Q2R q) <= 0)%R.
    { rewrite <- (round_0 radix2 fexp64 ZnearestE). apply rn_le. lra. }
    rewrite Rabs_left1 in B by lra. apply Rabs_def2 in F. lra.
  - destruct n; auto. exfalso.
    destruct (rnd64_infinite _ _ P) as (B & S).
    assert (~ (Q2R p < 0)%R) by (intro G; apply S in G; discriminate).
    pose proof (rnd64_finite_small _ _ Q0) as F. rewrite (rnd64_finite _ _ Q0) in F.
    assert (0 <= rn (Q2R p))%R.
    { rewrite <- (round_0 radix2 fexp64 ZnearestE). apply rn_le. lra. }
    rewrite Rabs_pos_eq in B by lra. apply Rabs_def2 in F. lra.
  - destruct m, n; auto. exfalso.
    destruct (rnd64_infinite _ _ P) as (_ & S1). destruct (rnd64_infinite _ _ Q0) as (_ & S2).
    assert (~ (Q2R p < 0)%R) by (intro G; apply S1 in G; discriminate).
    destruct S2 as (S2 & _). specialize (S2 eq_refl). lra.
Qed.

(** What is already a binary64 number stays. *)
Lemma rnd64_exact q : binary64 (Q2R q) -> (Rabs (Q2R q) < bpow radix2 1024)%R ->
  exists v, rnd64 q = FFin v /\ (v == q)%Q.
Proof.
  intros F B. apply binary64_format in F.
  assert (E : rn (Q2R q) = Q2R q) by (apply round_generic; auto; typeclasses eauto).
  destruct (rnd64 q) as [v|n|] eqn:R.
  - exists v. split; auto. apply rnd64_finite in R. apply eqR_Qeq. congruence.
  - exfalso. apply rnd64_infinite in R. destruct R as (R & _). rewrite E in R. lra.
  - exfalso. eapply rnd64_not_nan; eauto.
Qed.

Lemma Q2R_inject_Z n : Q2R (inject_Z n) = IZR n.
Proof. unfold Q2R, inject_Z. simpl. lra. Qed.

Lemma bpow_1024 : (IZR (2 ^ 53) < bpow radix2 1024)%R.
Proof. rewrite bpow_Z by lia. apply IZR_lt. apply Z.pow_lt_mono_r; lia. Qed.

Lemma f_int_exact n : Z.abs n < 2 ^ 53 -> exists v, f_int n = FFin v /\ (v == inject_Z n)%Q.
Proof.
  intro H. apply rnd64_exact; rewrite Q2R_inject_Z.
  - exists n, 0. split; [simpl; lra|]. split; [auto|lia].
  - rewrite <- abs_IZR. eapply Rlt_trans; [apply IZR_lt, H|apply bpow_1024].
Qed.

(** Absolute error for moderate numbers. *)
Lemma rnd64_small q : (Qabs q <= inject_Z (2 ^ 44))%Q ->
  exists v, rnd64 q = FFin v /\ (Qabs (v - q) <= 1 # 512)%Q.
Proof.
  intro H. apply Qle_Rle in H. rewrite Q2R_inject_Z in H.
  assert (A : Q2R (Qabs q) = Rabs (Q2R q)).
  { apply Qabs_case; intro G.
    - apply Qle_Rle in G. replace (Q2R 0) with 0%R in G by (unfold Q2R; simpl; lra).
      rewrite Rabs_pos_eq; auto.
    - apply Qle_Rle in G. replace (Q2R 0) with 0%R in G by (unfold Q2R; simpl; lra).
      rewrite Q2R_opp, Rabs_left1; auto. }
  rewrite A in H. set (x := Q2R q) in *.
  assert (E : (Rabs (rn x - x) <= bpow radix2 (-9))%R).
  { destruct (Req_dec x 0) as [->|N].
    - rewrite round_0 by typeclasses eauto. rewrite Rminus_0_r, Rabs_R0. apply bpow_ge_0.
    - eapply Rle_trans; [apply error_le_half_ulp; typeclasses eauto|].
      rewrite ulp_neq_0 by auto.
      apply Rle_trans with (/ 2 * bpow radix2 (-8))%R.
      + apply Rmult_le_compat_l; [lra|]. apply bpow_le. unfold cexp, fexp64, FLT_exp.
        assert (M : (mag radix2 x <= 45)%Z).
        { apply mag_le_bpow; auto. eapply Rle_lt_trans; [exact H|].
          rewrite bpow_Z by lia. apply IZR_lt. reflexivity. }
        lia.
      + change (-8) with (-9 + 1). rewrite bpow_plus. simpl (bpow radix2 1).
        pose proof (bpow_ge_0 radix2 (-9)). lra. }
  assert (B9 : bpow radix2 (-9) = Q2R (1 # 512)).
  { unfold Q2R. simpl. lra. }
  destruct (rnd64 q) as [v|n|] eqn:R.
  - exists v. split; auto. pose proof (rnd64_finite _ _ R) as R'. fold x in R'.
    rewrite <- R', B9 in E.
    apply Rle_Qle. apply Qabs_case; intros _; rewrite ?Q2R_opp, Q2R_minus; fold x;
      apply Rabs_le_inv in E; lra.
  - exfalso. apply rnd64_infinite in R. destruct R as (R & _). fold x in R.
    assert (Rabs (rn x) <= IZR (2 ^ 44) + 1)%R.
    { replace (rn x) with ((rn x - x) + x)%R by lra. eapply Rle_trans; [apply Rabs_triang|].
      assert (bpow radix2 (-9) <= 1)%R by (change 1%R with (bpow radix2 0); apply bpow_le; lia). lra. }
    assert (IZR (2 ^ 44) + 1 < bpow radix2 1024)%R.
    { rewrite <- plus_IZR, bpow_Z by lia. apply IZR_lt. reflexivity. }
    lra.
  - exfalso. eapply rnd64_not_nan; eauto.
Qed.

(** ** No NaN from finite numbers *)

Lemma fadd_nn a b : finite a -> not_nan b -> not_nan (fadd a b).
Proof.
  intros (x & ->) Hb. destruct b as [y|n|]; simpl; try discriminate; try congruence.
  apply rnd64_not_nan.
Qed.

Lemma fadd_comm a b : fadd a b = fadd b a.
Proof.
  destruct a as [x|n|], b as [y|m|]; simpl; auto.
  - assert (E : (x + y)%Q = (y + x)%Q).
    { unfold Qplus. f_equal; [ring|apply Pos.mul_comm]. }
    rewrite E. reflexivity.
  - destruct n, m; auto.
Qed.

Lemma fmul_nn a b : finite a -> finite b -> not_nan (fmul a b).
Proof. intros (x & ->) (y & ->). simpl. apply rnd64_not_nan. Qed.

Lemma f_int_nn n : not_nan (f_int n).
Proof. apply rnd64_not_nan. Qed.

(** ** Rounding to integers *)

Lemma q_rint_near q : (Qabs (inject_Z (q_rint q) - q) <= 1 # 2)%Q.
Proof.
  destruct q as [n d]. unfold q_rint. cbn [Qnum Qden].
  assert (E : (Rabs (IZR (zdiv_rne n (Zpos d)) - Q2R (n # d)) <= / 2)%R).
  { rewrite zdiv_rne_spec by lia.
    rewrite Rabs_minus_sym. apply Znearest_half. }
  apply Rle_Qle. replace (Q2R (1 # 2)) with (/ 2)%R by (unfold Q2R; simpl; lra).
  apply Qabs_case; intros _; rewrite ?Q2R_opp, Q2R_minus, Q2R_inject_Z; apply Rabs_le_inv in E; lra.
Qed.

(** ** Clipping *)

Lemma qle_flt a b : (a <= b)%Q <-> flt (FFin b) (FFin a) = false.
Proof.
  simpl. rewrite negb_false_iff. symmetry. apply Qle_bool_iff.
Qed.

Lemma fclip_spec lo hi x : not_nan x -> (lo <= hi)%Q ->
  exists r, fclip (FFin lo) (FFin hi) x = FFin r /\ (lo <= r <= hi)%Q /\
    (r = lo \/ r = hi \/ x = FFin r).
Proof.
  intros N L. unfold fclip. destruct x as [q|n|]; [| |congruence].
  - unfold fmaximum. destruct (flt (FFin q) (FFin lo)) eqn:E1.
    + unfold fminimum. destruct (flt (FFin hi) (FFin lo)) eqn:E2.
      * apply qle_flt in L. congruence.
      * exists lo. repeat split; auto. apply Qle_refl.
    + apply qle_flt in E1. unfold fminimum. destruct (flt (FFin hi) (FFin q)) eqn:E2.
      * exists hi. repeat split; auto. apply Qle_refl.
      * apply qle_flt in E2. exists q. repeat split; auto.
  - destruct n; simpl.
    + destruct (flt (FFin hi) (FFin lo)) eqn:E2.
      * apply qle_flt in L. congruence.
      * simpl in E2. rewrite E2. exists lo. repeat split; auto. apply Qle_refl.
    + exists hi. repeat split; auto. apply Qle_refl.
Qed.

Lemma as_uint_int bits q z : (q == inject_Z z)%Q -> 0 <= z < 2 ^ bits -> as_uint bits (FFin q) = Some z.
Proof.
  intros E B. unfold as_uint. destruct q as [n d]. cbn [Qnum Qden].
  unfold Qeq, inject_Z in E. cbn [Qnum Qden] in E. rewrite Z.mul_1_r in E.
  assert (Z.quot n (Zpos d) = z) by (rewrite E; apply Z.quot_mul; lia).
  rewrite H. assert ((0 <=? z) && (z <? 2 ^ bits) = true) as -> by (apply andb_true_iff; lia).
  reflexivity.
Qed.

(** ** Subtraction of machine numbers *)

Lemma Q2R_Qabs q : Q2R (Qabs q) = Rabs (Q2R q).
Proof.
  apply Qabs_case; intro G; apply Qle_Rle in G; replace (Q2R 0) with 0%R in G by (unfold Q2R; simpl; lra).
  - rewrite Rabs_pos_eq; auto.
  - rewrite Q2R_opp, Rabs_left1; auto.
Qed.

Lemma binary64_fixed x : binary64 x -> exists m, x = F2R (Float radix2 m (-1074)).
Proof.
  intros (m & e & -> & _ & He). exists (m * 2 ^ (e + 1074)). unfold F2R. cbn [Fnum Fexp].
  rewrite mult_IZR, <- bpow_Z by lia. rewrite Rmult_assoc, <- bpow_plus.
  f_equal. f_equal. lia.
Qed.

Lemma rn_sub_rel x y : binary64 x -> binary64 y ->
  (Rabs (rn (x - y) - (x - y)) <= bpow radix2 (-53) * Rabs (x - y))%R.
Proof.
  intros Hx Hy. destruct (binary64_fixed x Hx) as (m & ->). destruct (binary64_fixed y Hy) as (n & ->).
  assert (E : (F2R (Float radix2 m (-1074)) - F2R (Float radix2 n (-1074)))%R
              = F2R (Float radix2 (m - n) (-1074))).
  { unfold F2R. cbn [Fnum Fexp]. rewrite minus_IZR. ring. }
  rewrite E.
  pose proof (relative_error_N_FLT_F2R_emin radix2 (-1074) 53 ltac:(lia)
                (fun z => negb (Z.even z)) (m - n)) as H. cbv zeta in H.
  eapply Rle_trans; [exact H|]. apply Rmult_le_compat_r; [apply Rabs_pos|].
  assert (B : bpow radix2 (-53) = (/ 2 * bpow radix2 (- (53) + 1))%R).
  { change (-53) with (-1 + (- (53) + 1)). rewrite bpow_plus. f_equal. }
  rewrite B. apply Rle_refl.
Qed.

(** A binary64 number far from overflow. *)
Definition machine (x : pyfloat) : Prop :=
  exists q, x = FFin q /\ binary64 (Q2R q) /\ (Qabs q < inject_Z (2 ^ 1022))%Q.

Lemma rnd64_bound q : (Qabs q <= inject_Z (2 ^ 1023))%Q ->
  exists d, rnd64 q = FFin d /\ (Qabs d <= inject_Z (2 ^ 1023))%Q.
Proof.
  intro H. apply Qle_Rle in H. rewrite Q2R_Qabs, Q2R_inject_Z, <- bpow_Z in H by lia.
  assert (A : (Rabs (rn (Q2R q)) <= bpow radix2 1023)%R).
  { apply abs_round_le_generic; try typeclasses eauto; [|exact H].
    apply generic_format_bpow. unfold fexp64, FLT_exp. lia. }
  destruct (rnd64 q) as [d|n|] eqn:R.
  - exists d. split; auto. apply rnd64_finite in R. rewrite <- R in A.
    apply Rle_Qle. rewrite Q2R_Qabs, Q2R_inject_Z, <- bpow_Z by lia. exact A.
  - exfalso. apply rnd64_infinite in R. destruct R as (R & _).
    assert (bpow radix2 1023 < bpow radix2 1024)%R by (apply bpow_lt; lia). lra.
  - exfalso. eapply rnd64_not_nan; eauto.
Qed.

Lemma rnd64_no_overflow q : (Qabs q < inject_Z (2 ^ 1023))%Q -> exists d, rnd64 q = FFin d.
Proof.
  intro H. destruct (rnd64_bound q (Qlt_le_weak _ _ H)) as (d & E & _). eauto.
Qed.

Lemma sub_bound a v : (Qabs a < inject_Z (2 ^ 1022))%Q -> (Qabs v < inject_Z (2 ^ 1022))%Q ->
  (Qabs (a + - v) < inject_Z (2 ^ 1023))%Q.
Proof.
  intros Ha Hv. eapply Qle_lt_trans; [apply Qabs_triangle|]. rewrite Qabs_opp.
  setoid_replace (inject_Z (2 ^ 1023)) with (inject_Z (2 ^ 1022) + inject_Z (2 ^ 1022))%Q.
  - apply Qplus_lt_le_compat; auto. apply Qlt_le_weak, Hv.
  - rewrite <- inject_Z_plus. change (2 ^ 1023) with (2 ^ 1022 + 2 ^ 1022). reflexivity.
Qed.

Lemma fsub_rel a v : machine (FFin a) -> machine (FFin v) ->
  exists d, fsub (FFin a) (FFin v) = FFin d /\
            (Qabs (d - (a - v)) <= (1 # 2 ^ 53) * Qabs (a - v))%Q.
Proof.
  intros (x & Ex & Hx & Bx) (y & Ey & Hy & By). injection Ex as <-. injection Ey as <-.
  destruct (rnd64_no_overflow _ (sub_bound a v Bx By)) as (d & Hd).
  exists d. split; [exact Hd|]. apply rnd64_finite in Hd.
  apply Rle_Qle. rewrite Q2R_mult, !Q2R_Qabs, !Q2R_minus.
  replace (Q2R (a + - v)) with (Q2R a - Q2R v)%R in Hd by (rewrite Q2R_plus, Q2R_opp; lra).
  rewrite Hd. eapply Rle_trans; [apply rn_sub_rel; auto|]. apply Rmult_le_compat_r; [apply Rabs_pos|].
  apply Req_le. change (bpow radix2 (-53)) with (/ IZR (Z.pow_pos 2 53))%R.
  unfold Q2R. cbn [Qnum Qden]. rewrite Rmult_1_l. f_equal.
Qed.

Lemma fsub_exact a v : machine (FFin a) -> machine (FFin v) -> binary64 (Q2R (a - v)) ->
  exists d, fsub (FFin a) (FFin v) = FFin d /\ (d == a - v)%Q.
Proof.
  intros (x & Ex & Hx & Bx) (y & Ey & Hy & By) F. injection Ex as <-. injection Ey as <-.
  destruct (rnd64_exact (a + - v)) as (d & Hd & E).
  - exact F.
  - pose proof (sub_bound a v Bx By) as B. apply Qlt_Rlt in B.
    rewrite Q2R_Qabs, Q2R_inject_Z, <- bpow_Z in B by lia.
    assert (bpow radix2 1023 < bpow radix2 1024)%R by (apply bpow_lt; lia). lra.
  - exists d. split; auto.
Qed.
