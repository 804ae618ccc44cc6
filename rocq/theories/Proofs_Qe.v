(** Efficiencies and filters. *)
From Coq Require Import List Bool Arith ZArith Reals Lia Lra.
From Flocq Require Import Raux.
From Verif Require Import Base_Prelude Base_SumR Model_Optics.
Import ListNotations.
Open Scope R_scope.

Lemma gauss_qe_range w : 0 <= gauss_qe w <= 9 / 10.
Proof.
  unfold gauss_qe. cbv zeta. split; [apply Rmax_r|]. apply Rmax_lub; [|lra].
  set (e := exp _). set (s := sqrt _).
  assert (E : e <= 1).
  { unfold e. rewrite <- exp_0. apply Raux.exp_le.
    set (v := - 1 + w / (800 - 350) - 0). pose proof (pow2_ge_0 v).
    replace (- v ^ 2 / (2 * (/ 2) ^ 2)) with (- (2 * v ^ 2)) by field. lra. }
  assert (S : 1 <= s).
  { unfold s. rewrite <- sqrt_1. apply sqrt_le_1_alt.
    replace (PI * 2 * (/ 2) ^ 2) with (PI / 2) by field.
    pose proof PI2_3_2. lra. }
  assert (0 < e) by apply exp_pos.
  assert (e / s <= 1); [|lra].
  apply Rmult_le_reg_r with s; [lra|]. unfold Rdiv. rewrite Rmult_assoc, Rinv_l by lra. lra.
Qed.

(** ** The Poisson curve *)

Definition curve (mu v : Z) : R := IZR v * ln (IZR mu) - IZR mu - log_sum v.

Lemma log_sum_step v : (1 <= v)%Z -> log_sum (v + 1) = log_sum v + ln (IZR v).
Proof.
  intro H. unfold log_sum. replace (Z.to_nat (v + 1 - 1)) with (S (Z.to_nat (v - 1))) by lia.
  cbn [sumR]. f_equal. f_equal. rewrite INR_IZR_INZ. f_equal. lia.
Qed.
Lemma log_sum_low v : (v <= 0)%Z -> log_sum (v + 1) = log_sum v.
Proof.
  intro H. unfold log_sum. replace (Z.to_nat (v + 1 - 1)) with 0%nat by lia.
  replace (Z.to_nat (v - 1)) with 0%nat by lia. reflexivity.
Qed.

Lemma curve_up mu v : (1 < mu)%Z -> (v < mu)%Z -> curve mu v <= curve mu (v + 1).
Proof.
  intros M H. assert (M' : 1 < IZR mu) by (apply IZR_lt; lia).
  assert (0 < ln (IZR mu)) by (rewrite <- ln_1; apply ln_increasing; lra).
  unfold curve. rewrite plus_IZR. destruct (Z_le_gt_dec v 0) as [L|L].
  - rewrite log_sum_low by auto. lra.
  - rewrite log_sum_step by lia.
    assert (ln (IZR v) <= ln (IZR mu)).
    { assert (0 < IZR v) by (apply IZR_lt; lia). assert (IZR v < IZR mu) by (apply IZR_lt; lia).
      left. apply ln_increasing; auto. }
    lra.
Qed.
Lemma curve_down mu v : (1 < mu)%Z -> (mu <= v)%Z -> curve mu (v + 1) <= curve mu v.
Proof.
  intros M H. unfold curve. rewrite plus_IZR, log_sum_step by lia.
  assert (ln (IZR mu) <= ln (IZR v)).
  { destruct (Z.eq_dec mu v) as [->|N]; [lra|]. left. apply ln_increasing; apply IZR_lt; lia. }
  lra.
Qed.

Lemma curve_peak mu v : (1 < mu)%Z -> curve mu v <= curve mu mu.
Proof.
  intro M. destruct (Z_le_gt_dec v mu) as [L|L].
  - replace v with (mu - Z.of_nat (Z.to_nat (mu - v)))%Z by lia.
    induction (Z.to_nat (mu - v)) as [|k IH].
    + replace (mu - Z.of_nat 0)%Z with mu by lia. lra.
    + eapply Rle_trans; [apply curve_up; [auto|lia]|].
      replace (mu - Z.of_nat (S k) + 1)%Z with (mu - Z.of_nat k)%Z by lia. exact IH.
  - replace v with (mu + Z.of_nat (Z.to_nat (v - mu)))%Z by lia.
    induction (Z.to_nat (v - mu)) as [|k IH].
    + replace (mu + Z.of_nat 0)%Z with mu by lia. lra.
    + replace (mu + Z.of_nat (S k))%Z with ((mu + Z.of_nat k) + 1)%Z by lia.
      eapply Rle_trans; [apply curve_down; [auto|lia]|]. exact IH.
Qed.

Lemma poisson_peak w loc mu l : (1 < mu)%Z -> Ztrunc l = loc -> poisson w loc mu <= poisson l loc mu.
Proof.
  intros M E. unfold poisson. apply Raux.exp_le. 
  replace (Ztrunc l + (mu - loc))%Z with mu by lia.
  apply (curve_peak mu (Ztrunc w + (mu - loc))%Z M).
Qed.
Lemma poisson_pos w loc mu : 0 < poisson w loc mu.
Proof. apply exp_pos. Qed.

Lemma maxR_ge n f : forall k, (k < n)%nat -> f k <= maxR n f.
Proof.
  induction n as [|n IH]; intros k H; [lia|]. destruct n as [|n].
  - assert (k = 0%nat) by lia. subst. simpl. lra.
  - change (maxR (S (S n)) f) with (Rmax (maxR (S n) f) (f (S n))).
    destruct (Nat.eq_dec k (S n)) as [->|N]; [apply Rmax_r|].
    eapply Rle_trans; [apply IH; lia|apply Rmax_l].
Qed.
Lemma maxR_in n f : (0 < n)%nat -> exists k, (k < n)%nat /\ maxR n f = f k.
Proof.
  induction n as [|n IH]; intro H; [lia|]. destruct n as [|n].
  - exists 0%nat. auto.
  - change (maxR (S (S n)) f) with (Rmax (maxR (S n) f) (f (S n))).
    destruct IH as (k & K & E); [lia|]. unfold Rmax. destruct (Rle_dec _ _).
    + exists (S n). split; auto.
    + exists k. split; [lia|auto].
Qed.

Lemma bayer_range n wave loc l : (l < n)%nat -> 0 < bayer_entry n wave loc l <= 1.
Proof.
  intro H. unfold bayer_entry.
  pose proof (maxR_ge n (fun k => poisson (wave k) loc 1000) l H) as M. cbv beta in M.
  pose proof (poisson_pos (wave l) loc 1000) as P. set (m := maxR _ _) in *.
  set (p := poisson _ _ _) in *.
  assert (0 < m) by lra. split; [apply Rdiv_lt_0_compat; auto|].
  apply Rmult_le_reg_r with m; auto. unfold Rdiv. rewrite Rmult_assoc, Rinv_l by lra. lra.
Qed.

Lemma bayer_nominal n wave loc l : (l < n)%nat -> Ztrunc (wave l) = loc -> bayer_entry n wave loc l = 1.
Proof.
  intros H E. unfold bayer_entry.
  destruct (maxR_in n (fun k => poisson (wave k) loc 1000)) as (k & K & Em); [lia|].
  pose proof (maxR_ge n (fun k => poisson (wave k) loc 1000) l H) as M. cbv beta in M.
  pose proof (poisson_peak (wave k) loc 1000 (wave l) ltac:(lia) E) as PK.
  assert (Eq : maxR n (fun k => poisson (wave k) loc 1000) = poisson (wave l) loc 1000) by (cbv beta in Em; lra).
  rewrite Eq. pose proof (poisson_pos (wave l) loc 1000). field. lra.
Qed.

Lemma bayer_normalised n wave loc : (0 < n)%nat -> exists l, (l < n)%nat /\ bayer_entry n wave loc l = 1.
Proof.
  intro H. destruct (maxR_in n (fun k => poisson (wave k) loc 1000) H) as (l & L & E).
  exists l. split; auto. unfold bayer_entry. rewrite E. pose proof (poisson_pos (wave l) loc 1000). field. lra.
Qed.

Lemma qe_accepts s h w n : qe_init (Some s) h w n = Ok tt <-> s = [h; w; n].
Proof.
  unfold qe_init. destruct (list_eq_dec Nat.eq_dec s [h; w; n]) as [E|N]; [tauto|].
  destruct (length s =? 2)%nat; split; intro H; (discriminate || contradiction).
Qed.

Lemma qe_wrong_error : qe_init (Some [2; 3; 4]%nat) 3 2 4 = Err TypeError.
Proof. reflexivity. Qed.

Lemma qe_shape_error : exists s h w n, s <> [h; w; n] /\ qe_init (Some s) h w n = Err TypeError.
Proof. exists [2; 3; 4]%nat, 3%nat, 2%nat, 4%nat. split; [discriminate|exact qe_wrong_error]. Qed.
