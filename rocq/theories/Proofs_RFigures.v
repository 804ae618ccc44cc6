(** Proofs for C118: chains of roundings. *)
From Coq Require Import Reals ZArith Lia Lra Arith.
From Flocq Require Import Core Relative.
From Verif Require Import Model_RoundedFigures.
Open Scope R_scope.
Set Bullet Behavior "Strict Subproofs".

(** One rounding changes a number by at most this part of it. *)
Definition unit : R := bpow radix2 (-53).
Lemma unit_small : 0 < unit <= 1 / 1000000000000000.
Proof. unfold unit. split; [apply bpow_gt_0|]. cbn. lra. Qed.

(** Right up to k roundings; between 2^-e and 2^e. *)
Definition rel (k : nat) (a A : R) : Prop := exists d, a = A * d /\ (1 - unit) ^ k <= d <= / (1 - unit) ^ k.
Definition size (e : Z) (A : R) : Prop := bpow radix2 (- e) <= Rabs A <= bpow radix2 e.
Definition near (k : nat) (e : Z) (a A : R) : Prop := rel k a A /\ size e A.

Lemma low_pos : 0 < 1 - unit <= 1.
Proof. pose proof unit_small. lra. Qed.
Lemma pow_low_pos k : 0 < (1 - unit) ^ k <= 1.
Proof.
  pose proof low_pos. split; [apply pow_lt; lra|]. induction k as [|k IH]; cbn [pow]; [lra|].
  assert (0 < (1 - unit) ^ k) by (apply pow_lt; lra). nra.
Qed.
Lemma bernoulli k : 1 - INR k * unit <= (1 - unit) ^ k.
Proof.
  pose proof unit_small as U. induction k as [|k IH]; [cbn; lra|]. cbn [pow]. rewrite S_INR.
  pose proof (pow_low_pos k). assert (0 <= INR k) by apply pos_INR. nra.
Qed.

Lemma rel_refl A : rel 0 A A.
Proof. exists 1. split; [ring|]. cbn. rewrite Rinv_1. lra. Qed.
Lemma low_mono k l : (k <= l)%nat -> (1 - unit) ^ l <= (1 - unit) ^ k.
Proof.
  intros H. replace l with (k + (l - k))%nat by lia. rewrite pow_add.
  pose proof (pow_low_pos k). pose proof (pow_low_pos (l - k)). nra.
Qed.
Lemma rel_mono k l a A : (k <= l)%nat -> rel k a A -> rel l a A.
Proof.
  intros H (d & E & D). exists d. split; [exact E|]. pose proof (low_mono k l H) as M. pose proof (pow_low_pos l) as P.
  split; [lra|]. apply Rle_trans with (/ (1 - unit) ^ k); [lra|]. apply Rinv_le_contravar; lra.
Qed.
Lemma rel_mul k l a A b B : rel k a A -> rel l b B -> rel (k + l) (a * b) (A * B).
Proof.
  intros (d & -> & D) (f & -> & F). exists (d * f). split; [ring|]. rewrite pow_add, Rinv_mult.
  pose proof (pow_low_pos k). pose proof (pow_low_pos l).
  split; apply Rmult_le_compat; try lra.
Qed.
Lemma rel_inv k a A : A <> 0 -> rel k a A -> rel k (/ a) (/ A).
Proof.
  intros NA (d & -> & D). pose proof (pow_low_pos k) as P. exists (/ d). split; [rewrite Rinv_mult; ring|].
  split.
  - rewrite <- (Rinv_inv ((1 - unit) ^ k)). apply Rinv_le_contravar; lra.
  - apply Rinv_le_contravar; lra.
Qed.
Lemma rel_div k l a A b B : B <> 0 -> rel k a A -> rel l b B -> rel (k + l) (a / b) (A / B).
Proof. intros NB HA HB. apply rel_mul; [exact HA|apply rel_inv; assumption]. Qed.
Lemma rel_add k l a A b B : 0 < A -> 0 < B -> rel k a A -> rel l b B -> rel (Nat.max k l) (a + b) (A + B).
Proof.
  intros PA PB HA HB. apply (rel_mono _ (Nat.max k l)) in HA; [|lia]. apply (rel_mono _ (Nat.max k l)) in HB; [|lia].
  set (m := Nat.max k l) in *. destruct HA as (d & -> & D), HB as (f & -> & F).
  exists ((A * d + B * f) / (A + B)). split; [field; lra|]. split.
  - apply (Rmult_le_reg_r (A + B)); [lra|]. unfold Rdiv. rewrite Rmult_assoc, Rinv_l by lra. nra.
  - apply (Rmult_le_reg_r (A + B)); [lra|]. unfold Rdiv. rewrite (Rmult_assoc _ (/ (A + B))), Rinv_l by lra. nra.
Qed.
Lemma rel_sqrt k a A : 0 < A -> rel k a A -> rel k (sqrt a) (sqrt A).
Proof.
  intros PA (d & -> & D). pose proof (pow_low_pos k) as P. exists (sqrt d). split; [apply sqrt_mult; lra|].
  set (p := (1 - unit) ^ k) in *. assert (PI : 1 <= / p) by (rewrite <- Rinv_1; apply Rinv_le_contravar; lra).
  split.
  - destruct (Rle_lt_dec 1 d) as [L|L].
    + apply Rle_trans with 1; [lra|]. rewrite <- sqrt_1. apply sqrt_le_1_alt, L.
    + apply Rle_trans with d; [lra|]. rewrite <- (sqrt_square d) at 1 by lra. apply sqrt_le_1_alt. nra.
  - destruct (Rle_lt_dec 1 d) as [L|L].
    + apply Rle_trans with d; [|lra]. rewrite <- (sqrt_square d) at 2 by lra. apply sqrt_le_1_alt. nra.
    + apply Rle_trans with 1; [|lra]. rewrite <- sqrt_1. apply sqrt_le_1_alt. lra.
Qed.

(** Between absolute errors and chains of roundings. *)
Lemma low_high n : (1 - unit) ^ n * (1 + INR n * unit) <= 1.
Proof.
  pose proof unit_small as U. induction n as [|n IH]; [cbn; lra|]. cbn [pow]. rewrite S_INR.
  pose proof (pow_low_pos n) as P. assert (0 <= INR n) by apply pos_INR.
  apply Rle_trans with ((1 - unit) ^ n * (1 + INR n * unit)); [|exact IH].
  replace ((1 - unit) * (1 - unit) ^ n * (1 + (INR n + 1) * unit)) with ((1 - unit) ^ n * ((1 - unit) * (1 + (INR n + 1) * unit))) by ring.
  apply Rmult_le_compat_l; [lra|]. nra.
Qed.
Lemma few m : (m <= 1000)%nat -> 0 <= INR m <= 1000 /\ INR m * unit <= 1 / 2 /\ (INR m + 1) * INR m * unit <= 1.
Proof.
  intros M. pose proof unit_small as U. assert (I : INR m <= 1000).
  { replace 1000 with (INR 1000) by (rewrite INR_IZR_INZ; reflexivity). apply le_INR, M. }
  assert (I0 : 0 <= INR m) by apply pos_INR. split; [lra|].
  assert (INR m * unit <= 1000 * unit) by (apply Rmult_le_compat_r; lra).
  assert ((INR m + 1) * INR m <= 1001 * 1000) by (apply Rmult_le_compat; lra).
  assert ((INR m + 1) * INR m * unit <= 1001 * 1000 * unit) by (apply Rmult_le_compat_r; lra). split; lra.
Qed.
Lemma rel_of m a A : (m <= 1000)%nat -> Rabs (a - A) <= INR m * unit * Rabs A -> rel (S m) a A.
Proof.
  intros M H. pose proof unit_small as U. destruct (few m M) as (I & MU & MM).
  destruct (Req_dec A 0) as [->|NA].
  { exists 1. assert (a = 0) as ->.
    { rewrite Rabs_R0, Rmult_0_r in H. pose proof (Rabs_pos (a - 0)). assert (Rabs (a - 0) = 0) as E by lra.
      destruct (Req_dec a 0) as [->|N]; [reflexivity|]. apply Rabs_no_R0 in N. rewrite Rminus_0_r in E. contradiction. }
    split; [ring|]. pose proof (pow_low_pos (S m)). split; [lra|]. rewrite <- Rinv_1 at 1. apply Rinv_le_contravar; lra. }
  exists (a / A). split; [field; exact NA|].
  assert (Q : Rabs (a / A - 1) <= INR m * unit).
  { replace (a / A - 1) with ((a - A) / A) by (field; exact NA). unfold Rdiv. rewrite Rabs_mult, Rabs_inv.
    assert (P : 0 < Rabs A) by (apply Rabs_pos_lt, NA). apply (Rmult_le_reg_r (Rabs A)); [exact P|].
    rewrite Rmult_assoc, Rinv_l by lra. lra. }
  assert (D : 1 - INR m * unit <= a / A <= 1 + INR m * unit).
  { revert Q. unfold Rabs. destruct (Rcase_abs _); lra. }
  assert (G := low_high (S m)). rewrite S_INR in G. pose proof (pow_low_pos (S m)) as P.
  set (p := (1 - unit) ^ S m) in *. assert (0 <= INR m * unit) by (apply Rmult_le_pos; lra). split.
  - apply Rle_trans with (1 - INR m * unit); [|lra]. apply (Rmult_le_reg_r (1 + (INR m + 1) * unit)); [nra|].
    eapply Rle_trans; [exact G|].
    replace ((1 - INR m * unit) * (1 + (INR m + 1) * unit)) with (1 + unit * (1 - (INR m + 1) * INR m * unit)) by ring. nra.
  - apply Rle_trans with (1 + INR m * unit); [lra|]. apply (Rmult_le_reg_r p); [lra|]. rewrite Rinv_l by lra. nra.
Qed.
Lemma rel_to k a A : (k <= 1000)%nat -> rel k a A -> Rabs (a - A) <= INR (S k) * unit * Rabs A.
Proof.
  intros M (d & -> & D). pose proof unit_small as U. destruct (few k M) as (I & MU & MM).
  replace (A * d - A) with ((d - 1) * A) by ring. rewrite Rabs_mult. apply Rmult_le_compat_r; [apply Rabs_pos|].
  rewrite S_INR. pose proof (bernoulli k) as B. pose proof (pow_low_pos k) as P. set (p := (1 - unit) ^ k) in *.
  assert (T : / p <= 1 + (INR k + 1) * unit).
  { apply (Rmult_le_reg_r p); [lra|]. rewrite Rinv_l by lra.
    apply Rle_trans with ((1 + (INR k + 1) * unit) * (1 - INR k * unit)); [|apply Rmult_le_compat_l; nra].
    replace ((1 + (INR k + 1) * unit) * (1 - INR k * unit)) with (1 + unit * (1 - (INR k + 1) * INR k * unit)) by ring. nra. }
  unfold Rabs. destruct (Rcase_abs _); nra.
Qed.
Lemma rel_bounds k a A : (k <= 1000)%nat -> rel k a A -> / 2 * Rabs A <= Rabs a <= 2 * Rabs A.
Proof.
  intros M (d & -> & D). destruct (few k M) as (I & MU & MM). pose proof (bernoulli k) as B.
  assert (T : / (1 - unit) ^ k <= 2) by (rewrite <- (Rinv_inv 2); apply Rinv_le_contravar; lra).
  pose proof (pow_low_pos k). rewrite Rabs_mult, (Rabs_pos_eq d) by lra. pose proof (Rabs_pos A). split; nra.
Qed.

(** ** Sizes *)
Lemma size_mul e f A B : size e A -> size f B -> size (e + f) (A * B).
Proof.
  intros (A1 & A2) (B1 & B2). unfold size. rewrite Rabs_mult.
  replace (- (e + f))%Z with (- e + - f)%Z by lia. rewrite !bpow_plus.
  pose proof (bpow_gt_0 radix2 (- e)). pose proof (bpow_gt_0 radix2 (- f)).
  split; apply Rmult_le_compat; lra.
Qed.
Lemma size_nz e A : size e A -> A <> 0.
Proof. intros (A1 & _) ->. rewrite Rabs_R0 in A1. pose proof (bpow_gt_0 radix2 (- e)). lra. Qed.
Lemma size_inv e A : size e A -> size e (/ A).
Proof.
  intros HA. pose proof (size_nz _ _ HA) as N. destruct HA as (A1 & A2). unfold size. rewrite Rabs_inv.
  pose proof (bpow_gt_0 radix2 (- e)). split.
  - rewrite bpow_opp. apply Rinv_le_contravar; lra.
  - replace e with (- - e)%Z by lia. rewrite bpow_opp. apply Rinv_le_contravar; lra.
Qed.
Lemma size_div e f A B : size e A -> size f B -> size (e + f) (A / B).
Proof. intros HA HB. apply size_mul; [exact HA|apply size_inv, HB]. Qed.
Lemma size_mono e f A : (e <= f)%Z -> size e A -> size f A.
Proof.
  intros H (A1 & A2). split.
  - eapply Rle_trans; [apply bpow_le|exact A1]. lia.
  - eapply Rle_trans; [exact A2|apply bpow_le, H].
Qed.
Lemma size_add e f A B : 0 < A -> 0 < B -> size e A -> size f B -> size (1 + Z.max e f) (A + B).
Proof.
  intros PA PB HA HB. apply (size_mono _ (Z.max e f)) in HA; [|lia]. apply (size_mono _ (Z.max e f)) in HB; [|lia].
  set (m := Z.max e f) in *. destruct HA as (A1 & A2), HB as (B1 & B2). unfold size. rewrite (Rabs_pos_eq (A + B)) by lra.
  rewrite (Rabs_pos_eq A) in A1, A2 by lra. rewrite (Rabs_pos_eq B) in B1, B2 by lra. rewrite (bpow_plus radix2 1 m). change (bpow radix2 1) with 2. split; [|lra].
  apply Rle_trans with (bpow radix2 (- m)); [apply bpow_le; lia|lra].
Qed.
Lemma size_sqrt e A : (0 <= e)%Z -> 0 < A -> size e A -> size e (sqrt A).
Proof.
  intros E PA (A1 & A2). unfold size. rewrite (Rabs_pos_eq A) in * by lra. rewrite Rabs_pos_eq by apply sqrt_pos.
  assert (L : bpow radix2 (- e) <= 1) by (apply (bpow_le radix2 (- e) 0); lia).
  assert (H : 1 <= bpow radix2 e) by (apply (bpow_le radix2 0 e); lia). pose proof (bpow_gt_0 radix2 (- e)). split.
  - rewrite <- (sqrt_square (bpow radix2 (- e))) by lra. apply sqrt_le_1_alt. nra.
  - rewrite <- (sqrt_square (bpow radix2 e)) by lra. apply sqrt_le_1_alt. nra.
Qed.

(** ** Operations *)
Lemma fl_near k e a A : near k e a A -> (k <= 1000)%nat -> (e <= 1000)%Z -> exists v, fl a = Some v /\ near (S k) e v A.
Proof.
  intros (HA & SA) K E. destruct (rel_bounds k a A K HA) as (L & H). destruct SA as (S1 & S2).
  assert (B1 : bpow radix2 (-1022) <= Rabs a).
  { eapply Rle_trans; [|exact L]. apply Rle_trans with (/ 2 * bpow radix2 (- e)); [|apply Rmult_le_compat_l; lra].
    change (/ 2) with (bpow radix2 (-1)). rewrite <- bpow_plus. apply bpow_le. lia. }
  assert (B2 : Rabs a <= bpow radix2 1001).
  { eapply Rle_trans; [exact H|]. apply Rle_trans with (2 * bpow radix2 e); [apply Rmult_le_compat_l; lra|].
    change 2 with (bpow radix2 1). rewrite <- bpow_plus. apply bpow_le. lia. }
  destruct (relative_error_N_FLT_ex radix2 (-1074) 53 ltac:(lia) (fun x => negb (Z.even x)) a) as (eps & Ee & Er).
  { exact B1. }
  assert (U : Rabs eps <= unit).
  { eapply Rle_trans; [exact Ee|]. unfold unit. change (/ 2) with (bpow radix2 (-1)). rewrite <- bpow_plus. apply bpow_le. lia. }
  pose proof unit_small as US. assert (UE : - unit <= eps <= unit) by (revert U; unfold Rabs; destruct (Rcase_abs eps); lra).
  assert (EN : nearest a = a * (1 + eps)) by exact Er.
  exists (nearest a). split.
  - unfold fl. destruct (Rlt_dec _ _) as [_|N]; [reflexivity|exfalso]. apply N. rewrite EN, Rabs_mult, (Rabs_pos_eq (1 + eps)) by lra.
    apply Rle_lt_trans with (bpow radix2 1001 * 2).
    + apply Rmult_le_compat; [apply Rabs_pos|lra|exact B2|lra].
    + change 2 with (bpow radix2 1). rewrite <- bpow_plus. apply bpow_lt. lia.
  - split; [|split; assumption]. rewrite EN. destruct HA as (d & -> & D). exists (d * (1 + eps)). split; [ring|].
    pose proof (pow_low_pos k) as P. set (p := (1 - unit) ^ k) in *. cbn [pow]. fold p. rewrite Rinv_mult.
    assert (O : 1 + eps <= / (1 - unit)).
    { apply (Rmult_le_reg_r (1 - unit)); [lra|]. rewrite Rinv_l by lra. nra. }
    assert (PI : 0 < / p) by (apply Rinv_0_lt_compat; lra). split.
    + rewrite Rmult_comm. apply Rmult_le_compat; lra.
    + rewrite Rmult_comm. apply Rmult_le_compat; lra.
Qed.
Lemma near_nz k e a A : near k e a A -> (k <= 1000)%nat -> a <> 0.
Proof.
  intros (HA & SA) K ->. destruct (rel_bounds k 0 A K HA) as (L & _). rewrite Rabs_R0 in L.
  pose proof (Rabs_pos_lt A (size_nz _ _ SA)). lra.
Qed.
Lemma near_pos k e a A : near k e a A -> 0 < A -> 0 < a.
Proof. intros ((d & -> & D) & _) P. pose proof (pow_low_pos k). apply Rmult_lt_0_compat; lra. Qed.

Lemma mul_near k l e f a A b B : near k e a A -> near l f b B -> (k + l <= 1000)%nat -> (e + f <= 1000)%Z ->
  exists v, rmul a b = Some v /\ near (S (k + l)) (e + f) v (A * B).
Proof. intros (HA & SA) (HB & SB) K E. apply fl_near; [split; [apply rel_mul|apply size_mul]; assumption|exact K|exact E]. Qed.
Lemma div_near k l e f a A b B : near k e a A -> near l f b B -> (k + l <= 1000)%nat -> (e + f <= 1000)%Z ->
  exists v, rdiv a b = Some v /\ near (S (k + l)) (e + f) v (A / B).
Proof.
  intros (HA & SA) HBn K E. pose proof HBn as (HB & SB). unfold rdiv. destruct (Req_EM_T b 0) as [Z|_].
  - exfalso. apply (near_nz _ _ _ _ HBn); [lia|exact Z].
  - apply fl_near; [split; [apply rel_div; [apply (size_nz _ _ SB)| |]|apply size_div]; assumption|exact K|exact E].
Qed.
Lemma add_near k l e f a A b B : 0 < A -> 0 < B -> near k e a A -> near l f b B -> (k <= 1000)%nat -> (l <= 1000)%nat ->
  (e <= 999)%Z -> (f <= 999)%Z -> exists v, radd a b = Some v /\ near (S (Nat.max k l)) (1 + Z.max e f) v (A + B).
Proof. intros PA PB (HA & SA) (HB & SB) K L E F. apply fl_near; [split; [apply rel_add|apply size_add]; assumption|lia|lia]. Qed.
Lemma sqrt_near_f k e a A : 0 < A -> near k e a A -> (k <= 1000)%nat -> (0 <= e <= 1000)%Z ->
  exists v, rsqrt a = Some v /\ near (S k) e v (sqrt A).
Proof.
  intros PA HAn K E. pose proof HAn as (HA & SA). unfold rsqrt. destruct (Rlt_dec a 0) as [N|_].
  - pose proof (near_pos _ _ _ _ HAn PA). lra.
  - apply fl_near; [split; [apply rel_sqrt|apply size_sqrt; [lia| |]]; assumption|exact K|lia].
Qed.
