(** The rounding errors of the spatial figures. *)
From Coq Require Import List Bool Arith ZArith QArith Qabs Qreals Reals Lia Lra Permutation.
From Flocq Require Import Core Relative.
From Verif Require Import Base_Prelude Base_Num Base_Order Base_Sum Base_Float Spec_Num Proofs_Round
  Proofs_Num Proofs_Float Model_Images Model_Loader Model_Data Model_Hist Model_Rounded
  Model_RoundedSpatial Spec_RoundedSpatial Proofs_Hist2 Proofs_Rounded Proofs_Rounded2 Proofs_RSpatial.
Import ListNotations.
Open Scope R_scope.

Lemma near_abs e x r X : near e x r -> Rabs r <= X -> exists v, fval x v /\ Rabs (v - r) <= e /\ Rabs v <= X + e.
Proof.
  intros (v & V & E) H. exists v. repeat split; auto.
  pose proof (Rabs_triang (v - r) r) as Q. replace (v - r + r) with v in Q by ring. lra.
Qed.

Lemma near_sub e1 e2 x y r s B : near e1 x r -> near e2 y s -> Rabs (r - s) <= B -> 0 <= e1 + e2 <= B / 10 ->
  1 <= B <= top -> near (e1 + e2 + 12 / 10 * (ulp1 * B)) (fsub x y) (r - s).
Proof.
  intros (v & V & E1) (z & Z & E2) H He HB. pose proof ulp1_pos as U. pose proof tiny_small as T.
  assert (D : Rabs ((v - z) - (r - s)) <= e1 + e2) by (absd; lra).
  assert (A : Rabs (v - z) <= 11 / 10 * B) by (absd; lra).
  exists (rn (v - z)). split.
  - apply fsub_val; auto. apply le_big. pose proof top_pos. lra.
  - pose proof (rn_abs _ _ A) as R. assert (ulp1 * 1 <= ulp1 * B) by (apply Rmult_le_compat_l; lra). absd. lra.
Qed.

Lemma near_sq e x r B : near e x r -> Rabs r <= B -> 0 <= e <= B / 10 -> 1 <= B -> B * B <= top ->
  near (21 / 10 * (e * B) + 13 / 10 * (ulp1 * (B * B))) (fmul x x) (r * r).
Proof.
  intros N H He HB Ht. destruct (near_abs _ _ _ _ N H) as (v & V & E & A).
  pose proof ulp1_pos as U. pose proof tiny_small as T.
  assert (D : Rabs (v * v - r * r) <= 21 / 10 * (e * B)).
  { replace (v * v - r * r) with ((v - r) * (v + r)) by ring. rewrite Rabs_mult.
    apply Rle_trans with (e * (21 / 10 * B)); [|lra].
    apply Rmult_le_compat; try apply Rabs_pos; auto.
    eapply Rle_trans; [apply Rabs_triang|]. lra. }
  assert (A2 : Rabs (v * v) <= 121 / 100 * (B * B)).
  { rewrite Rabs_mult. apply Rle_trans with ((11 / 10 * B) * (11 / 10 * B)); [|lra].
    apply Rmult_le_compat; try apply Rabs_pos; lra. }
  exists (rn (v * v)). split.
  - apply fmul_val; auto. apply le_big. pose proof top_pos. lra.
  - pose proof (rn_abs _ _ A2) as R.
    assert (ulp1 * 1 <= ulp1 * (B * B)) by (apply Rmult_le_compat_l; nra). absd. lra.
Qed.

Lemma near_dev2 e1 e2 x m r s B : near e1 x r -> near e2 m s -> Rabs (r - s) <= B -> 0 <= e1 + e2 <= B / 20 ->
  1 <= B -> B * B <= top ->
  near (21 / 10 * ((e1 + e2) * B) + 4 * (ulp1 * (B * B))) (fdev2 m x) ((r - s) * (r - s)).
Proof.
  intros N1 N2 H He HB Ht. pose proof ulp1_pos as U.
  assert (UB : 0 < ulp1 * B <= B / 1000) by (split; [nra|]; unfold Rdiv; rewrite (Rmult_comm B); apply Rmult_le_compat_r; lra).
  pose proof (near_sub e1 e2 x m r s B N1 N2 H ltac:(lra) ltac:(nra)) as N.
  eapply near_le; [|apply near_sq; [exact N|exact H|lra|exact HB|exact Ht]].
  nra.
Qed.

Lemma near_scaled e x r k k' : (0 < k')%nat -> (Z.of_nat k' < 2 ^ 40)%Z -> near (INR k' * e) x r ->
  Rabs r <= INR k' * k -> 0 <= e <= k / 10 -> 1 <= k -> IZR (2 ^ 45) * k <= top ->
  near (11 / 10 * e + 3 * (ulp1 * k)) (fmul (fdiv (f_int 1) (f_int (Z.of_nat k'))) x) (/ INR k' * r).
Proof.
  intros K0 K1 (v & V & E) H He Hk Ht. set (n := INR k') in *.
  pose proof ulp1_pos as U. pose proof tiny_small as T.
  assert (n1 : 1 <= n) by (unfold n; change 1 with (INR 1); apply le_INR; lia).
  assert (nt : n <= IZR (2 ^ 40)) by (unfold n; rewrite INR_IZR_INZ; apply IZR_le; lia).
  assert (In : 0 < / n <= 1) by (split; [apply Rinv_0_lt_compat; lra|rewrite <- Rinv_1; apply Rinv_le; lra]).
  assert (Tn : tiny * n <= ulp1 / 1000).
  { apply Rle_trans with (tiny * IZR (2 ^ 40)); [apply Rmult_le_compat_l; lra|].
    unfold tiny, ulp1. apply Rmult_le_reg_r with (IZR (2 ^ 300)); [apply IZR_lt; lia|].
    replace (/ IZR (2 ^ 300) * IZR (2 ^ 40) * IZR (2 ^ 300)) with (IZR (2 ^ 40)) by (field; apply IZR_neq; lia).
    replace (/ IZR (2 ^ 53) / 1000 * IZR (2 ^ 300)) with (IZR (2 ^ 247) * (/ 1000)).
    - assert (IZR (2 ^ 40) * 1000 <= IZR (2 ^ 247)) by (rewrite <- mult_IZR; apply IZR_le; lia). lra.
    - change (2 ^ 300)%Z with (2 ^ 247 * 2 ^ 53)%Z. rewrite mult_IZR. field. apply IZR_neq. lia. }
  (* 1 / n *)
  assert (Q : fval (fdiv (f_int 1) (f_int (Z.of_nat k'))) (rn (1 / n))).
  { unfold n. rewrite INR_IZR_INZ. apply fdiv_val; try (apply f_int_val_exact; lia).
    - apply IZR_neq. lia.
    - rewrite <- INR_IZR_INZ. fold n. unfold Rdiv. rewrite Rmult_1_l, Rabs_pos_eq by lra.
      apply Rle_trans with 1; [lra|]. unfold big. apply (IZR_le 1). lia. }
  assert (Qe : Rabs (rn (1 / n) - / n) <= 11 / 10 * ulp1 * / n).
  { pose proof (rn_err (1 / n)) as R. replace (1 / n) with (/ n) in * by (unfold Rdiv; ring).
    rewrite (Rabs_pos_eq (/ n)) in R by lra.
    assert (tiny <= ulp1 / 1000 * / n).
    { apply Rmult_le_reg_r with n; [lra|]. rewrite (Rmult_assoc _ (/ n)), Rinv_l by lra. lra. }
    lra. }
  set (q := rn (1 / n)) in *.
  assert (Uin : ulp1 * / n <= / n / 1000) by (unfold Rdiv; rewrite (Rmult_comm (/ n)); apply Rmult_le_compat_r; lra).
  assert (qb : 0 <= q <= 11 / 10 * / n) by (absd; lra).
  assert (Vb : Rabs v <= n * (11 / 10 * k)).
  { pose proof (Rabs_triang (v - r) r) as Tr. replace (v - r + r) with v in Tr by ring. nra. }
  assert (D : Rabs (q * v - / n * r) <= 11 / 10 * e + 11 / 10 * (ulp1 * k)).
  { replace (q * v - / n * r) with (q * (v - r) + (q - / n) * r) by ring.
    eapply Rle_trans; [apply Rabs_triang|]. rewrite !Rabs_mult, (Rabs_pos_eq q) by lra.
    apply Rplus_le_compat.
    - apply Rle_trans with ((11 / 10 * / n) * (n * e)).
      + apply Rmult_le_compat; try apply Rabs_pos; lra.
      + right. field. lra.
    - apply Rle_trans with ((11 / 10 * ulp1 * / n) * (n * k)).
      + apply Rmult_le_compat; try apply Rabs_pos; lra.
      + right. field. lra. }
  assert (A : Rabs (q * v) <= 122 / 100 * k).
  { rewrite Rabs_mult, (Rabs_pos_eq q) by lra.
    apply Rle_trans with ((11 / 10 * / n) * (n * (11 / 10 * k))).
    - apply Rmult_le_compat; try apply Rabs_pos; lra.
    - replace ((11 / 10 * / n) * (n * (11 / 10 * k))) with (121 / 100 * k) by (field; lra). lra. }
  assert (kt : k <= top).
  { eapply Rle_trans; [|exact Ht]. assert (1 <= IZR (2 ^ 45)) by (apply IZR_le; lia). nra. }
  exists (rn (q * v)). split.
  - apply fmul_val; auto. apply le_big. pose proof top_pos. lra.
  - pose proof (rn_abs _ _ A) as R. assert (ulp1 * 1 <= ulp1 * k) by (apply Rmult_le_compat_l; lra). absd. lra.
Qed.

Lemma near_divn e x r k m : near e x r -> Rabs r <= k -> 0 <= e <= k / 10 -> 1 <= k <= top ->
  (2 <= m)%nat -> (Z.of_nat m < 2 ^ 53)%Z ->
  near (e / 2 + 6 / 10 * (ulp1 * k)) (fdiv x (f_int (Z.of_nat m))) (r / INR m).
Proof.
  intros N H He Hk M0 M1. destruct (near_abs _ _ _ _ N H) as (v & V & E & A).
  pose proof ulp1_pos as U. pose proof tiny_small as T. set (n := INR m).
  assert (n1 : 2 <= n) by (unfold n; change 2 with (INR 2); apply le_INR; lia).
  assert (In : 0 < / n <= / 2) by (split; [apply Rinv_0_lt_compat; lra|apply Rinv_le; lra]).
  assert (D : Rabs (v / n - r / n) <= e / 2).
  { replace (v / n - r / n) with ((v - r) * / n) by (unfold Rdiv; ring).
    rewrite Rabs_mult, (Rabs_pos_eq (/ n)) by lra. unfold Rdiv.
    apply Rmult_le_compat; try apply Rabs_pos; lra. }
  assert (B : Rabs (v / n) <= 56 / 100 * k).
  { unfold Rdiv. rewrite Rabs_mult, (Rabs_pos_eq (/ n)) by lra.
    apply Rle_trans with ((k + e) * / 2); [apply Rmult_le_compat; try apply Rabs_pos; lra|lra]. }
  exists (rn (v / n)). split.
  - unfold n. rewrite INR_IZR_INZ. apply fdiv_val; auto.
    + apply f_int_val_exact. lia.
    + apply IZR_neq. lia.
    + rewrite <- INR_IZR_INZ. fold n. apply le_big. pose proof top_pos. lra.
  - pose proof (rn_abs _ _ B) as R. assert (ulp1 * 1 <= ulp1 * k) by (apply Rmult_le_compat_l; lra). absd. lra.
Qed.

(** ** One series *)
Section Figures.
Variables (sumi pvari : nat -> nat -> Z) (h w L : nat) (b : Z) (o : sum_orders) (dn : nat).
Let Bz : Z := (2 ^ b)%Z.
Let B : R := IZR Bz.
Let W := B * B.
Hypothesis Hb : (0 <= b <= 16)%Z.
Hypothesis HL : (2 <= L <= 1000)%nat.
Hypothesis Hh : (0 < h)%nat.
Hypothesis Hw : (0 < w)%nat.
Hypothesis Hhw : (2 <= h * w)%nat.
Hypothesis Hn : (Z.of_nat (h * w) <= 2 ^ 29)%Z.
Hypothesis Hsum : forall r c, (r < h)%nat -> (c < w)%nat -> (0 <= sumi r c <= Z.of_nat L * Bz)%Z.
Hypothesis Hpvar : forall r c, (r < h)%nat -> (c < w)%nat ->
  (0 <= pvari r c <= 2 * (Z.of_nat L * Z.of_nat L * Z.of_nat (L - 1)) * (Bz * Bz))%Z.

Hypothesis HO : sound_orders dn h w o.

Let fl n := f_int (Z.of_nat n).
Let avg_f r c := fdiv (f_int (sumi r c)) (fmul (f_int 1) (fl L)).
Let var_f r c := fdiv (f_int (pvari r c)) (fmul (fmul (f_int 1) (fl (L * L)%nat)) (fl (L - 1)%nat)).
Let a r c := IZR (sumi r c) / INR L.
Let v r c := IZR (pvari r c) / (INR L * INR L * INR (L - 1)).
Let u := ulp1.
Let d := INR dn.

Let Hd := O_chain _ _ _ _ HO.
Let Bz1 : (1 <= Bz <= 2 ^ 16)%Z.
Proof. unfold Bz. split; [change 1%Z with (2 ^ 0)%Z|]; apply Z.pow_le_mono_r; lia. Qed.
Let B1 : 1 <= B <= IZR (2 ^ 16).
Proof. unfold B. split; [apply (IZR_le 1)|apply IZR_le]; lia. Qed.
Let W1 : 1 <= W <= IZR (2 ^ 32).
Proof.
  unfold W, B. rewrite <- mult_IZR. split; [apply (IZR_le 1); nia|apply IZR_le].
  change (2 ^ 32)%Z with (2 ^ 16 * 2 ^ 16)%Z. apply Z.mul_le_mono_nonneg; lia.
Qed.
Let BW : B <= W.
Proof. unfold W. nra. Qed.
Let topW k : 0 <= k <= IZR (2 ^ 8) -> IZR (2 ^ 45) * (k * W) <= top.
Proof.
  intro Hk. apply Rle_trans with (IZR (2 ^ 45) * (IZR (2 ^ 8) * IZR (2 ^ 32))).
  - apply Rmult_le_compat_l; [apply (IZR_le 0); lia|]. apply Rmult_le_compat; lra.
  - unfold top. rewrite <- !mult_IZR. apply IZR_le. rewrite <- !Z.pow_add_r by lia. apply Z.pow_le_mono_r; lia.
Qed.
Let W_top k : 0 <= k <= 8 -> k * W <= top.
Proof.
  intro Hk. pose proof (topW k ltac:(assert (8 <= IZR (2 ^ 8)) by (apply IZR_le; lia); lra)).
  assert (1 <= IZR (2 ^ 45)) by (apply (IZR_le 1); lia). nra.
Qed.
Let B_top : IZR (2 ^ 45) * B <= top.
Proof.
  eapply Rle_trans; [|apply (topW 1)].
  - apply Rmult_le_compat_l; [apply (IZR_le 0); lia|lra].
  - split; [lra|apply (IZR_le 1); lia].
Qed.
Let U := ulp1_pos.
Let T := tiny_small.
Let d0 : 0 <= d.
Proof. apply pos_INR. Qed.
Let ud : 0 <= u * d <= / 4000000.
Proof.
  split; [apply Rmult_le_pos; unfold u; lra|]. unfold u, ulp1, d. rewrite INR_IZR_INZ.
  apply Rmult_le_reg_l with (IZR (2 ^ 53)); [apply IZR_lt; lia|].
  rewrite <- Rmult_assoc, Rinv_r, Rmult_1_l by (apply IZR_neq; lia).
  apply Rle_trans with (IZR (2 ^ 30)); [apply IZR_le; lia|].
  assert (IZR (2 ^ 30) * 4000000 <= IZR (2 ^ 53)) by (rewrite <- mult_IZR; apply IZR_le; lia). lra.
Qed.
Let u_small : u <= / 4000000.
Proof.
  unfold u, ulp1. apply Rinv_le; [lra|]. apply IZR_le. lia.
Qed.
Let uB : 0 <= u * B <= B / 4000000.
Proof. unfold Rdiv. split; [apply Rmult_le_pos; unfold u; lra|rewrite (Rmult_comm B)]. apply Rmult_le_compat_r; lra. Qed.
Let udB : 0 <= B * (u * d) <= B / 4000000.
Proof. unfold Rdiv. split; [apply Rmult_le_pos; lra|]. apply Rmult_le_compat_l; lra. Qed.
Let uW : 0 <= u * W <= W / 4000000.
Proof. unfold Rdiv. split; [apply Rmult_le_pos; unfold u; lra|rewrite (Rmult_comm W)]. apply Rmult_le_compat_r; lra. Qed.
Let udW : 0 <= W * (u * d) <= W / 4000000.
Proof. unfold Rdiv. split; [apply Rmult_le_pos; lra|]. apply Rmult_le_compat_l; lra. Qed.

Let Lz : (2 <= Z.of_nat L <= 1000)%Z.
Proof. lia. Qed.
Let Lr : 2 <= INR L <= 1000.
Proof. rewrite INR_IZR_INZ. split; [apply (IZR_le 2)|apply (IZR_le _ 1000)]; lia. Qed.

Lemma a_range r c : (r < h)%nat -> (c < w)%nat -> 0 <= a r c <= B.
Proof.
  intros Hr Hc. unfold a. specialize (Hsum r c Hr Hc). destruct Hsum as [S0 S1].
  apply IZR_le in S0. apply IZR_le in S1. rewrite mult_IZR, <- INR_IZR_INZ in S1. fold B in S1.
  split; [apply Rmult_le_pos; [lra|left; apply Rinv_0_lt_compat; lra]|].
  apply Rmult_le_reg_r with (INR L); [lra|]. unfold Rdiv. rewrite Rmult_assoc, Rinv_l by lra. lra.
Qed.

Lemma avg_near r c : (r < h)%nat -> (c < w)%nat -> near (101 / 100 * (u * B)) (avg_f r c) (a r c).
Proof.
  intros Hr Hc. pose proof (a_range r c Hr Hc) as A. exists (rn (a r c)). split.
  - unfold avg_f, a. apply fdiv_val.
    + apply f_int_val_exact. specialize (Hsum r c Hr Hc). nia.
    + rewrite <- (rn_exact (INR L)) by (rewrite INR_IZR_INZ; apply binary64_int; lia).
      replace (INR L) with (1 * INR L) at 1 by ring. apply fmul_val.
      * apply f_int_val_exact. lia.
      * rewrite INR_IZR_INZ. apply f_int_val_exact. lia.
      * rewrite Rmult_1_l, Rabs_pos_eq by lra. unfold big. apply Rle_trans with (IZR 1000); [lra|]. apply IZR_le. lia.
    + lra.
    + fold (a r c). rewrite Rabs_pos_eq by lra. pose proof (le_big B) as Q. rewrite Rabs_pos_eq in Q by lra.
      eapply Rle_trans; [apply A|]. apply Q.
      pose proof (W_top 1 ltac:(lra)). pose proof top_pos. lra.
  - pose proof (rn_abs (a r c) B ltac:(rewrite Rabs_pos_eq; lra)) as E. fold u in E.
    assert (u * 1 <= u * B) by (apply Rmult_le_compat_l; unfold u; lra). unfold u in *. lra.
Qed.

Lemma v_range r c : (r < h)%nat -> (c < w)%nat -> 0 <= v r c <= 2 * W.
Proof.
  intros Hr Hc. unfold v. specialize (Hpvar r c Hr Hc). destruct Hpvar as [S0 S1].
  apply IZR_le in S0. apply IZR_le in S1. rewrite !mult_IZR, <- !INR_IZR_INZ in S1. fold B in S1. fold W in S1.
  assert (L1 : 1 <= INR (L - 1)) by (change 1 with (INR 1); apply le_INR; lia).
  assert (P : 0 < INR L * INR L * INR (L - 1)) by (repeat apply Rmult_lt_0_compat; lra).
  split; [apply Rmult_le_pos; [lra|left; apply Rinv_0_lt_compat; lra]|].
  apply Rmult_le_reg_r with (INR L * INR L * INR (L - 1)); [lra|]. unfold Rdiv.
  rewrite Rmult_assoc, Rinv_l by lra. lra.
Qed.

Lemma var_near r c : (r < h)%nat -> (c < w)%nat -> near (42 / 10 * (u * W)) (var_f r c) (v r c).
Proof.
  intros Hr Hc. pose proof (v_range r c Hr Hc) as A. pose proof (Hpvar r c Hr Hc) as P.
  set (D := INR L * INR L * INR (L - 1)) in *.
  assert (Dz : D = IZR (Z.of_nat L * Z.of_nat L * Z.of_nat (L - 1))).
  { unfold D. rewrite !mult_IZR, <- !INR_IZR_INZ. reflexivity. }
  assert (Dr : (1 <= Z.of_nat L * Z.of_nat L * Z.of_nat (L - 1) <= 1000 * 1000 * 1000)%Z).
  { assert (1 <= Z.of_nat (L - 1) <= 1000)%Z by lia. nia. }
  assert (D1 : 1 <= D) by (rewrite Dz; apply (IZR_le 1); lia).
  assert (FD : fval (fmul (fmul (f_int 1) (fl (L * L)%nat)) (fl (L - 1)%nat)) D).
  { rewrite <- (rn_exact D) by (rewrite Dz; apply binary64_int; lia).
    assert (Lb : (Z.of_nat (L * L) <= 1000 * 1000)%Z) by nia.
    unfold D at 1. apply fmul_val.
    - replace (INR L * INR L) with (INR (L * L)) by apply mult_INR.
      rewrite <- (rn_exact (INR (L * L))) by (rewrite INR_IZR_INZ; apply binary64_int; lia).
      replace (INR (L * L)) with (1 * INR (L * L)) at 1 by ring. apply fmul_val.
      + apply f_int_val_exact. lia.
      + rewrite INR_IZR_INZ. apply f_int_val_exact. lia.
      + rewrite Rmult_1_l, Rabs_pos_eq by apply pos_INR. rewrite INR_IZR_INZ. unfold big. apply IZR_le. lia.
    - rewrite INR_IZR_INZ. apply f_int_val_exact. lia.
    - fold D. rewrite Rabs_pos_eq by lra. rewrite Dz. unfold big. apply IZR_le. lia. }
  set (p := IZR (pvari r c)) in *.
  assert (p0 : 0 <= p) by (apply (IZR_le 0); lia).
  assert (FP : fval (f_int (pvari r c)) (rn p)).
  { apply f_int_val. rewrite Z.abs_eq by lia.
    assert (Bz * Bz <= 2 ^ 32)%Z by (change (2 ^ 32)%Z with (2 ^ 16 * 2 ^ 16)%Z; apply Z.mul_le_mono_nonneg; lia).
    apply Z.le_trans with (2 * (1000 * 1000 * 1000) * 2 ^ 32)%Z; [|apply Z.leb_le; vm_compute; reflexivity].
    eapply Z.le_trans; [apply P|]. apply Z.mul_le_mono_nonneg; nia. }
  assert (ID : 0 < / D <= 1) by (split; [apply Rinv_0_lt_compat; lra|rewrite <- Rinv_1; apply Rinv_le; lra]).
  assert (E1 : Rabs (rn p / D - v r c) <= u * (2 * W) + tiny).
  { unfold v. fold D p. replace (rn p / D - p / D) with ((rn p - p) * / D) by (unfold Rdiv; ring).
    rewrite Rabs_mult, (Rabs_pos_eq (/ D)) by lra.
    pose proof (rn_err p) as E. rewrite (Rabs_pos_eq p) in E by lra. fold u in E.
    apply Rle_trans with ((u * p + tiny) * / D); [apply Rmult_le_compat_r; lra|].
    replace ((u * p + tiny) * / D) with (u * v r c + tiny * / D) by (unfold v; fold D p; unfold Rdiv; ring).
    apply Rplus_le_compat; [apply Rmult_le_compat_l; unfold u; lra|]. unfold u in *. nra. }
  assert (u * 1 <= u * W) by (apply Rmult_le_compat_l; unfold u; lra).
  assert (A1 : Rabs (rn p / D) <= 201 / 100 * W) by (unfold u in *; absd; lra).
  exists (rn (rn p / D)). split.
  - unfold var_f. apply fdiv_val; auto; [lra|]. apply le_big. pose proof (W_top 8 ltac:(lra)). lra.
  - pose proof (rn_abs _ _ A1) as E2. fold u in E2. unfold u in *. absd. lra.
Qed.

(** The items of an image. *)
Definition cells : list (nat * nat) := ravel h w pair.
Lemma cells_in p : In p cells -> (fst p < h)%nat /\ (snd p < w)%nat.
Proof.
  intro H. apply in_ravel in H. destruct H as (r & c & Hr & Hc & <-). simpl. auto.
Qed.
Lemma ravel_cells {A} (F : nat -> nat -> A) : ravel h w F = map (fun p => F (fst p) (snd p)) cells.
Proof.
  unfold cells, ravel. rewrite !flat_map_concat_map, concat_map, map_map. f_equal.
  apply map_ext. intro r. rewrite map_map. reflexivity.
Qed.
Lemma cells_length : length cells = (h * w)%nat.
Proof. apply ravel_length. Qed.

Let N := INR (h * w).
Let Nz : N <= IZR (2 ^ 40).
Proof. unfold N. rewrite INR_IZR_INZ. apply IZR_le. lia. Qed.
Let hw_le : (h <= h * w)%nat /\ (w <= h * w)%nat.
Proof. nia. Qed.
Let chain_le t : (chain t <= dn)%nat -> INR (chain t) <= d.
Proof. intro H. apply le_INR. exact H. Qed.

(** The exact figures. *)
Definition xmean : R := lsumR (map (fun p => a (fst p) (snd p)) cells) / N.
Definition xcol (c : nat) : R := lsumR (map (fun r => a r c) (seq 0 h)) / INR h.
Definition xrow (r : nat) : R := lsumR (map (fun c => a r c) (seq 0 w)) / INR w.
Definition xvar_mean : R := lsumR (map (fun p => v (fst p) (snd p)) cells) / N.
Definition xvar : R := lsumR (map (fun p => (a (fst p) (snd p) - xmean) * (a (fst p) (snd p) - xmean)) cells) / INR (h * w - 1).
Definition xcav : R := / INR w * lsumR (map (fun c => (xcol c - xmean) * (xcol c - xmean)) (seq 0 w)) - xvar_mean / INR (L * h).
Definition xrav : R := / INR h * lsumR (map (fun r => (xrow r - xmean) * (xrow r - xmean)) (seq 0 h)) - xvar_mean / INR (L * w).

Lemma mean_range {A} (l : list A) f X n : (0 < n)%nat -> length l = n -> (forall x, In x l -> 0 <= f x <= X) ->
  0 <= lsumR (map f l) / INR n <= X.
Proof.
  intros N0 <- H. set (n := INR (length l)).
  assert (n1 : 1 <= n) by (unfold n; change 1 with (INR 1); apply le_INR; lia).
  assert (Q : 0 <= lsumR (map f l) <= n * X).
  { unfold n. clear -H. induction l as [|x l IH]; [simpl; lra|]. cbn [map lsumR length]. rewrite S_INR.
    pose proof (H x (or_introl eq_refl)). pose proof (IH (fun y Hy => H y (or_intror Hy))). lra. }
  split; [apply Rmult_le_pos; [lra|left; apply Rinv_0_lt_compat; lra]|].
  apply Rmult_le_reg_r with n; [lra|]. unfold Rdiv. rewrite Rmult_assoc, Rinv_l by lra. lra.
Qed.

(** A mean over at most 2^29 grey values. *)
Lemma grey_near {A} (l : list A) F E t : (0 < length l)%nat -> (length l <= h * w)%nat -> order_of dn (length l) t ->
  (forall x, In x l -> near (101 / 100 * (u * B)) (F x) (E x) /\ 0 <= E x <= B) ->
  near (23 / 10 * (u * B) + 22 / 10 * (B * (u * d))) (fmean t (map F l)) (lsumR (map E l) / INR (length l)).
Proof.
  intros L0 L1 [O1 O2] H. unfold fmean. rewrite map_length.
  eapply near_le; [|apply (items_div l F E B (101 / 100 * (u * B)) t d) with (c := 1); auto].
  - fold u. lra.
  - intros x Hx. apply H. auto.
  - intros x Hx. apply H in Hx. rewrite Rabs_pos_eq; lra.
  - lra.
  - lra.
  - fold u. lra.
  - apply le_INR in L1. fold N in L1. lra.
  - lia.
  - lra.
  - lra.
Qed.

Let em := 23 / 10 * (u * B) + 22 / 10 * (B * (u * d)).

Lemma mean_near : near em (fmean (so_mean o) (ravel h w avg_f)) xmean.
Proof.
  unfold xmean, N. rewrite ravel_cells, <- cells_length. apply grey_near; rewrite ?cells_length; auto; try lia; try apply HO.
  intros p Hp. apply cells_in in Hp. split; [apply avg_near|apply a_range]; apply Hp.
Qed.
Lemma inner_near : near em (fmean (so_var_inner o) (ravel h w avg_f)) xmean.
Proof.
  unfold xmean, N. rewrite ravel_cells, <- cells_length. apply grey_near; rewrite ?cells_length; auto; try lia; try apply HO.
  intros p Hp. apply cells_in in Hp. split; [apply avg_near|apply a_range]; apply Hp.
Qed.
Lemma xmean_range : 0 <= xmean <= B.
Proof.
  unfold xmean, N. apply mean_range; [lia|apply cells_length|]. intros p Hp. apply cells_in in Hp. apply a_range; apply Hp.
Qed.
Lemma col_near c : (c < w)%nat -> near em (fmean (so_col o c) (map (fun r => avg_f r c) (seq 0 h))) (xcol c).
Proof.
  intro Hc. unfold xcol. rewrite <- (seq_length h 0) at 3. apply grey_near; rewrite ?seq_length; auto; try lia; try (apply HO; auto).
  intros r Hr. apply in_seq in Hr. split; [apply avg_near|apply a_range]; lia.
Qed.
Lemma xcol_range c : (c < w)%nat -> 0 <= xcol c <= B.
Proof.
  intro Hc. unfold xcol. apply mean_range; [lia|apply seq_length|]. intros r Hr. apply in_seq in Hr. apply a_range; lia.
Qed.
Lemma row_near r : (r < h)%nat -> near em (fmean (so_row o r) (map (fun c => avg_f r c) (seq 0 w))) (xrow r).
Proof.
  intro Hr. unfold xrow. rewrite <- (seq_length w 0) at 3. apply grey_near; rewrite ?seq_length; auto; try lia; try (apply HO; auto).
  intros c Hc. apply in_seq in Hc. split; [apply avg_near|apply a_range]; lia.
Qed.
Lemma xrow_range r : (r < h)%nat -> 0 <= xrow r <= B.
Proof.
  intro Hr. unfold xrow. apply mean_range; [lia|apply seq_length|]. intros c Hc. apply in_seq in Hc. apply a_range; lia.
Qed.

Let ev := 67 / 10 * (u * W) + 44 / 10 * (W * (u * d)).
Lemma var_mean_near : near ev (fmean (so_var_mean o) (ravel h w var_f)) xvar_mean.
Proof.
  destruct (O_var_mean _ _ _ _ HO) as [O1 O2].
  unfold xvar_mean, N. rewrite ravel_cells. unfold fmean. rewrite map_length, cells_length.
  eapply near_le; [|apply (items_div cells (fun p => var_f (fst p) (snd p)) (fun p => v (fst p) (snd p)) (2 * W) (42 / 10 * (u * W)) (so_var_mean o) d) with (c := 1)];
    rewrite ?cells_length; auto.
  - unfold ev. fold u. lra.
  - intros p Hp. apply cells_in in Hp. apply var_near; apply Hp.
  - intros p Hp. apply cells_in in Hp. pose proof (v_range _ _ (proj1 Hp) (proj2 Hp)). rewrite Rabs_pos_eq; lra.
  - lra.
  - apply topW. split; [lra|apply (IZR_le 2); lia].
  - lra.
  - fold u. lra.
  - lia.
  - lia.
  - lra.
  - lra.
Qed.
Lemma xvar_mean_range : 0 <= xvar_mean <= 2 * W.
Proof.
  unfold xvar_mean, N. apply mean_range; [lia|apply cells_length|]. intros p Hp. apply cells_in in Hp. apply v_range; apply Hp.
Qed.

Lemma sq_range x y : 0 <= x <= B -> 0 <= y <= B -> Rabs (x - y) <= B /\ 0 <= (x - y) * (x - y) <= W.
Proof.
  intros Hx Hy. assert (Q : Rabs (x - y) <= B) by (absd; lra). split; [auto|]. split; [apply Rle_0_sqr|].
  unfold W. absd. nra.
Qed.

Lemma var_near_all :
  near (25 * (u * W) + 14 * (W * (u * d))) (fvar (so_var_inner o) (so_var o) (ravel h w avg_f)) xvar.
Proof.
  destruct (O_var _ _ _ _ HO) as [O1 O2]. pose proof inner_near as IN. pose proof xmean_range as MR.
  unfold fvar, xvar. set (m := fmean (so_var_inner o) (ravel h w avg_f)) in *.
  rewrite ravel_length. rewrite ravel_cells, map_map.
  eapply near_le; [|apply (items_div cells (fun p => fdev2 m (avg_f (fst p) (snd p)))
    (fun p => (a (fst p) (snd p) - xmean) * (a (fst p) (snd p) - xmean)) W
    (11 * (u * W) + 463 / 100 * (W * (u * d))) (so_var o) d) with (c := 2)]; rewrite ?cells_length; auto.
  - fold u. lra.
  - intros p Hp. apply cells_in in Hp. destruct Hp as [Hr Hc].
    pose proof (a_range _ _ Hr Hc) as AR. destruct (sq_range _ _ AR MR) as [Q _].
    eapply near_le; [|apply (near_dev2 _ _ _ _ _ _ B (avg_near _ _ Hr Hc) IN Q)].
    + fold u. unfold em.
      replace ((101 / 100 * (u * B) + (23 / 10 * (u * B) + 22 / 10 * (B * (u * d)))) * B)
        with (331 / 100 * (u * W) + 22 / 10 * (W * (u * d))) by (unfold W; field).
      fold W. lra.
    + unfold em. lra.
    + lra.
    + fold W. pose proof (W_top 1 ltac:(lra)). lra.
  - intros p Hp. apply cells_in in Hp. destruct Hp as [Hr Hc].
    pose proof (a_range _ _ Hr Hc) as AR. destruct (sq_range _ _ AR MR) as [_ Q]. rewrite Rabs_pos_eq; lra.
  - lra.
  - replace W with (1 * W) by ring. apply topW. split; [lra|apply (IZR_le 1); lia].
  - lra.
  - fold u. lra.
  - lia.
  - lia.
  - lra.
  - apply Rle_trans with (INR (2 * (h * w - 1))); [apply le_INR; lia|]. rewrite mult_INR. simpl (INR 2). lra.
Qed.

(** Column and row variances. *)
Lemma line_near k F X t m (M' : nat) : (0 < k)%nat -> (k <= h * w)%nat -> order_of dn k t ->
  (forall i, (i < k)%nat -> near em (F i) (X i) /\ 0 <= X i <= B) -> near em m xmean ->
  (2 <= L * M')%nat -> (Z.of_nat (L * M') < 2 ^ 53)%Z ->
  near (16 * (W * (u * d)) + 48 * (u * W))
    (fsub (fmul (fdiv (f_int 1) (fl k)) (run (map (fdev2 m) (map F (seq 0 k))) t))
       (fdiv (fmean (so_var_mean o) (ravel h w var_f)) (fl (L * M')%nat)))
    (/ INR k * lsumR (map (fun i => (X i - xmean) * (X i - xmean)) (seq 0 k)) - xvar_mean / INR (L * M')).
Proof.
  intros K0 K1 [O1 O2] H MN M2 M3. pose proof xmean_range as MR.
  assert (kr : INR k <= IZR (2 ^ 40)).
  { apply le_INR in K1. fold N in K1. lra. }
  assert (SR : forall i, In i (seq 0 k) -> 0 <= (X i - xmean) * (X i - xmean) <= W).
  { intros i Hi. apply in_seq in Hi. apply sq_range; auto. apply H. lia. }
  assert (S : near (INR k * (14 * (u * W) + 115 / 10 * (W * (u * d))))
    (run (map (fdev2 m) (map F (seq 0 k))) t) (lsumR (map (fun i => (X i - xmean) * (X i - xmean)) (seq 0 k)))).
  { rewrite map_map. rewrite <- (seq_length k 0) at 1.
    eapply near_le; [|apply (items_sum (seq 0 k) (fun i => fdev2 m (F i)) (fun i => (X i - xmean) * (X i - xmean))
      W (14 * (u * W) + 93 / 10 * (W * (u * d))) t d)]; rewrite ?seq_length; auto.
    - apply Rmult_le_compat_l; [apply pos_INR|]. fold u. lra.
    - intros i Hi. apply in_seq in Hi. destruct (H i ltac:(lia)) as [N1 R1].
      destruct (sq_range _ _ R1 MR) as [Q _].
      eapply near_le; [|apply (near_dev2 _ _ _ _ _ _ B N1 MN Q)].
      + fold u. unfold em.
        replace ((23 / 10 * (u * B) + 22 / 10 * (B * (u * d)) + (23 / 10 * (u * B) + 22 / 10 * (B * (u * d)))) * B)
          with (46 / 10 * (u * W) + 44 / 10 * (W * (u * d))) by (unfold W; field).
        fold W. lra.
      + unfold em. lra.
      + lra.
      + fold W. pose proof (W_top 1 ltac:(lra)). lra.
    - intros i Hi. apply SR in Hi. rewrite Rabs_pos_eq; lra.
    - lra.
    - replace W with (1 * W) by ring. apply topW. split; [lra|apply (IZR_le 1); lia].
    - lra.
    - fold u. lra. }
  set (s := lsumR (map (fun i => (X i - xmean) * (X i - xmean)) (seq 0 k))) in *.
  assert (sb : Rabs s <= INR k * W).
  { unfold s. rewrite <- (seq_length k 0) at 2. apply lsumR_bound. intros i Hi. apply SR in Hi. rewrite Rabs_pos_eq; lra. }
  pose proof (near_scaled _ _ _ W k K0 ltac:(lia) S sb ltac:(lra) ltac:(lra)) as P.
  assert (tW : IZR (2 ^ 45) * W <= top).
  { replace W with (1 * W) by ring. apply topW. split; [lra|apply (IZR_le 1); lia]. }
  specialize (P tW). fold u in P.
  pose proof xvar_mean_range as VR.
  pose proof (near_divn _ _ _ (2 * W) (L * M') var_mean_near ltac:(rewrite Rabs_pos_eq; lra)
    ltac:(unfold ev; lra) ltac:(split; [lra|apply W_top; lra]) M2 M3) as V. fold u in V.
  assert (k1 : 1 <= INR k) by (change 1 with (INR 1); apply le_INR; lia).
  assert (Ik : 0 < / INR k) by (apply Rinv_0_lt_compat; lra).
  assert (Pr : 0 <= / INR k * s <= W).
  { rewrite Rmult_comm. unfold s. apply (mean_range (seq 0 k) (fun i => (X i - xmean) * (X i - xmean)) W k); auto. apply seq_length. }
  assert (Vr : 0 <= xvar_mean / INR (L * M') <= W).
  { assert (2 <= INR (L * M')) by (change 2 with (INR 2); apply le_INR; lia).
    assert (0 < / INR (L * M') <= / 2) by (split; [apply Rinv_0_lt_compat; lra|apply Rinv_le; lra]).
    unfold Rdiv. split; [apply Rmult_le_pos; lra|].
    apply Rle_trans with (2 * W * / 2); [apply Rmult_le_compat; lra|lra]. }
  eapply near_le; [|apply (near_sub _ _ _ _ _ _ W P V)].
  - fold u. unfold ev. lra.
  - absd. lra.
  - unfold ev. lra.
  - split; [lra|]. pose proof (W_top 1 ltac:(lra)). lra.
Qed.

Lemma cav_near : near (16 * (W * (u * d)) + 48 * (u * W))
  (fsub (fmul (fdiv (f_int 1) (fl w)) (run (map (fdev2 (fmean (so_mean o) (ravel h w avg_f)))
       (map (fun c => fmean (so_col o c) (map (fun r => avg_f r c) (seq 0 h))) (seq 0 w))) (so_cav o)))
     (fdiv (fmean (so_var_mean o) (ravel h w var_f)) (fl (L * h)%nat))) xcav.
Proof.
  unfold xcav. apply line_near; auto; try apply HO; try lia; try nia.
  - intros c Hc. split; [apply col_near|apply xcol_range]; auto.
  - apply mean_near.
Qed.
Lemma rav_near : near (16 * (W * (u * d)) + 48 * (u * W))
  (fsub (fmul (fdiv (f_int 1) (fl h)) (run (map (fdev2 (fmean (so_mean o) (ravel h w avg_f)))
       (map (fun r => fmean (so_row o r) (map (fun c => avg_f r c) (seq 0 w))) (seq 0 h))) (so_rav o)))
     (fdiv (fmean (so_var_mean o) (ravel h w var_f)) (fl (L * w)%nat))) xrav.
Proof.
  unfold xrav. apply line_near; auto; try apply HO; try lia; try nia.
  - intros r Hr. split; [apply row_near|apply xrow_range]; auto.
  - apply mean_near.
Qed.
End Figures.
