(** The computed spatial figures against the exact ones. *)
From Coq Require Import List Bool Arith ZArith QArith Qabs Qreals Reals Lia Lra Permutation.
From Flocq Require Import Core.
From Verif Require Import Base_Prelude Base_Num Base_Order Base_Sum Base_Float Spec_Num Proofs_Round
  Proofs_Num Proofs_Float Model_Images Model_Loader Model_Data Model_Hist Model_Rounded
  Model_RoundedSpatial Spec_Images Spec_Data Spec_Rounded Spec_RoundedSpatial Proofs_Images Proofs_Hist2
  Proofs_Rounded Proofs_Rounded2 Proofs_Rounded3 Proofs_Rounded4 Proofs_RSpatial Proofs_RSpatial2.
Import ListNotations.
Open Scope R_scope.

Lemma Q2R_qn_INR n : Q2R (qn n) = INR n.
Proof. unfold qn. rewrite Q2R_inject_Z, INR_IZR_INZ. reflexivity. Qed.
Lemma qn_nz n : (0 < n)%nat -> ~ (qn n == 0)%Q.
Proof. intros H E. apply Qeq_eqR in E. rewrite Q2R_qn_INR in E. apply lt_INR in H. simpl in H. unfold Q2R in E. simpl in E. lra. Qed.

Lemma lsumR_snoc l x : lsumR (l ++ [x]) = lsumR l + x.
Proof. rewrite lsumR_app. simpl. lra. Qed.
Lemma Q2R_sumq n f : Q2R (sumq n f) = lsumR (map (fun i => Q2R (f i)) (seq 0 n)).
Proof.
  induction n as [|n IH]; [simpl; unfold Q2R; simpl; lra|].
  cbn [sumq]. rewrite Q2R_plus, IH, seq_S, map_app, lsumR_app. simpl. lra.
Qed.
Lemma Q2R_sumq2 h w f : Q2R (sumq2 h w f) = lsumR (map (fun p => Q2R (f (fst p) (snd p))) (cells h w)).
Proof.
  unfold sumq2, cells, ravel. rewrite Q2R_sumq. generalize (seq 0 h) as l. induction l as [|r l IH]; [reflexivity|].
  cbn [map flat_map lsumR]. rewrite map_app, lsumR_app, IH. f_equal. rewrite Q2R_sumq, map_map. reflexivity.
Qed.

Lemma near_within e (e' : Q) q x : e <= Q2R e' -> near e x (Q2R q) -> within e' q x.
Proof.
  intros H (v & (z & -> & <-) & E). exists z. split; auto. apply Rle_Qle.
  rewrite Q2R_Qabs, Q2R_minus. lra.
Qed.

Lemma lsumR_ext {A} (f g : A -> R) l : (forall x, In x l -> f x = g x) -> lsumR (map f l) = lsumR (map g l).
Proof. intro H. f_equal. apply map_ext_in. exact H. Qed.

Section Glue.
Variables (b : Z) (h w d : nat) (imgs : list image) (o : sum_orders).
Hypothesis HS : stack_bits b h w imgs.
Hypothesis HO : sound_orders d h w o.
Let L := length imgs.

Lemma stack_documented : documented h w imgs.
Proof.
  destruct HS as (H1 & H2 & H3 & H4 & H5 & H6). split; [destruct imgs; [simpl in H1; lia|discriminate]|].
  split; [lia|]. split; auto. eapply Forall_impl; [|exact H3]. cbv beta. intros im Q r c Hr Hc.
  specialize (Q r c Hr Hc). assert (2 ^ b <= 2 ^ 16)%Z by (apply Z.pow_le_mono_r; lia). lia.
Qed.

Lemma pvar_bound ys : Forall (fun y => 0 <= y < 2 ^ b)%Z ys ->
  (0 <= Z.of_nat (length ys) * (Z.of_nat (length ys) * exact_sq ys - exact_sum ys * exact_sum ys)
   <= Z.of_nat (length ys) * (Z.of_nat (length ys) * Z.of_nat (length ys) * (2 ^ b * 2 ^ b)))%Z.
Proof.
  intro H. assert (Bp : (0 < 2 ^ b)%Z) by (apply Z.pow_pos_nonneg; destruct HS as (_ & _ & _ & Q & _); lia).
  pose proof (lagrange ys) as G. pose proof (sq_bound ys (2 ^ b) Bp H) as S.
  assert (N : (0 <= Z.of_nat (length ys))%Z) by lia.
  assert (Z.of_nat (length ys) * exact_sq ys - exact_sum ys * exact_sum ys
          <= Z.of_nat (length ys) * Z.of_nat (length ys) * (2 ^ b * 2 ^ b))%Z.
  { assert (0 <= exact_sum ys * exact_sum ys)%Z by apply Z.square_nonneg.
    assert (exact_sq ys <= Z.of_nat (length ys) * (2 ^ b * 2 ^ b))%Z.
    { eapply Z.le_trans; [apply S|]. apply Z.mul_le_mono_nonneg_l; [lia|]. apply Z.mul_le_mono_nonneg; lia. }
    rewrite <- Z.mul_assoc.
    assert (Z.of_nat (length ys) * exact_sq ys <= Z.of_nat (length ys) * (Z.of_nat (length ys) * (2 ^ b * 2 ^ b)))%Z
      by (apply Z.mul_le_mono_nonneg_l; lia).
    lia. }
  split; [apply Z.mul_nonneg_nonneg; lia|apply Z.mul_le_mono_nonneg_l; lia].
Qed.

Lemma spatial_computed : exists r s f, get_int_imgs imgs = Ok r /\ get_spatial_data h w r = Ok s /\
  get_spatial_data_f o h w r = Ok f /\ computed b d s f.
Proof.
  pose proof HS as (HL & Hs & Hb & Hbb & Hhw & Hn).
  assert (hw : (0 < h)%nat /\ (0 < w)%nat) by nia. destruct hw as (hp & wp).
  destruct (documented_exact h w imgs stack_documented) as (r & E & EL & H1 & H2 & H3 & H4 & X).
  exists r. unfold get_spatial_data, get_spatial_data_f. rewrite EL, H1, H2. fold L in HL |- *.
  destruct (L =? 0)%nat eqn:L0; [apply Nat.eqb_eq in L0; lia|].
  destruct (w =? 0)%nat eqn:W0; [apply Nat.eqb_eq in W0; lia|].
  destruct (h =? 0)%nat eqn:HH0; [apply Nat.eqb_eq in HH0; lia|].
  destruct (L =? 1)%nat eqn:L1; [apply Nat.eqb_eq in L1; lia|].
  destruct (h * w =? 1)%nat eqn:HW1; [apply Nat.eqb_eq in HW1; lia|].
  eexists. eexists. split; [exact E|]. split; [reflexivity|]. split; [reflexivity|].
  unfold computed. cbn [sd_sum sd_L sd_M sd_N sd_avg_mean sd_var_mean sd_avg_var sd_avg_var_cav sd_avg_var_rav omap
    fs_sum fs_L fs_M fs_N fs_avg_mean fs_var_mean fs_avg_var fs_avg_var_cav fs_avg_var_rav].
  do 4 (split; [reflexivity|]).
  set (S := px (ii_sum r)). set (P := px (ii_pvar r)).
  assert (HSum : forall i j, (i < h)%nat -> (j < w)%nat -> (0 <= S i j <= Z.of_nat L * 2 ^ b)%Z).
  { intros i j Hi Hj. destruct (X i j Hi Hj) as (Q & _). unfold S. rewrite Q.
    pose proof (sum_bound _ _ (history_bits b h w imgs i j Hb Hi Hj)) as G. rewrite history_length in G. fold L in G. nia. }
  assert (HP : forall i j, (i < h)%nat -> (j < w)%nat ->
    (0 <= P i j <= 2 * (Z.of_nat L * Z.of_nat L * Z.of_nat (L - 1)) * (2 ^ b * 2 ^ b))%Z).
  { intros i j Hi Hj. destruct (X i j Hi Hj) as (_ & Q). unfold P. rewrite Q.
    pose proof (pvar_bound _ (history_bits b h w imgs i j Hb Hi Hj)) as G. rewrite history_length in G. fold L in G |- *.
    split; [apply G|]. eapply Z.le_trans; [apply G|].
    assert (0 <= 2 ^ b * 2 ^ b)%Z by apply Z.square_nonneg.
    replace (Z.of_nat L * (Z.of_nat L * Z.of_nat L * (2 ^ b * 2 ^ b)))%Z
      with (Z.of_nat L * Z.of_nat L * Z.of_nat L * (2 ^ b * 2 ^ b))%Z by ring.
    apply Z.mul_le_mono_nonneg_r; auto.
    replace (2 * (Z.of_nat L * Z.of_nat L * Z.of_nat (L - 1)))%Z with (Z.of_nat L * Z.of_nat L * (2 * Z.of_nat (L - 1)))%Z by ring.
    apply Z.mul_le_mono_nonneg_l; [nia|lia]. }
  assert (Lnz : ~ (qn L == 0)%Q) by (apply qn_nz; lia).
  assert (Dnz : ~ (qn L * qn L * qn (L - 1) == 0)%Q).
  { intro Q. apply Qmult_integral in Q. destruct Q as [Q|Q].
    - apply Qmult_integral in Q. tauto.
    - revert Q. apply qn_nz. lia. }
  assert (QA : forall i j, Q2R (inject_Z (S i j) / qn L) = IZR (S i j) / INR L).
  { intros i j. rewrite Q2R_div, Q2R_inject_Z, Q2R_qn_INR by auto. reflexivity. }
  assert (QV : forall i j, Q2R (inject_Z (P i j) / (qn L * qn L * qn (L - 1))) = IZR (P i j) / (INR L * INR L * INR (L - 1))).
  { intros i j. rewrite Q2R_div, !Q2R_mult, Q2R_inject_Z, !Q2R_qn_INR by auto. reflexivity. }
  assert (QM : Q2R (sumq2 h w (fun i j => (inject_Z (S i j) / qn L)%Q) / qn (h * w)) = xmean S h w L).
  { rewrite Q2R_div, Q2R_sumq2, Q2R_qn_INR by (apply qn_nz; lia). unfold xmean. f_equal.
    apply lsumR_ext. intros p _. apply QA. }
  assert (QVM : Q2R (sumq2 h w (fun i j => (inject_Z (P i j) / (qn L * qn L * qn (L - 1)))%Q) / qn (h * w)) = xvar_mean P h w L).
  { rewrite Q2R_div, Q2R_sumq2, Q2R_qn_INR by (apply qn_nz; lia). unfold xvar_mean. f_equal.
    apply lsumR_ext. intros p _. apply QV. }
  set (MQ := (sumq2 h w (fun i j => (inject_Z (S i j) / qn L)%Q) / qn (h * w))%Q) in *.
  set (VQ := (sumq2 h w (fun i j => (inject_Z (P i j) / (qn L * qn L * qn (L - 1)))%Q) / qn (h * w))%Q) in *.
  assert (QC : forall c, Q2R (sumq h (fun i => (inject_Z (S i c) / qn L)%Q) / qn h) = xcol S h L c).
  { intro c. rewrite Q2R_div, Q2R_sumq, Q2R_qn_INR by (apply qn_nz; lia). unfold xcol. f_equal.
    apply lsumR_ext. intros i _. apply QA. }
  assert (QR : forall i, Q2R (sumq w (fun c => (inject_Z (S i c) / qn L)%Q) / qn w) = xrow S w L i).
  { intro i. rewrite Q2R_div, Q2R_sumq, Q2R_qn_INR by (apply qn_nz; lia). unfold xrow. f_equal.
    apply lsumR_ext. intros c _. apply QA. }
  assert (QX : Q2R (sumq2 h w (fun i j => (inject_Z (S i j) / qn L - MQ) * (inject_Z (S i j) / qn L - MQ))%Q / qn (h * w - 1))
    = xvar S h w L).
  { rewrite Q2R_div, Q2R_sumq2, Q2R_qn_INR by (apply qn_nz; lia). unfold xvar. f_equal.
    apply lsumR_ext. intros p _. rewrite Q2R_mult, Q2R_minus, QA, QM. reflexivity. }
  assert (QCAV : Q2R (1 / qn w * sumq w (fun c => (sumq h (fun i => inject_Z (S i c) / qn L) / qn h - MQ) *
      (sumq h (fun i => inject_Z (S i c) / qn L) / qn h - MQ)) - VQ / qn (L * h))%Q = xcav S P h w L).
  { assert (Q1 : Q2R 1 = 1) by (unfold Q2R; simpl; lra).
    rewrite Q2R_minus, Q2R_mult, !Q2R_div, Q2R_sumq, !Q2R_qn_INR, QVM, Q1 by (apply qn_nz; nia).
    unfold xcav. f_equal. replace (1 / INR w) with (/ INR w) by (unfold Rdiv; ring). f_equal.
    apply lsumR_ext. intros c _. rewrite Q2R_mult, Q2R_minus, QC, QM. reflexivity. }
  assert (QRAV : Q2R (1 / qn h * sumq h (fun i => (sumq w (fun c => inject_Z (S i c) / qn L) / qn w - MQ) *
      (sumq w (fun c => inject_Z (S i c) / qn L) / qn w - MQ)) - VQ / qn (L * w))%Q = xrav S P h w L).
  { assert (Q1 : Q2R 1 = 1) by (unfold Q2R; simpl; lra).
    rewrite Q2R_minus, Q2R_mult, !Q2R_div, Q2R_sumq, !Q2R_qn_INR, QVM, Q1 by (apply qn_nz; nia).
    unfold xrav. f_equal. replace (1 / INR h) with (/ INR h) by (unfold Rdiv; ring). f_equal.
    apply lsumR_ext. intros c _. rewrite Q2R_mult, Q2R_minus, QR, QM. reflexivity. }
  (* the bounds *)
  pose proof ulp1_pos as U. pose proof (pos_INR d) as D0.
  assert (B1 : 1 <= IZR (2 ^ b)).
  { apply (IZR_le 1). change 1%Z with (2 ^ 0)%Z. apply Z.pow_le_mono_r; lia. }
  assert (MB : Q2R (mean_bound b d) = 4 * ((INR d + 1) * (ulp1 * IZR (2 ^ b)))).
  { unfold mean_bound. rewrite Q2R_div, !Q2R_inject_Z, mult_IZR, plus_IZR, <- INR_IZR_INZ
      by (intro Q; apply Qeq_eqR in Q; rewrite Q2R_inject_Z in Q; unfold Q2R in Q; simpl in Q; lra).
    unfold ulp1. change (2 ^ 53)%Z with (4 * 2 ^ 51)%Z. rewrite mult_IZR. field. apply IZR_neq. lia. }
  assert (SB : Q2R (spatial_bound b d) = 16 * ((INR d + 3) * (ulp1 * (IZR (2 ^ b) * IZR (2 ^ b))))).
  { unfold spatial_bound. rewrite Q2R_div, !Q2R_inject_Z, mult_IZR, plus_IZR, <- INR_IZR_INZ
      by (intro Q; apply Qeq_eqR in Q; rewrite Q2R_inject_Z in Q; unfold Q2R in Q; simpl in Q; lra).
    replace (2 * b)%Z with (b + b)%Z by ring. rewrite Z.pow_add_r, mult_IZR by lia.
    unfold ulp1. change (2 ^ 53)%Z with (16 * 2 ^ 49)%Z. rewrite mult_IZR. field. apply IZR_neq. lia. }
  assert (uB : 0 <= ulp1 * IZR (2 ^ b)) by (apply Rmult_le_pos; lra).
  assert (uW : 0 <= ulp1 * (IZR (2 ^ b) * IZR (2 ^ b))) by (apply Rmult_le_pos; nra).
  set (B := IZR (2 ^ b)) in *.
  assert (udB : 0 <= B * (ulp1 * INR d)) by (apply Rmult_le_pos; [lra|apply Rmult_le_pos; lra]).
  assert (udW : 0 <= B * B * (ulp1 * INR d)) by (apply Rmult_le_pos; [nra|apply Rmult_le_pos; lra]).
  split.
  { eapply near_within; [|rewrite QM; eapply (mean_near S h w L b o d); eauto]. rewrite MB.
    replace (4 * ((INR d + 1) * (ulp1 * B))) with (4 * (B * (ulp1 * INR d)) + 4 * (ulp1 * B)) by ring. fold B. lra. }
  do 4 eexists. do 4 (split; [reflexivity|]).
  assert (SB' : Q2R (spatial_bound b d) = 16 * (B * B * (ulp1 * INR d)) + 48 * (ulp1 * (B * B))) by (rewrite SB; ring).
  split; [|split; [|split]].
  - eapply near_within; [|rewrite QVM; eapply (var_mean_near P h w L b o d); eauto]. rewrite SB'. fold B. lra.
  - eapply near_within; [|rewrite QX; eapply (var_near_all S h w L b o d); eauto]. rewrite SB'. fold B. lra.
  - eapply near_within; [|rewrite QCAV; eapply (cav_near S P h w L b o d); eauto]. rewrite SB'. fold B. lra.
  - eapply near_within; [|rewrite QRAV; eapply (rav_near S P h w L b o d); eauto]. rewrite SB'. fold B. lra.
Qed.
End Glue.
