(** Orders of addition, identical images, and a negative variance. *)
From Coq Require Import List Bool Arith ZArith QArith Qabs Qreals Reals Lia Lra Permutation.
From Flocq Require Import Core.
From Verif Require Import Base_Prelude Base_Num Base_Order Base_Sum Base_Float Spec_Num Proofs_Round
  Proofs_Num Proofs_Float Model_Images Model_Loader Model_Data Model_Hist Model_Results Model_Rounded
  Spec_Images Spec_Data Spec_Rounded Proofs_Images Proofs_Data Proofs_Data2 Proofs_Rounded
  Proofs_Rounded2 Proofs_Rounded3 Proofs_Rounded4 Proofs_Results.
Import ListNotations.

(** One after the other. *)
Fixpoint from_left (n : nat) : stree :=
  match n with
  | O => SLeaf 0
  | S k => SNode (from_left k) (SLeaf (S k))
  end.
Definition left_to_right (im : image) : stree := from_left (ih im * iw im - 1).

Lemma from_left_leaves n : leaves (from_left n) = seq 0 (S n).
Proof.
  induction n; [reflexivity|]. cbn [from_left leaves]. rewrite IHn.
  rewrite (seq_S (S n) 0). reflexivity.
Qed.

Lemma left_to_right_sound : sound_order left_to_right.
Proof.
  intros im P. unfold adds_all, left_to_right. rewrite from_left_leaves.
  replace (S (ih im * iw im - 1)) with (ih im * iw im)%nat by lia. reflexivity.
Qed.

Lemma identical_pair order b h w A : sound_order order -> pair_bits b h w A A ->
  exists d, temporal_entry order [A; A] = Ok d /\ within 0 0 (s2_f (h * w) d).
Proof.
  intros O H. destruct (pair_entry order b h w A A O H) as (r & d & E & F & _ & Pv & _ & Dm).
  exists d. split; auto.
  destruct (pair_summary h w A A (pair_bits_ok _ _ _ _ _ H)) as (r' & E' & _ & V & _).
  rewrite E in E'. injection E' as <-. destruct H as (P & L & _).
  rewrite Rminus_eq_0, round_0 in Dm by typeclasses eauto.
  assert (Z0 : ft_pvar d = 0%Z).
  { rewrite Pv, V. rewrite (sumz2_ext h w _ (fun _ _ => 0%Z)) by (intros; ring).
    apply Z.le_antisymm; pose proof (sumz2_bounds h w (fun _ _ => 0%Z) 0 0) as B;
      rewrite Z.mul_0_r in B; apply B; lia. }
  assert (BG : (Rabs 0 <= big)%R) by (rewrite Rabs_R0; unfold big; apply IZR_le; apply Z.pow_nonneg; lia).
  assert (N : (0 < IZR (4 * Z.of_nat (h * w)))%R) by (apply IZR_lt; lia).
  assert (FV : fval (var_f (h * w) d) 0%R).
  { unfold var_f. rewrite Z0.
    assert (K : fval (fmul (f_int 4) (f_int (Z.of_nat (h * w)))) (IZR (4 * Z.of_nat (h * w)))).
    { rewrite <- (rn_exact (IZR (4 * _))) by (apply binary64_int; lia). rewrite mult_IZR.
      apply fmul_val; try (apply f_int_val_exact; lia).
      rewrite <- mult_IZR, <- abs_IZR. unfold big. apply IZR_le.
      apply Z.le_trans with (2 ^ 32)%Z; [lia|]. apply Z.pow_le_mono_r; lia. }
    rewrite <- (round_0 radix2 fexp64 ZnearestE).
    replace 0%R with (0 / IZR (4 * Z.of_nat (h * w)))%R by (unfold Rdiv; ring).
    apply fdiv_val; auto; [apply f_int_val_exact; lia|lra|]. unfold Rdiv. rewrite Rmult_0_l. auto. }
  assert (FH : fval (half_sq_f d) 0%R).
  { unfold half_sq_f. rewrite <- (round_0 radix2 fexp64 ZnearestE). replace 0%R with (0 / 2)%R by lra.
    apply fdiv_val; [|apply half_val|lra|replace (0 / 2)%R with 0%R by lra; auto].
    rewrite <- (round_0 radix2 fexp64 ZnearestE). replace 0%R with (0 * 0)%R by lra.
    apply fmul_val; auto. rewrite Rmult_0_l. auto. }
  destruct (fsub_val _ _ _ _ FV FH) as (v & Ev & Rv); [rewrite Rminus_0_r; auto|].
  exists v. split; auto. rewrite Rminus_0_r, round_0 in Rv by typeclasses eauto.
  apply Rle_Qle. rewrite Q2R_Qabs, Q2R_minus, Rv. replace (Q2R 0) with 0%R by (unfold Q2R; simpl; lra).
  rewrite Rminus_0_r, Rabs_R0. lra.
Qed.

(** Three pixels, the second image one grey value brighter. *)
Definition dim3 : image := mkImg 1 3 (fun _ c => if (c =? 2)%nat then 2 else 1)%Z.
Definition bright3 : image := mkImg 1 3 (fun _ c => if (c =? 2)%nat then 3 else 2)%Z.

Lemma pair3 : pair_bits 8 1 3 dim3 bright3.
Proof.
  repeat (split; [simpl; lia || reflexivity|]).
  repeat (apply Forall_cons || apply Forall_nil); intros r c _ _; cbn [px dim3 bright3];
    destruct (c =? 2)%nat; lia.
Qed.

Lemma negative_variance : exists order A B d v,
  sound_order order /\ pair_bits 8 1 3 A B /\ (pair_variance 1 3 A B == 0)%Q /\
  temporal_entry order [A; B] = Ok d /\ s2_f 3 d = FFin v /\ (v < 0)%Q /\
  forall o, o_sat o = None -> r_s2y (o_t o) = [v] -> fst (index_u_ysat o) = Err IndexError.
Proof.
  exists left_to_right, dim3, bright3. do 2 eexists.
  split; [apply left_to_right_sound|]. split; [apply pair3|]. split; [reflexivity|].
  split; [vm_compute; reflexivity|]. split; [vm_compute; reflexivity|]. split; [reflexivity|].
  intros o Hs Hv. unfold index_u_ysat. rewrite Hs, Hv. reflexivity.
Qed.
