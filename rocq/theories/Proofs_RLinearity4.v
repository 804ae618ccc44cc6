(** The slope, offset and deviations computed against the exact ones. *)
From Coq Require Import List Bool Arith ZArith QArith Qabs Qreals Reals Lia Lra Psatz Permutation.
From Flocq Require Import Core.
From Verif Require Import Base_Prelude Base_Num Base_Order Base_Sum Base_Float Spec_Num Proofs_Round Proofs_Num Proofs_Float
  Model_Rounded Model_RoundedFigures Model_RoundedLinearity Spec_RoundedLinearity Proofs_Rounded Proofs_RFigures Proofs_Results3
  Proofs_RLinearity2 Proofs_RLinearity3.
Import ListNotations.
Open Scope R_scope.
Set Bullet Behavior "Strict Subproofs".

Lemma moderate_size q : moderate q -> 0 < Q2R q /\ size 30 (Q2R q).
Proof.
  intros (A & B). apply Qle_Rle in A, B. rewrite Q2R_inv in A by discriminate. rewrite Q2R_inject_Z in A, B.
  rewrite <- bpow_Z in A, B by lia. rewrite <- bpow_opp in A. pose proof (bpow_gt_0 radix2 (- (30))).
  unfold size. rewrite Rabs_pos_eq by lra. split; lra.
Qed.
Lemma moderate_nz q : moderate q -> ~ (q == 0)%Q.
Proof. intros M E. destruct (moderate_size q M) as (P & _). apply Qeq_eqR in E. rewrite E, Q2R_0 in P. lra. Qed.
Lemma Q2R_pos q : 0 < Q2R q -> (0 < q)%Q.
Proof. intro H. apply Rlt_Qlt. rewrite Q2R_0. exact H. Qed.

Lemma unit_ulp1 : unit = ulp1.
Proof. symmetry. exact ulp1_bpow. Qed.

Definition fpoint (j : nat) (f : pyfloat * pyfloat) (q : Q * Q) : Prop :=
  fval (fst f) (Q2R (fst q)) /\ exists y, fval (snd f) y /\ rel j y (Q2R (snd q)).

Lemma forall2_len {A B} (R : A -> B -> Prop) l l' : Forall2 R l l' -> length l = length l'.
Proof. induction 1 as [|x y l l' _ _ IH]; [reflexivity|]. cbn [length]. rewrite IH. reflexivity. Qed.

Section Sums.
Variables (j : nat) (PF : list (pyfloat * pyfloat)) (P : list (Q * Q)) (order : nat -> stree).
Hypotheses (J100 : (j <= 100)%nat) (SO : sound_sums order) (HF : Forall2 (fpoint j) PF P) (N200 : (0 < length P <= 200)%nat).
Hypothesis HM : Forall (fun q => moderate (fst q) /\ moderate (snd q)) P.

Lemma term_sum (f : pyfloat * pyfloat -> pyfloat) (g : Q * Q -> Q) k e : (0 <= e <= 500)%Z -> (k <= 500)%nat ->
  (forall u q, fpoint j u q -> moderate (fst q) -> moderate (snd q) -> 0 < Q2R (g q) /\ fnear k e (f u) (Q2R (g q))) ->
  0 < Q2R (lsumq (map g P)) /\ fnear (k + (length P - 1)) (e + 8) (np_sum order (map f PF)) (Q2R (lsumq (map g P))).
Proof.
  intros E K H. assert (LL : length PF = length P) by (eapply forall2_len; eauto).
  rewrite <- (map_length g P). apply np_sum_near; auto; rewrite ?map_length; auto.
  intros i Hi.
  rewrite (nth_indep (map g P) 0%Q (g (0%Q, 0%Q))) by (rewrite map_length; lia).
  rewrite (nth_indep (map f PF) (FFin 0) (f (FFin 0, FFin 0))) by (rewrite map_length; lia).
  rewrite !map_nth.
  assert (X : forall PF P, Forall2 (fpoint j) PF P -> Forall (fun q => moderate (fst q) /\ moderate (snd q)) P ->
    forall i, (i < length P)%nat -> fpoint j (nth i PF (FFin 0, FFin 0)) (nth i P (0%Q, 0%Q)) /\
       moderate (fst (nth i P (0%Q, 0%Q))) /\ moderate (snd (nth i P (0%Q, 0%Q)))).
  { clear. induction 1 as [|u q PF P U HF IH]; intros M i Hi; [cbn in Hi; lia|]. inversion M as [|? ? M1 M2]; subst.
    destruct i as [|i]; cbn [nth]; [tauto|]. apply IH; [exact M2|cbn in Hi; lia]. }
  destruct (X PF P HF HM i Hi) as (A & B & C). destruct (H _ _ A B C) as (D & F). split; [apply Q2R_pos, D|exact F].
Qed.

Local Notation S1 := (lsumq (map (fun p => fst p / snd p)%Q P)).
Local Notation S2 := (lsumq (map (fun p => fst p / (snd p * snd p))%Q P)).
Local Notation S3 := (lsumq (map (fun p => (fst p / snd p) * (fst p / snd p))%Q P)).
Local Notation S4 := (lsumq (map (fun p => 1 / snd p)%Q P)).
Local Notation S5 := (lsumq (map (fun p => 1 / (snd p * snd p))%Q P)).
Local Notation s := (fit_sums order PF (map snd PF)).
Local Notation m := (length P + 2 + 2 * j)%nat.

Lemma Q2R_one : Q2R 1 = 1. Proof. unfold Q2R. simpl. lra. Qed.

Ltac point := intros u q (V1 & y' & V2 & RY) M1 M2; destruct (moderate_size _ M1) as (X0 & XS), (moderate_size _ M2) as (Y0 & YS);
  pose proof (moderate_nz _ M2) as YN; pose proof (finput_near 30 _ _ V1 XS) as FX; assert (FY : fnear j 30 (snd u) (Q2R (snd q))) by (exists y'; split; [exact V2|split; assumption]);
  assert (YYN : ~ (snd q * snd q == 0)%Q) by (let h := fresh in intro h; apply Qmult_integral in h; tauto).

Lemma sum1 : 0 < Q2R S1 /\ fnear m 68 (fs_xy s) (Q2R S1).
Proof.
  destruct (term_sum (fun p => fdiv (fst p) (snd p)) (fun p => fst p / snd p)%Q (S (0 + j)) 60) as (A & r & V & R & S); [lia|lia| |].
  - point. rewrite Q2R_div by exact YN. split; [apply Rdiv_lt_0_compat; assumption|].
    apply (fdiv_near 0 j 30 30); auto; lia.
  - split; [exact A|]. exists r. split; [exact V|]. split; [apply (rel_mono _ m) in R; [exact R|lia]|exact S].
Qed.
Lemma sum2 : 0 < Q2R S2 /\ fnear m 98 (fs_xy2 s) (Q2R S2).
Proof.
  destruct (term_sum (fun p => fdiv (fst p) (fsq (snd p))) (fun p => fst p / (snd p * snd p))%Q (S (0 + S (j + j))) 90) as (A & r & V & R & S); [lia|lia| |].
  - point. rewrite Q2R_div by exact YYN. rewrite Q2R_mult.
    split; [apply Rdiv_lt_0_compat; [|apply Rmult_lt_0_compat]; assumption|].
    apply (fdiv_near 0 (S (j + j)) 30 60); auto; try lia. apply (fmul_near j j 30 30); auto; lia.
  - split; [exact A|]. exists r. split; [exact V|]. split; [apply (rel_mono _ m) in R; [exact R|lia]|exact S].
Qed.
Lemma sum3 : 0 < Q2R S3 /\ fnear m 128 (fs_x2y2 s) (Q2R S3).
Proof.
  destruct (term_sum (fun p => fsq (fdiv (fst p) (snd p))) (fun p => (fst p / snd p) * (fst p / snd p))%Q (S (S (0 + j) + S (0 + j))) 120) as (A & r & V & R & S); [lia|lia| |].
  - point. rewrite Q2R_mult, Q2R_div by exact YN.
    assert (0 < Q2R (fst q) / Q2R (snd q)) by (apply Rdiv_lt_0_compat; assumption).
    split; [apply Rmult_lt_0_compat; assumption|].
    apply (fmul_near (S (0 + j)) (S (0 + j)) 60 60); try lia; apply (fdiv_near 0 j 30 30); auto; lia.
  - split; [exact A|]. exists r. split; [exact V|]. split; [apply (rel_mono _ m) in R; [exact R|lia]|exact S].
Qed.
Lemma sum4 : 0 < Q2R S4 /\ fnear m 38 (fs_y s) (Q2R S4).
Proof.
  destruct (term_sum (fun p => fdiv (f_int 1) (snd p)) (fun p => 1 / snd p)%Q (S (0 + j)) 30) as (A & r & V & R & S); [lia|lia| |].
  - point. rewrite Q2R_div by exact YN. rewrite Q2R_one. split; [apply Rdiv_lt_0_compat; [lra|assumption]|].
    apply (fdiv_near 0 j 0 30); auto using fone_near; lia.
  - split; [exact A|]. exists r. cbn [fit_sums fs_y]. rewrite map_map. split; [exact V|].
    split; [apply (rel_mono _ m) in R; [exact R|lia]|exact S].
Qed.
Lemma sum5 : 0 < Q2R S5 /\ fnear m 68 (fs_y2 s) (Q2R S5).
Proof.
  destruct (term_sum (fun p => fdiv (f_int 1) (fsq (snd p))) (fun p => 1 / (snd p * snd p))%Q (S (0 + S (j + j))) 60) as (A & r & V & R & S); [lia|lia| |].
  - point. rewrite Q2R_div by exact YYN. rewrite Q2R_one, Q2R_mult.
    split; [apply Rdiv_lt_0_compat; [lra|apply Rmult_lt_0_compat; assumption]|].
    apply (fdiv_near 0 (S (j + j)) 0 60); auto using fone_near; try lia. apply (fmul_near j j 30 30); auto; lia.
  - split; [exact A|]. exists r. cbn [fit_sums fs_y2]. rewrite map_map. split; [exact V|].
    split; [apply (rel_mono _ m) in R; [exact R|lia]|exact S].
Qed.
End Sums.
