(** Sums of positive numbers in any order, and the terms of the linearity fit. *)
From Coq Require Import List Bool Arith ZArith QArith Qabs Qreals Reals Lia Lra Permutation.
From Flocq Require Import Core.
From Verif Require Import Base_Prelude Base_Num Base_Order Base_Sum Base_Float Spec_Num Proofs_Round Proofs_Num Proofs_Float
  Model_Rounded Model_RoundedFigures Model_RoundedLinearity Spec_RoundedLinearity Proofs_Rounded Proofs_RFigures Proofs_Emva4.
Import ListNotations.
Open Scope R_scope.
Set Bullet Behavior "Strict Subproofs".

(** A finite float, right up to k roundings; the number it stands for is of size e. *)
Definition fnear (k : nat) (e : Z) (x : pyfloat) (A : R) : Prop := exists r, fval x r /\ near k e r A.

Lemma near_big k e a A : near k e a A -> (k <= 1000)%nat -> (e <= 999)%Z -> Rabs a <= big.
Proof.
  intros (HA & _ & SA) K E. destruct (rel_bounds k a A K HA) as (_ & H). eapply Rle_trans; [exact H|].
  unfold big. rewrite <- bpow_Z by lia. change 2 with (bpow radix2 1) at 1.
  apply Rle_trans with (bpow radix2 1 * bpow radix2 e); [apply Rmult_le_compat_l; [apply bpow_ge_0|exact SA]|].
  rewrite <- bpow_plus. apply bpow_le. lia.
Qed.
Lemma rn_near k e a A : near k e a A -> (k <= 1000)%nat -> (e <= 999)%Z -> near (S k) e (rn a) A.
Proof.
  intros H K E. destruct (fl_near k e a A H K ltac:(lia)) as (v & F & N). unfold fl in F.
  destruct (Rlt_dec _ _); [|discriminate]. injection F as <-. exact N.
Qed.

Lemma fmul_near k l e f x y A B : fnear k e x A -> fnear l f y B -> (k + l <= 1000)%nat -> (e + f <= 999)%Z ->
  fnear (S (k + l)) (e + f) (fmul x y) (A * B).
Proof.
  intros (a & Va & HA & SA) (b & Vb & HB & SB) K E.
  assert (N : near (k + l) (e + f) (a * b) (A * B)) by (split; [apply rel_mul|apply size_mul]; assumption).
  exists (rn (a * b)). split; [apply fmul_val; auto; apply (near_big _ _ _ _ N K E)|apply rn_near; auto].
Qed.
Lemma fdiv_near k l e f x y A B : fnear k e x A -> fnear l f y B -> (k + l <= 1000)%nat -> (e + f <= 999)%Z ->
  fnear (S (k + l)) (e + f) (fdiv x y) (A / B).
Proof.
  intros (a & Va & HA & SA) (b & Vb & HBn) K E. pose proof HBn as (HB & SB).
  assert (N : near (k + l) (e + f) (a / b) (A / B)).
  { split; [apply rel_div; [apply (size_nz _ _ SB)| |]|apply size_div]; assumption. }
  exists (rn (a / b)). split; [|apply rn_near; auto].
  apply fdiv_val; auto; [apply (near_nz _ _ _ _ HBn); lia|apply (near_big _ _ _ _ N K E)].
Qed.
Lemma fone_near : fnear 0 0 (f_int 1) 1.
Proof.
  exists 1. split; [apply (f_int_val_exact 1); cbn; lia|]. split; [apply rel_refl|]. unfold size. rewrite Rabs_R1. cbn. lra.
Qed.
Lemma finput_near e x A : fval x A -> size e A -> fnear 0 e x A.
Proof. intros V S. exists A. split; [exact V|]. split; [apply rel_refl|exact S]. Qed.

(** ** Sums *)
Definition picked (qs : list Q) (t : stree) : list Q := map (fun i => nth i qs 0%Q) (leaves t).

Lemma leaves_some t : (1 <= length (leaves t))%nat.
Proof. induction t; cbn [leaves length]; [lia|rewrite app_length; lia]. Qed.

Lemma Q2R_0 : Q2R 0 = 0.
Proof. unfold Q2R. simpl. lra. Qed.

Lemma sum_size e l : (0 <= e)%Z -> l <> [] -> (length l <= 200)%nat -> Forall (fun q => (0 < q)%Q /\ size e (Q2R q)) l ->
  0 < Q2R (lsumq l) /\ size (e + 8) (Q2R (lsumq l)).
Proof.
  intros E NE L F.
  assert (G : forall l, Forall (fun q => (0 < q)%Q /\ size e (Q2R q)) l ->
    0 <= Q2R (lsumq l) <= INR (length l) * bpow radix2 e).
  { clear. induction 1 as [|q l (P & S) _ IH]; [cbn; rewrite Q2R_0; lra|]. cbn [lsumq length]. rewrite Q2R_plus, S_INR.
    apply Qlt_Rlt in P. rewrite Q2R_0 in P. destruct S as (_ & S). rewrite Rabs_pos_eq in S by lra. lra. }
  destruct l as [|q l]; [congruence|]. pose proof (G _ F) as (_ & U). inversion F as [|? ? (P & S) F' E']. subst.
  destruct (G _ F') as (L0 & _). cbn [lsumq]. cbn [lsumq] in U. rewrite Q2R_plus in *.
  apply Qlt_Rlt in P. rewrite Q2R_0 in P. destruct S as (S1 & S2). rewrite Rabs_pos_eq in S1, S2 by lra.
  split; [lra|]. unfold size. rewrite Rabs_pos_eq by lra. split.
  - apply Rle_trans with (bpow radix2 (- e)); [apply bpow_le; lia|lra].
  - eapply Rle_trans; [exact U|]. rewrite Z.add_comm, bpow_plus. apply Rmult_le_compat_r; [apply bpow_ge_0|].
    apply Rle_trans with (INR 200); [apply le_INR; exact L|]. rewrite INR_IZR_INZ. cbn. lra.
Qed.

Section Sum.
Variables (l : list pyfloat) (qs : list Q) (k : nat) (e : Z).
Hypotheses (E0 : (0 <= e <= 500)%Z) (K0 : (k <= 500)%nat) (L200 : (length qs <= 200)%nat).
Hypothesis H : forall i, (i < length qs)%nat -> (0 < nth i qs 0)%Q /\ fnear k e (nth i l (FFin 0)) (Q2R (nth i qs 0%Q)).

Lemma run_near t : (length (leaves t) <= 200)%nat -> (forall i, In i (leaves t) -> (i < length qs)%nat) ->
  exists r, fval (run l t) r /\ rel (k + (length (leaves t) - 1)) r (Q2R (lsumq (picked qs t))) /\
    0 < Q2R (lsumq (picked qs t)) /\ size (e + 8) (Q2R (lsumq (picked qs t))).
Proof.
  induction t as [i|a IHa b IHb]; intros L I.
  - destruct (H i) as (P & r & V & R & S); [apply I; left; reflexivity|]. exists r. cbn [run].
    split; [exact V|]. unfold picked. cbn [leaves map lsumq length]. rewrite Q2R_plus, Q2R_0, Rplus_0_r.
    replace (k + (1 - 1))%nat with k by lia. split; [exact R|]. apply Qlt_Rlt in P. rewrite Q2R_0 in P. split; [exact P|].
    apply (size_mono e); [lia|exact S].
  - cbn [leaves] in L, I. rewrite app_length in L. pose proof (leaves_some a). pose proof (leaves_some b).
    destruct IHa as (x & Vx & Rx & Px & Sx); [lia|intros; apply I, in_or_app; auto|].
    destruct IHb as (y & Vy & Ry & Py & Sy); [lia|intros; apply I, in_or_app; auto|].
    assert (ES : Q2R (lsumq (picked qs (SNode a b))) = Q2R (lsumq (picked qs a)) + Q2R (lsumq (picked qs b))).
    { unfold picked. cbn [leaves]. rewrite map_app, <- Q2R_plus. apply Qeq_eqR, lsumq_app. }
    pose proof (rel_add _ _ _ _ _ _ Px Py Rx Ry) as RA. rewrite <- ES in RA.
    assert (SZ : size (e + 8) (Q2R (lsumq (picked qs (SNode a b))))).
    { refine (proj2 (sum_size e _ _ _ _ _)); [lia| | |].
      - unfold picked. cbn [leaves]. pose proof (leaves_some a). destruct (leaves a); cbn in *; [lia|discriminate].
      - unfold picked. rewrite map_length. cbn [leaves]. rewrite app_length. exact L.
      - apply Forall_forall. intros q Q. unfold picked in Q. apply in_map_iff in Q. destruct Q as (i & <- & Q).
        destruct (H i) as (P & r & _ & _ & S); [apply I, Q|]. split; assumption. }
    set (m := Nat.max _ _) in RA. assert (M : (m <= k + (length (leaves a) + length (leaves b) - 2))%nat) by (unfold m; lia).
    assert (N : near m (e + 8) (x + y) (Q2R (lsumq (picked qs (SNode a b))))) by (split; assumption).
    exists (rn (x + y)). cbn [run]. split; [apply fadd_val; auto; apply (near_big _ _ _ _ N); lia|].
    destruct (rn_near _ _ _ _ N ltac:(lia) ltac:(lia)) as (RN & _).
    split; [apply (rel_mono (S m)); [cbn [leaves]; rewrite app_length; lia|exact RN]|].
    split; [rewrite ES; lra|exact SZ].
Qed.
End Sum.

Lemma picked_all qs t : adds_all (length qs) t -> (lsumq (picked qs t) == lsumq qs)%Q.
Proof.
  intro A. unfold picked. rewrite (lsumq_perm _ _ (Permutation_map (fun i => nth i qs 0%Q) A)).
  replace (map (fun i => nth i qs 0%Q) (seq 0 (length qs))) with qs; [reflexivity|].
  apply (nth_ext _ _ 0%Q 0%Q); [rewrite map_length, seq_length; reflexivity|].
  intros i Hi. rewrite (nth_indep (map _ _) _ (nth 0 qs 0%Q)) by (rewrite map_length, seq_length; exact Hi).
  rewrite (map_nth (fun i => nth i qs 0%Q)), seq_nth by exact Hi. reflexivity.
Qed.

Lemma np_sum_near order l qs k e : sound_sums order -> length l = length qs -> (0 < length qs <= 200)%nat ->
  (0 <= e <= 500)%Z -> (k <= 500)%nat ->
  (forall i, (i < length qs)%nat -> (0 < nth i qs 0)%Q /\ fnear k e (nth i l (FFin 0)) (Q2R (nth i qs 0%Q))) ->
  0 < Q2R (lsumq qs) /\ fnear (k + (length qs - 1)) (e + 8) (np_sum order l) (Q2R (lsumq qs)).
Proof.
  intros SO LL (L0 & L2) E K H. specialize (SO (length qs) L0).
  assert (LL' : length (leaves (order (length qs))) = length qs) by (rewrite (Permutation_length SO), seq_length; reflexivity).
  destruct (run_near l qs k e E K L2 H (order (length qs))) as (r & V & R & P & S).
  - lia.
  - intros i I. apply (Permutation_in _ SO) in I. apply in_seq in I. lia.
  - pose proof (Qeq_eqR _ _ (picked_all qs _ SO)) as EQ. rewrite EQ in R, P, S. rewrite LL' in R.
    split; [exact P|]. exists r. split; [|split; assumption]. unfold np_sum. rewrite LL. destruct l as [|y l]; [cbn in LL; lia|exact V].
Qed.
