(** Operation points. *)
From Coq Require Import List Bool Arith ZArith QArith Qabs Lia Lqa Reals Qreals.
From Flocq Require Import Core Relative.
From Verif Require Import Base_Prelude Base_Num Base_Order Base_Float Model_Camera Model_Points
  Spec_Num Spec_Dataset Proofs_Round Proofs_Num Proofs_Repr Proofs_Float Proofs_Camera.
Import ListNotations.
Open Scope Q_scope.

(** ** Relative error *)

Lemma rnd64_rel q : (1 # 2000) <= Qabs q -> Qabs q <= inject_Z (2 ^ 60) ->
  exists v, rnd64 q = FFin v /\ Qabs (v - q) <= Qabs q * (1 # 2 ^ 53).
Proof.
  intros A B.
  assert (O : Qabs q < inject_Z (2 ^ 1023)).
  { eapply Qle_lt_trans; [exact B|]. rewrite <- Zlt_Qlt. reflexivity. }
  destruct (rnd64_no_overflow q O) as (v & E). exists v. split; auto.
  apply rnd64_finite in E. apply Rle_Qle. rewrite Q2R_mult, !Q2R_Qabs, Q2R_minus, E.
  apply Qle_Rle in A. rewrite Q2R_Qabs in A.
  eapply Rle_trans; [apply (relative_error_N_FLT radix2 (-1074) 53)|].
  - lia.
  - eapply Rle_trans; [|exact A].
    apply Rle_trans with (bpow radix2 (-11)); [apply bpow_le; lia|].
    change (bpow radix2 (-11)) with (/ IZR 2048)%R. unfold Q2R. simpl. Lra.lra.
  - rewrite Rmult_comm. apply Rmult_le_compat_l; [apply Rabs_pos|].
    replace (bpow radix2 (- (53) + 1)) with (/ IZR 4503599627370496)%R by reflexivity.
    unfold Q2R. cbn [Qnum Qden]. change (Z.pos (2 ^ 53)) with 9007199254740992%Z. Lra.lra.
Qed.

Lemma f_pow10 k : (k <= 15)%nat -> exists t, f_int (10 ^ Z.of_nat k) = FFin t /\ t == inject_Z (10 ^ Z.of_nat k).
Proof.
  intro K. apply f_int_exact. rewrite Z.abs_eq by (apply Z.pow_nonneg; lia).
  apply Z.le_lt_trans with (10 ^ 15)%Z; [apply Z.pow_le_mono_r; lia|reflexivity].
Qed.

Lemma rnd64_Qeq p q : p == q -> rnd64 p = rnd64 q.
Proof.
  intro E. pose proof (rnd64_compat p q E) as C.
  destruct (rnd64 p) as [v|b|] eqn:P, (rnd64 q) as [w|b'|] eqn:R; try discriminate.
  - simpl in C. apply Qeq_bool_eq in C. f_equal.
    apply red_eq; [eapply rnd64_red; eauto|eapply rnd64_red; eauto|exact C].
  - simpl in C. apply Bool.eqb_prop in C. congruence.
Qed.

Lemma pow10_pos k : (0 < 10 ^ Z.of_nat k)%Z.
Proof. apply Z.pow_pos_nonneg; lia. Qed.

Lemma pow10_q_pos k : 0 < inject_Z (10 ^ Z.of_nat k).
Proof. change 0 with (inject_Z 0). rewrite <- Zlt_Qlt. apply pow10_pos. Qed.

(** ** [np.round] *)

Lemma np_round_spec k q : (k <= 15)%nat -> Qabs (q * inject_Z (10 ^ Z.of_nat k)) <= inject_Z (2 ^ 44) ->
  exists z v, np_round k (FFin q) = FFin v /\
    Qabs (inject_Z z - q * inject_Z (10 ^ Z.of_nat k)) <= (1 # 2) + (1 # 512) /\
    rnd64 (inject_Z z / inject_Z (10 ^ Z.of_nat k)) = FFin v.
Proof.
  intros K B. destruct (f_pow10 k K) as (t & Et & Vt).
  assert (B' : Qabs (q * t) <= inject_Z (2 ^ 44)) by (rewrite Vt; exact B).
  destruct (rnd64_small _ B') as (w & Ew & Dw).
  set (z := q_rint w).
  assert (Zn : Qabs (inject_Z z - q * inject_Z (10 ^ Z.of_nat k)) <= (1 # 2) + (1 # 512)).
  { rewrite <- Vt. setoid_replace (inject_Z z - q * t) with ((inject_Z z - w) + (w - q * t)) by ring.
    eapply Qle_trans; [apply Qabs_triangle|]. apply Qplus_le_compat; auto. apply q_rint_near. }
  assert (Bz : Qabs (inject_Z z / inject_Z (10 ^ Z.of_nat k)) < inject_Z (2 ^ 1023)).
  { pose proof (pow10_q_pos k) as P. assert (P1 : 1 <= inject_Z (10 ^ Z.of_nat k)).
    { change 1 with (inject_Z 1). rewrite <- Zle_Qle. pose proof (pow10_pos k). lia. }
    assert (A : Qabs (inject_Z z) <= inject_Z (2 ^ 44) + 1).
    { setoid_replace (inject_Z z) with ((inject_Z z - q * inject_Z (10 ^ Z.of_nat k)) + q * inject_Z (10 ^ Z.of_nat k)) by ring.
      eapply Qle_trans; [apply Qabs_triangle|]. set (X := inject_Z (2 ^ 44)) in *. lra. }
    unfold Qdiv. rewrite Qabs_Qmult. apply Qle_lt_trans with (Qabs (inject_Z z) * 1).
    - rewrite !(Qmult_comm (Qabs (inject_Z z))). apply Qmult_le_compat_r; [|apply Qabs_nonneg].
      rewrite Qabs_pos by (apply Qlt_le_weak, Qinv_lt_0_compat, P).
      apply Qmult_le_l with (inject_Z (10 ^ Z.of_nat k)); auto.
      rewrite Qmult_inv_r by (intro Z0; rewrite Z0 in P; apply (Qlt_irrefl 0 P)). rewrite Qmult_1_r. exact P1.
    - rewrite Qmult_1_r. eapply Qle_lt_trans; [exact A|].
      change 1 with (inject_Z 1). rewrite <- inject_Z_plus, <- Zlt_Qlt. reflexivity. }
  destruct (rnd64_no_overflow _ Bz) as (v & Ev).
  exists z, v. split; [|split; auto].
  unfold np_round. rewrite Et. cbn [fmul]. rewrite Ew. cbn [frint fdiv]. fold z.
  assert (Nt : (Qnum t =? 0)%Z = false).
  { apply Z.eqb_neq. intro N. assert (t == 0) by (destruct t; simpl in N; subst; reflexivity).
    rewrite H in Vt. pose proof (pow10_q_pos k) as P. rewrite <- Vt in P. apply (Qlt_irrefl 0 P). }
  rewrite Nt. rewrite <- Ev. apply rnd64_Qeq. rewrite Vt. reflexivity.
Qed.

(** Printing a rounded number keeps it. *)
Lemma q_rint_close z q : Qabs (q - inject_Z z) < 1 # 2 -> q_rint q = z.
Proof.
  intro H. pose proof (q_rint_near q) as N.
  assert (D : Qabs (inject_Z (q_rint q - z)) < 1).
  { rewrite inject_Z_minus || unfold Z.sub; rewrite ?inject_Z_plus, ?inject_Z_opp.
    setoid_replace (inject_Z (q_rint q) + - inject_Z z) with ((inject_Z (q_rint q) - q) + (q - inject_Z z)) by ring.
    eapply Qle_lt_trans; [apply Qabs_triangle|]. lra. }
  rewrite <- inject_Z_abs in D || idtac.
  assert (E : (Z.abs (q_rint q - z) < 1)%Z).
  { rewrite Zlt_Qlt. eapply Qle_lt_trans; [|exact D].
    apply Qabs_case; intro G; apply Zabs_ind; intro G2; unfold Qle, Qlt in *; simpl in *; lia. }
  lia.
Qed.

Lemma decimal_of_multiple k z v : (k <= 3)%nat -> (Z.abs z < 2 ^ 50)%Z ->
  rnd64 (inject_Z z / inject_Z (10 ^ Z.of_nat k)) = FFin v ->
  rnd64 (decimal k v) = FFin v.
Proof.
  intros K B E. rewrite <- E. apply rnd64_Qeq. unfold decimal.
  set (t := inject_Z (10 ^ Z.of_nat k)) in *.
  assert (Pt : 0 < t) by apply pow10_q_pos.
  assert (Ut : t <= 1000).
  { unfold t. change 1000 with (inject_Z (10 ^ 3)). rewrite <- Zle_Qle. apply Z.pow_le_mono_r; lia. }
  assert (Zt : ~ t == 0) by (intro Z0; rewrite Z0 in Pt; apply (Qlt_irrefl 0 Pt)).
  replace (q_rint (v * t)) with z; [reflexivity|]. symmetry. apply q_rint_close.
  destruct (Z.eq_dec z 0) as [->|Nz].
  - assert (X : rnd64 (inject_Z 0 / t) = FFin 0).
    { rewrite (rnd64_Qeq _ 0); [reflexivity|]. unfold Qdiv. rewrite Qmult_0_l. reflexivity. }
    rewrite X in E. injection E as <-. vm_compute. reflexivity.
  - assert (Az : 1 <= Qabs (inject_Z z)).
    { apply Qabs_case; intro G; unfold Qle in *; simpl in *; lia. }
    assert (Bz : Qabs (inject_Z z) <= inject_Z (2 ^ 50)).
    { apply Qabs_case; intro G; unfold Qle in *; simpl in *; lia. }
    assert (Aq : Qabs (inject_Z z / t) == Qabs (inject_Z z) / t).
    { unfold Qdiv. rewrite Qabs_Qmult, (Qabs_pos (/ t)); [reflexivity|].
      apply Qlt_le_weak, Qinv_lt_0_compat, Pt. }
    assert (Lo : 1 # 2000 <= Qabs (inject_Z z / t)).
    { rewrite Aq. apply Qle_shift_div_l; auto. apply Qle_trans with ((1 # 2000) * 1000); [|lra].
      apply Qmult_le_l; [reflexivity|exact Ut]. }
    assert (Hi : Qabs (inject_Z z / t) <= inject_Z (2 ^ 60)).
    { rewrite Aq. apply Qle_shift_div_r; auto. eapply Qle_trans; [exact Bz|].
      assert (1 <= t). { unfold t. change 1 with (inject_Z 1). rewrite <- Zle_Qle. pose proof (pow10_pos k). lia. }
      apply Qle_trans with (inject_Z (2 ^ 60) * 1); [vm_compute; discriminate|].
      apply Qmult_le_l; [reflexivity|auto]. }
    destruct (rnd64_rel _ Lo Hi) as (w & Ew & Dw). rewrite E in Ew. injection Ew as <-.
    rewrite Aq in Dw.
    assert (S1 : (v * t - inject_Z z) == (v - inject_Z z / t) * t) by (field; auto).
    rewrite S1, Qabs_Qmult, (Qabs_pos t) by (apply Qlt_le_weak; auto).
    apply Qle_lt_trans with (Qabs (inject_Z z) / t * (1 # 2 ^ 53) * t).
    + apply Qmult_le_compat_r; [exact Dw|apply Qlt_le_weak; auto].
    + setoid_replace (Qabs (inject_Z z) / t * (1 # 2 ^ 53) * t) with (Qabs (inject_Z z) * (1 # 2 ^ 53)) by (field; auto).
      apply Qle_lt_trans with (inject_Z (2 ^ 50) * (1 # 2 ^ 53)); [|reflexivity].
      apply Qmult_le_compat_r; [exact Bz|discriminate].
Qed.

Lemma rounded_prints k q v : (k <= 3)%nat -> Qabs (q * inject_Z (10 ^ Z.of_nat k)) <= inject_Z (2 ^ 44) ->
  np_round k (FFin q) = FFin v -> as_printed k (FFin v) = FFin v.
Proof.
  intros K B E. destruct (np_round_spec k q ltac:(lia) B) as (z & w & Ew & Dz & R).
  rewrite E in Ew. injection Ew as <-. simpl. apply (decimal_of_multiple k z); auto.
  assert (A : Qabs (inject_Z z) <= inject_Z (2 ^ 44) + 1).
  { setoid_replace (inject_Z z) with ((inject_Z z - q * inject_Z (10 ^ Z.of_nat k)) + q * inject_Z (10 ^ Z.of_nat k)) by ring.
    eapply Qle_trans; [apply Qabs_triangle|]. set (X := inject_Z (2 ^ 44)) in *. lra. }
  change 1 with (inject_Z 1) in A. rewrite <- inject_Z_plus in A.
  assert (C : (Z.abs z <= 2 ^ 44 + 1)%Z).
  { rewrite Zle_Qle. eapply Qle_trans; [|exact A].
    apply Qabs_case; intro G; unfold Qle in *; simpl in *; lia. }
  assert (2 ^ 44 + 1 < 2 ^ 50)%Z by reflexivity. lia.
Qed.
