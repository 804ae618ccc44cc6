(** The normal curve returned with a histogram. *)
From Coq Require Import List Bool Arith ZArith QArith Qround Reals Qreals Lra Lia.
From Verif Require Import Base_Prelude Base_Sum Base_Xreal Model_Images Model_Data Model_Results
  Model_Hist Spec_Hist Proofs_Hist.
Import ListNotations.
Open Scope R_scope.

Lemma Q2R_inject z : Q2R (inject_Z z) = IZR z.
Proof. unfold Q2R. simpl. field. Qed.

Lemma Q2R_qn n : Q2R (qn n) = INR n.
Proof. unfold qn. rewrite Q2R_inject, <- INR_IZR_INZ. reflexivity. Qed.

Lemma Q2R_lsumq l : Q2R (lsumq l) = lsumR (map Q2R l).
Proof. induction l; simpl; [unfold Q2R; simpl; field|]. rewrite Q2R_plus, IHl. reflexivity. Qed.

Lemma qn_nz (l : list Z) : l <> [] -> ~ (qn (length l) == 0)%Q.
Proof. intro H. apply qn_neq0. destruct l; [congruence|simpl; lia]. Qed.

Lemma Q2R_zmean l : l <> [] -> Q2R (zmean l) = mean_R l.
Proof.
  intro H. unfold zmean, mean_R. rewrite Q2R_div by (apply qn_nz; auto).
  rewrite Q2R_inject, Q2R_qn. reflexivity.
Qed.

Lemma Q2R_zvar l : l <> [] ->
  Q2R (zvar l) = lsumR (map (fun v => (IZR v - mean_R l) ^ 2) l) / INR (length l).
Proof.
  intro H. unfold zvar. rewrite Q2R_div by (apply qn_nz; auto).
  rewrite Q2R_lsumq, Q2R_qn, map_map. f_equal. f_equal. apply map_ext. intro v.
  rewrite Q2R_mult, Q2R_minus, Q2R_inject, Q2R_zmean by auto. ring.
Qed.

Lemma lsumR_sq_pos (g : Z -> R) l v :
  In v l -> g v <> 0 -> 0 < lsumR (map (fun v => g v ^ 2) l).
Proof.
  assert (G : forall l, 0 <= lsumR (map (fun v => g v ^ 2) l)).
  { induction l0; cbn [map lsumR]; [lra|]. assert (A := pow2_ge_0 (g a)). lra. }
  induction l as [|x l IH]; [intros []|]. intros [->|I] N; cbn [map lsumR].
  - specialize (G l). assert (0 < g v ^ 2); [|lra].
    assert (A := pow2_ge_0 (g v)). assert (g v ^ 2 <> 0) by (apply pow_nonzero; auto). lra.
  - specialize (IH I N). assert (A := pow2_ge_0 (g x)). lra.
Qed.

Lemma zvar_pos l a b : In a l -> In b l -> (a < b)%Z -> 0 < Q2R (zvar l).
Proof.
  intros Ha Hb L. assert (N : l <> []) by (intro E; rewrite E in Ha; destruct Ha).
  rewrite Q2R_zvar by auto. apply Rdiv_lt_0_compat.
  - assert (IZR a < IZR b) by (apply IZR_lt; auto).
    destruct (Req_EM_T (IZR a - mean_R l) 0) as [E|E].
    + apply (lsumR_sq_pos (fun v => IZR v - mean_R l) l b); auto. lra.
    + apply (lsumR_sq_pos (fun v => IZR v - mean_R l) l a); auto.
  - apply lt_0_INR. destruct l; [congruence|simpl; lia].
Qed.

Lemma zvar_const l c : (forall v, In v l -> v = c) -> l <> [] -> (zvar l == 0)%Q.
Proof.
  intros H N. apply eqR_Qeq. rewrite Q2R_zvar by auto.
  assert (S : lsumz l = (Z.of_nat (length l) * c)%Z).
  { clear N. induction l as [|x l IH]; [reflexivity|]. cbn [lsumz length].
    rewrite IH by (intros; apply H; simpl; auto). rewrite (H x) by (simpl; auto). lia. }
  assert (P : INR (length l) <> 0) by (apply not_0_INR; destruct l; [congruence|simpl; lia]).
  assert (M : mean_R l = IZR c).
  { unfold mean_R. rewrite S, mult_IZR, <- INR_IZR_INZ. field. auto. }
  assert (Z0 : lsumR (map (fun v => (IZR v - mean_R l) ^ 2) l) = 0).
  { rewrite M. clear - H. induction l as [|x l IH]; [reflexivity|]. cbn [map lsumR].
    rewrite IH by (intros; apply H; simpl; auto). rewrite (H x) by (simpl; auto). ring. }
  rewrite Z0. unfold Q2R. simpl. field. auto.
Qed.

Lemma model_curve y Qmax :
  y <> [] -> (1 <= Qmax)%Z ->
  exists h lo hi W,
    histogram1288 (plain y) Qmax = Ok h /\ is_min lo y /\ is_max hi y /\ (1 <= W)%Z /\
    length (h_model h) = length (h_bins h) /\
    (lo = hi -> h_model h = [XNan]) /\
    ((lo < hi)%Z ->
     exists rho,
       let n := INR (length (h_bins h)) in
       (n - 1) / n <= rho < 1 /\ rho = IZR (hi - lo) / (n * IZR W) /\
       forall i, (i < length (h_bins h))%nat ->
         nth i (h_model h) XNan =
         XR (rho * (INR (length y) * IZR W * gauss (mean_R y) (std_R y) (Q2R (nth i (h_bins h) 0%Q))))).
Proof.
  intros Hy HQ.
  assert (Hp : plain y <> []) by (destruct y; [congruence|discriminate]).
  assert (Hv : visible (plain y) <> []) by (rewrite visible_plain; auto).
  assert (E := hist_eq (plain y) Qmax Hp HQ Hv). cbv zeta in E.
  rewrite visible_plain, fst_plain in E.
  set (lo := zmin y) in *. set (hi := zmax y) in *.
  assert (Mi : is_min lo y) by (apply zmin_spec; auto).
  assert (Ma : is_max hi y) by (apply zmax_spec; auto).
  assert (Hq := min_le_max _ _ _ Mi Ma).
  set (W := width (hi - lo) Qmax) in *.
  assert (HW : (1 <= W)%Z) by (apply width_pos; lia).
  assert (H0 : (0 <= (hi - lo) / W)%Z) by (apply Z.div_pos; lia).
  eexists; exists lo, hi, W. split; [exact E|]. split; [auto|]. split; [auto|]. split; [auto|].
  cbn [h_bins h_model]. rewrite !map_length, seq_length. split; [reflexivity|].
  split.
  - intro Eq. assert (V : (zvar y == 0)%Q).
    { apply (zvar_const y lo); auto. intros v Hin. destruct Mi as [_ Mi]. destruct Ma as [_ Ma].
      specialize (Mi v Hin). specialize (Ma v Hin). lia. }
    rewrite <- Eq, Z.sub_diag, Zdiv_0_l. cbn [Z.add Z.to_nat Pos.to_nat Pos.iter_op seq map].
    change (Z.to_nat 1) with 1%nat. cbn [seq map]. f_equal. unfold normal_at.
    apply Qeq_bool_iff in V. rewrite V. reflexivity.
  - intro L. set (nb := ((hi - lo) / W + 1)%Z) in *.
    assert (Enb : INR (Z.to_nat nb) = IZR nb).
    { rewrite INR_IZR_INZ, Z2Nat.id by (unfold nb; lia). reflexivity. }
    assert (Pn : 1 <= IZR nb) by (apply IZR_le; unfold nb; lia).
    assert (PW : 1 <= IZR W) by (apply IZR_le; auto).
    exists (IZR (hi - lo) / (IZR nb * IZR W)). cbv zeta. rewrite Enb.
    assert (A := Z.mul_div_le (hi - lo) W ltac:(lia)).
    assert (B := Z.mul_succ_div_gt (hi - lo) W ltac:(lia)). unfold Z.succ in B.
    fold nb in B. assert (A' : (W * (nb - 1) <= hi - lo)%Z) by (unfold nb; lia).
    apply IZR_le in A'. apply IZR_lt in B. rewrite mult_IZR in A', B. rewrite minus_IZR in A'.
    assert (PP : 0 < IZR nb * IZR W) by (apply Rmult_lt_0_compat; lra).
    split; [split|split; [reflexivity|]].
    + apply (Rmult_le_reg_r (IZR nb * IZR W)); auto.
      replace ((IZR nb - 1) / IZR nb * (IZR nb * IZR W)) with (IZR W * (IZR nb - 1)) by (field; lra).
      replace (IZR (hi - lo) / (IZR nb * IZR W) * (IZR nb * IZR W)) with (IZR (hi - lo)) by (field; lra).
      lra.
    + apply (Rmult_lt_reg_r (IZR nb * IZR W)); auto.
      replace (IZR (hi - lo) / (IZR nb * IZR W) * (IZR nb * IZR W)) with (IZR (hi - lo)) by (field; lra).
      lra.
    + intros i Hi. rewrite !nth_map_seq by auto. rewrite Q2R_inject.
      destruct Mi as [Mi1 _]. destruct Ma as [Ma1 _].
      assert (V := zvar_pos y lo hi Mi1 Ma1 L).
      unfold normal_at. destruct (Qeq_bool (zvar y) 0) eqn:Z0.
      { apply Qeq_bool_iff in Z0. rewrite (Qeq_eqR _ _ Z0) in V. unfold Q2R in V. simpl in V. lra. }
      rewrite Q2R_inject, Q2R_zmean by auto.
      assert (S : sqrt (Q2R (zvar y)) = std_R y) by (unfold std_R; rewrite Q2R_zvar by auto; reflexivity).
      rewrite S. assert (PS : 0 < std_R y) by (rewrite <- S; apply sqrt_lt_R0; auto).
      f_equal. unfold gauss.
      replace (- (IZR (hist_bin lo W i) - mean_R y) ^ 2 / (2 * std_R y ^ 2))
        with (- (1 / 2) * (1 / std_R y * (IZR (hist_bin lo W i) - mean_R y)) ^ 2) by (field; lra).
      assert (SP : sqrt (2 * PI) <> 0).
      { assert (P := PI_RGT_0). assert (0 < sqrt (2 * PI)) by (apply sqrt_lt_R0; lra). lra. }
      field. repeat split; lra.
Qed.
