(** From a pair of images to its rounded mean and variance. *)
From Coq Require Import List Bool Arith ZArith QArith Qabs Qreals Reals Lia Lra Permutation.
From Flocq Require Import Core Relative.
From Verif Require Import Base_Prelude Base_Num Base_Order Base_Sum Base_Float Spec_Num Proofs_Round
  Proofs_Num Proofs_Float Model_Images Model_Loader Model_Data Model_Hist Model_Rounded Spec_Images
  Spec_Data Spec_Rounded Proofs_Images Proofs_Hist2 Proofs_Data Proofs_Data2 Proofs_Rounded
  Proofs_Rounded2.
Import ListNotations.
Open Scope R_scope.

Lemma pair_bits_ok b h w A B : pair_bits b h w A B -> pair_ok h w A B.
Proof.
  intros (P & L & A1 & A2 & B1 & B2 & Hb & K). repeat (split; auto).
  eapply Forall_impl; [|exact K]. intros im H r c Hr Hc. specialize (H r c Hr Hc).
  assert (2 ^ b <= 2 ^ 16)%Z by (apply Z.pow_le_mono_r; lia). lia.
Qed.

Lemma np_mean_wrap t im h w : ih im = h -> iw im = w -> (0 < h * w)%nat ->
  (Z.of_nat (h * w) <= 2 ^ 29)%Z ->
  (forall r c, (r < h)%nat -> (c < w)%nat -> (0 <= px im r c < 2 ^ 16)%Z) ->
  adds_all (h * w) t ->
  fval (np_mean t (mkImg (ih im) (iw im) (fun r c => wrap64 (px im r c))))
       (rn (IZR (sumz2 h w (px im)) / IZR (Z.of_nat (h * w)))).
Proof.
  intros <- <- P L B A.
  assert (E : forall r c, (r < ih im)%nat -> (c < iw im)%nat -> wrap64 (px im r c) = px im r c).
  { intros r c Hr Hc. apply wrap64_id. specialize (B r c Hr Hc). lia. }
  rewrite <- (sumz2_ext (ih im) (iw im) (fun r c => wrap64 (px im r c)) (px im) E).
  apply (mean_val t (mkImg (ih im) (iw im) (fun r c => wrap64 (px im r c)))); auto.
  cbn [px ih iw]. intros r c Hr Hc. rewrite E; auto.
Qed.

Lemma Q2R_qn n : Q2R (qn n) = IZR (Z.of_nat n).
Proof. apply Q2R_inject_Z. Qed.

Lemma grey_mean_R h w A : ih A = h -> iw A = w -> (0 < h * w)%nat ->
  Q2R (grey_mean A) = IZR (sumz2 h w (px A)) / IZR (Z.of_nat (h * w)).
Proof.
  intros H1 H2 P. rewrite (Qeq_eqR _ _ (grey_mean_sum h w A H1 H2)).
  rewrite Q2R_div by (apply qn_neq0; auto). rewrite Q2R_qn. f_equal.
  rewrite (Qeq_eqR _ _ (sumq2_inject h w (px A))). apply Q2R_inject_Z.
Qed.

Lemma grey_mean_bound h w A b : ih A = h -> iw A = w -> (0 < h * w)%nat ->
  (forall r c, (r < h)%nat -> (c < w)%nat -> (0 <= px A r c < 2 ^ b)%Z) ->
  0 <= Q2R (grey_mean A) <= IZR (2 ^ b).
Proof.
  intros H1 H2 P B. rewrite (grey_mean_R h w A H1 H2 P).
  assert (S : (0 <= sumz2 h w (px A) <= Z.of_nat (h * w) * 2 ^ b)%Z).
  { rewrite <- (Z.mul_0_r (Z.of_nat (h * w))) at 1. apply sumz2_bounds.
    intros r c Hr Hc. specialize (B r c Hr Hc). lia. }
  assert (N : 0 < IZR (Z.of_nat (h * w))) by (apply IZR_lt; lia).
  assert (I : 0 < / IZR (Z.of_nat (h * w))) by (apply Rinv_0_lt_compat; auto).
  destruct S as (S1 & S2). apply IZR_le in S1, S2. rewrite mult_IZR in S2. split.
  - apply Rmult_le_pos; lra.
  - apply Rmult_le_reg_r with (IZR (Z.of_nat (h * w))); auto.
    unfold Rdiv. rewrite Rmult_assoc, Rinv_l by lra. lra.
Qed.

Lemma big_M b k : (0 <= b <= 16)%Z -> 0 <= k <= 8 -> k * (IZR (2 ^ b) * IZR (2 ^ b)) <= big.
Proof.
  intros Hb Hk. assert (1 <= IZR (2 ^ b) <= IZR (2 ^ 16)).
  { split; apply IZR_le; [|apply Z.pow_le_mono_r; lia].
    change 1%Z with (2 ^ 0)%Z. apply Z.pow_le_mono_r; lia. }
  apply Rle_trans with (8 * (IZR (2 ^ 16) * IZR (2 ^ 16))).
  - apply Rmult_le_compat; try nra.
  - unfold big. rewrite <- !mult_IZR. apply IZR_le. rewrite <- Z.pow_add_r by lia.
    change 8%Z with (2 ^ 3)%Z. rewrite <- Z.pow_add_r by lia. apply Z.pow_le_mono_r; lia.
Qed.

Lemma pair_entry order b h w A B : sound_order order -> pair_bits b h w A B ->
  exists r d, get_int_imgs [A; B] = Ok r /\ temporal_entry order [A; B] = Ok d /\
    ft_sum d = t_sum (temporal_summary r) /\ ft_pvar d = t_pvar (temporal_summary r) /\
    (0 <= ft_sum d <= Z.of_nat (h * w) * 2 ^ 17)%Z /\
    fval (ft_dmean d) (rn (rn (Q2R (grey_mean B)) - rn (Q2R (grey_mean A)))).
Proof.
  intros O H. pose proof (pair_bits_ok b h w A B H) as H0.
  destruct (pair_summary h w A B H0) as (r & E & S & V & _).
  unfold temporal_entry. rewrite E. cbn [bind].
  exists r. eexists. split; auto. split; [reflexivity|]. cbn [ft_sum ft_pvar ft_dmean].
  split; [reflexivity|]. split; [reflexivity|].
  destruct H as (P & L & A1 & A2 & B1 & B2 & Hb & K). destruct H0 as (_ & _ & _ & _ & _ & _ & K').
  inversion K as [|? ? KA K2]; subst x l. inversion K2 as [|? ? KB _]; subst x l.
  inversion K' as [|? ? KA' K2']; subst x l. inversion K2' as [|? ? KB' _]; subst x l.
  change (img_sum (ii_sum r)) with (t_sum (temporal_summary r)). split.
  { rewrite S. rewrite <- (Z.mul_0_r (Z.of_nat (h * w))) at 1. apply sumz2_bounds.
    intros i j Hi Hj. specialize (KA' i j Hi Hj). specialize (KB' i j Hi Hj). lia. }
  cbn [dmean_f].
  assert (GA := grey_mean_bound h w A b A1 A2 P KA). assert (GB := grey_mean_bound h w B b B1 B2 P KB).
  assert (MA : fval (np_mean (order (mkImg (ih A) (iw A) (fun r c => wrap64 (px A r c))))
                       (mkImg (ih A) (iw A) (fun r c => wrap64 (px A r c)))) (rn (Q2R (grey_mean A)))).
  { rewrite (grey_mean_R h w A A1 A2 P). apply np_mean_wrap; auto.
    pose proof (O (mkImg (ih A) (iw A) (fun r c => wrap64 (px A r c)))) as Q. cbn [ih iw] in Q.
    rewrite A1, A2 in *. exact (Q P). }
  assert (MB : fval (np_mean (order (mkImg (ih B) (iw B) (fun r c => wrap64 (px B r c))))
                       (mkImg (ih B) (iw B) (fun r c => wrap64 (px B r c)))) (rn (Q2R (grey_mean B)))).
  { rewrite (grey_mean_R h w B B1 B2 P). apply np_mean_wrap; auto.
    pose proof (O (mkImg (ih B) (iw B) (fun r c => wrap64 (px B r c)))) as Q. cbn [ih iw] in Q.
    rewrite B1, B2 in *. exact (Q P). }
  assert (M1 : 1 <= IZR (2 ^ b)).
  { apply IZR_le. change 1%Z with (2 ^ 0)%Z at 1. apply Z.pow_le_mono_r; lia. }
  destruct (s2_error (IZR (2 ^ b)) 0 1 (Q2R (grey_mean A)) (Q2R (grey_mean B)) M1
              ltac:(lra) ltac:(nra) GA GB) as (D1 & _ & _ & _ & _ & D2 & _).
  assert (BG := big_M b 4 Hb ltac:(lra)). assert (LM : IZR (2 ^ b) <= IZR (2 ^ b) * IZR (2 ^ b)) by nra.
  set (D := rn (rn (Q2R (grey_mean B)) - rn (Q2R (grey_mean A)))) in *.
  replace D with (rn (0 + D)).
  - apply fadd_val.
    + exists 0%Q. split; auto. unfold Q2R. simpl. lra.
    + apply fsub_val; auto. eapply Rle_trans; [exact D2|]. lra.
    + rewrite Rplus_0_l. eapply Rle_trans; [exact D1|]. lra.
  - rewrite Rplus_0_l. apply rn_exact. apply binary64_rn.
Qed.

(** The mean is the exact one, correctly rounded. *)
Lemma mean_rounded order b h w A B : sound_order order -> pair_bits b h w A B ->
  exists d, temporal_entry order [A; B] = Ok d /\
            reads_as (stack_mean h w [A; B]) (mean_f (h * w) d).
Proof.
  intros O H. destruct (pair_entry order b h w A B O H) as (r & d & E & F & S & _ & Bs & _).
  exists d. split; auto. pose proof (pair_bits_ok b h w A B H) as H0.
  destruct (pair_estimators h w A B H0) as (r' & E' & M & _). rewrite E in E'. injection E' as <-.
  destruct H as (P & L & _). unfold mean_f.
  destruct (f_int_exact (ft_sum d)) as (vs & -> & Es); [lia|].
  destruct (f_int_exact (Z.of_nat (h * w))) as (vn & Evn & En); [lia|].
  destruct (f_int_exact 2) as (v2 & Ev2 & E2); [lia|]. rewrite Evn, Ev2. cbn [fmul].
  assert (Ex : (v2 * vn == inject_Z (2 * Z.of_nat (h * w)))%Q) by (rewrite E2, En, inject_Z_mult; reflexivity).
  destruct (rnd64_exact (v2 * vn)) as (vp & -> & Ep).
  - rewrite (Qeq_eqR _ _ Ex), Q2R_inject_Z. apply binary64_int. lia.
  - rewrite (Qeq_eqR _ _ Ex), Q2R_inject_Z, <- abs_IZR. eapply Rlt_trans; [|apply bpow_1024].
    apply IZR_lt. lia.
  - unfold fdiv. rewrite Ex in Ep.
    assert (NZ : ~ (vp == 0)%Q).
    { rewrite Ep. intro Z0. unfold Qeq, inject_Z in Z0. cbn [Qnum Qden] in Z0. lia. }
    assert ((Qnum vp =? 0)%Z = false) as ->.
    { apply Z.eqb_neq. intro Z0. apply NZ. unfold Qeq. rewrite Z0. simpl. lia. }
    apply rnd64_reads. rewrite <- M. unfold td_mean. rewrite <- S, Es, Ep, inject_Z_mult. reflexivity.
Qed.

Lemma half_val : fval (f_int 2) 2.
Proof. apply f_int_val_exact. lia. Qed.

Lemma variance_rounded order b h w A B : sound_order order -> pair_bits b h w A B ->
  exists d, temporal_entry order [A; B] = Ok d /\
            within (variance_error b) (pair_variance h w A B) (s2_f (h * w) d).
Proof.
  intros O H. destruct (pair_entry order b h w A B O H) as (r & d & E & F & _ & Pv & _ & Dm).
  exists d. split; auto. pose proof (pair_bits_ok b h w A B H) as H0.
  destruct (pair_summary h w A B H0) as (r' & E' & _ & V & _). rewrite E in E'. injection E' as <-.
  destruct (pair_estimators h w A B H0) as (r' & E' & _ & S2). rewrite E in E'. injection E' as <-.
  destruct H as (P & L & A1 & A2 & B1 & B2 & Hb & K).
  inversion K as [|? ? KA K2]; subst x l. inversion K2 as [|? ? KB _]; subst x l.
  assert (GA := grey_mean_bound h w A b A1 A2 P KA). assert (GB := grey_mean_bound h w B b B1 B2 P KB).
  set (M := IZR (2 ^ b)) in *.
  assert (M1 : 1 <= M).
  { apply IZR_le. change 1%Z with (2 ^ 0)%Z at 1. apply Z.pow_le_mono_r; lia. }
  set (n := Z.of_nat (h * w)) in *. assert (N1 : (1 <= n)%Z) by lia.
  assert (VB : (0 <= ft_pvar d <= n * (2 * (2 ^ b * 2 ^ b)))%Z).
  { rewrite Pv, V. rewrite <- (Z.mul_0_r n) at 1. apply sumz2_bounds.
    intros i j Hi Hj. specialize (KA i j Hi Hj). specialize (KB i j Hi Hj).
    set (x := px A i j) in *. set (y := px B i j) in *. pose proof (Z.square_nonneg (x - y)). split; [lia|].
    assert (- 2 ^ b <= x - y <= 2 ^ b)%Z by lia. nia. }
  assert (VR : 0 <= IZR (ft_pvar d) <= IZR (4 * n) * (M * M / 2)).
  { destruct VB as (V1 & V2). apply IZR_le in V1, V2. rewrite !mult_IZR in V2. fold M in V2.
    rewrite mult_IZR. lra. }
  assert (N4 : 1 <= IZR (4 * n)) by (apply IZR_le; lia).
  destruct (s2_error M (IZR (ft_pvar d)) (IZR (4 * n)) _ _ M1 N4 VR GA GB)
    as (D1 & X1 & H1 & Q1 & Q2 & _ & FIN).
  set (D := rn (rn (Q2R (grey_mean B)) - rn (Q2R (grey_mean A)))) in *.
  assert (BG := big_M b 8 Hb ltac:(lra)). fold M in BG.
  assert (MM : M <= M * M) by nra. assert (0 <= M * M) by nra.
  assert (FV : fval (var_f (h * w) d) (rn (rn (IZR (ft_pvar d)) / IZR (4 * n)))).
  { unfold var_f. fold n. apply fdiv_val.
    - apply f_int_val. rewrite Z.abs_eq by lia.
      assert (2 ^ b <= 2 ^ 16)%Z by (apply Z.pow_le_mono_r; lia).
      assert (0 < 2 ^ b)%Z by (apply Z.pow_pos_nonneg; lia).
      apply Z.le_trans with (2 ^ 29 * (2 * (2 ^ 16 * 2 ^ 16)))%Z; [|vm_compute; discriminate].
      apply Z.le_trans with (n * (2 * (2 ^ b * 2 ^ b)))%Z; [lia|]. apply Z.mul_le_mono_nonneg; nia.
    - rewrite mult_IZR. rewrite <- (rn_exact (4 * IZR n)).
      + apply fmul_val; try (apply f_int_val_exact; lia). rewrite <- mult_IZR, <- abs_IZR.
        unfold big. apply IZR_le. apply Z.le_trans with (2 ^ 32)%Z; [lia|]. apply Z.pow_le_mono_r; lia.
      + rewrite <- mult_IZR. apply binary64_int. lia.
    - lra.
    - eapply Rle_trans; [exact Q1|]. lra. }
  assert (FH : fval (half_sq_f d) (rn (rn (D * D) / 2))).
  { unfold half_sq_f. apply fdiv_val; [|apply half_val|lra|].
    - apply fmul_val; auto. rewrite Rabs_mult.
      apply Rle_trans with (2 * M * (2 * M)); [|lra].
      apply Rmult_le_compat; auto; apply Rabs_pos.
    - unfold Rdiv. rewrite Rabs_mult, (Rabs_pos_eq (/ 2)) by lra. lra. }
  destruct (fsub_val _ _ _ _ FV FH) as (v & Ev & Rv).
  { eapply Rle_trans; [apply Rabs_triang|]. rewrite Rabs_Ropp. lra. }
  exists v. split; [exact Ev|]. apply Rle_Qle. rewrite Q2R_Qabs, Q2R_minus, Rv.
  pose proof (pair_summary h w A B H0) as (r' & E' & _ & _ & Dq). rewrite E in E'. injection E' as <-.
  rewrite <- (Qeq_eqR _ _ S2). unfold td_s2, td_var, td_dmean. rewrite <- Pv.
  assert (EV : Q2R (inject_Z (ft_pvar d) / (4 * qn (h * w))) = IZR (ft_pvar d) / IZR (4 * n)).
  { rewrite Q2R_div, Q2R_mult, Q2R_inject_Z, Q2R_qn.
    - fold n. rewrite mult_IZR. f_equal. f_equal. unfold Q2R. simpl. lra.
    - intro Z0. apply (qn_neq0 _ P). apply Qmult_integral in Z0. destruct Z0 as [Z0|Z0]; auto.
      discriminate. }
  assert (ED : Q2R (t_dmean (temporal_summary r) * t_dmean (temporal_summary r) / 2)
               = (Q2R (grey_mean B) - Q2R (grey_mean A)) * (Q2R (grey_mean B) - Q2R (grey_mean A)) / 2).
  { rewrite Q2R_div, Q2R_mult by discriminate. rewrite (Qeq_eqR _ _ Dq), Q2R_minus.
    f_equal. unfold Q2R at 1. simpl. lra. }
  rewrite Q2R_minus, EV, ED.
  eapply Rle_trans; [exact FIN|]. apply Req_le.
  unfold variance_error. rewrite Q2R_div, !Q2R_inject_Z.
  - replace (2 * b)%Z with (b + b)%Z by lia. rewrite Z.pow_add_r, mult_IZR by lia. fold M.
    unfold ulp1. replace (IZR (2 ^ 53)) with (8 * IZR (2 ^ 50)) by (rewrite <- mult_IZR; reflexivity).
    field. apply IZR_neq. lia.
  - discriminate.
Qed.
