(** Rounding errors of float64 arithmetic, and of sums in any order. *)
From Coq Require Import List Bool Arith ZArith QArith Qabs Qreals Reals Lia Lra Permutation.
From Flocq Require Import Core Relative.
From Verif Require Import Base_Prelude Base_Num Base_Order Base_Sum Base_Float Spec_Num Proofs_Round
  Proofs_Num Proofs_Float Model_Images Model_Loader Model_Data Model_Hist Model_Rounded Spec_Images
  Proofs_Images Proofs_Hist2.
Import ListNotations.
Open Scope Z_scope.

(** A finite float of value [r]. *)
Definition fval (x : pyfloat) (r : R) : Prop := exists q, x = FFin q /\ Q2R q = r.

Definition big : R := IZR (2 ^ 1000).
Definition ulp1 : R := / IZR (2 ^ 53).
Definition tiny : R := / IZR (2 ^ 300).

Lemma ulp1_bpow : ulp1 = bpow radix2 (-53).
Proof. unfold ulp1. change (-53) with (- (53)). rewrite bpow_opp, bpow_Z by lia. reflexivity. Qed.

Lemma rn_err x : (Rabs (rn x - x) <= ulp1 * Rabs x + tiny)%R.
Proof.
  destruct (error_N_FLT radix2 (-1074) 53 ltac:(lia) (fun z => negb (Z.even z)) x)
    as (e & n & He & Hn & _ & E).
  fold fexp64 in E. change (round radix2 fexp64 ZnearestE x = (x * (1 + e) + n)%R) in E. rewrite E.
  replace (x * (1 + e) + n - x)%R with (e * x + n)%R by ring.
  eapply Rle_trans; [apply Rabs_triang|]. rewrite Rabs_mult. apply Rplus_le_compat.
  - apply Rmult_le_compat_r; [apply Rabs_pos|]. rewrite ulp1_bpow.
    eapply Rle_trans; [exact He|]. change (- (53) + 1) with (1 + -53). rewrite bpow_plus.
    change (bpow radix2 1) with 2%R. pose proof (bpow_gt_0 radix2 (-53)). lra.
  - eapply Rle_trans; [exact Hn|]. unfold tiny.
    assert (P : (bpow radix2 (-1074) <= bpow radix2 (- (300)))%R) by (apply bpow_le; lia).
    rewrite (bpow_opp radix2 300), (bpow_Z 300) in P by lia.
    pose proof (bpow_gt_0 radix2 (-1074)). lra.
Qed.

Lemma big_below : (big * 2 <= bpow radix2 1023)%R.
Proof.
  unfold big. rewrite <- mult_IZR, bpow_Z by lia. apply IZR_le.
  rewrite Z.mul_comm. change (2 * 2 ^ 1000) with (2 ^ 1 * 2 ^ 1000).
  rewrite <- Z.pow_add_r by lia. apply Z.pow_le_mono_r; lia.
Qed.

Lemma rnd64_val q r : Q2R q = r -> (Rabs r <= big)%R -> fval (rnd64 q) (rn r).
Proof.
  intros E B. destruct (rnd64_bound q) as (d & D & _).
  - apply Rle_Qle. rewrite Q2R_Qabs, E, Q2R_inject_Z, <- bpow_Z by lia.
    pose proof big_below. pose proof (Rabs_pos r). lra.
  - exists d. split; auto. rewrite <- E. apply rnd64_finite. auto.
Qed.

Lemma fadd_val a b x y : fval a x -> fval b y -> (Rabs (x + y) <= big)%R ->
  fval (fadd a b) (rn (x + y)).
Proof.
  intros (p & -> & <-) (q & -> & <-) B. simpl. apply rnd64_val; auto. apply Q2R_plus.
Qed.

Lemma fsub_val a b x y : fval a x -> fval b y -> (Rabs (x - y) <= big)%R ->
  fval (fsub a b) (rn (x - y)).
Proof.
  intros (p & -> & <-) (q & -> & <-) B. unfold fsub. simpl. apply rnd64_val; auto.
  rewrite Q2R_plus, Q2R_opp. reflexivity.
Qed.

Lemma fmul_val a b x y : fval a x -> fval b y -> (Rabs (x * y) <= big)%R ->
  fval (fmul a b) (rn (x * y)).
Proof.
  intros (p & -> & <-) (q & -> & <-) B. simpl. apply rnd64_val; auto. apply Q2R_mult.
Qed.

Lemma Q2R_zero q : Q2R q <> 0%R -> (Qnum q =? 0) = false.
Proof.
  intro H. apply Z.eqb_neq. intro E. apply H. unfold Q2R. rewrite E. simpl. lra.
Qed.

Lemma fdiv_val a b x y : fval a x -> fval b y -> y <> 0%R -> (Rabs (x / y) <= big)%R ->
  fval (fdiv a b) (rn (x / y)).
Proof.
  intros (p & -> & <-) (q & -> & <-) N B. unfold fdiv. rewrite (Q2R_zero q N).
  apply rnd64_val; auto. apply Q2R_div. intro E. apply N. apply Qeq_eqR in E. rewrite E.
  unfold Q2R. simpl. lra.
Qed.

Lemma f_int_val n : Z.abs n <= 2 ^ 100 -> fval (f_int n) (rn (IZR n)).
Proof.
  intro H. apply rnd64_val; [apply Q2R_inject_Z|]. rewrite <- abs_IZR. unfold big. apply IZR_le.
  eapply Z.le_trans; [exact H|]. apply Z.pow_le_mono_r; lia.
Qed.

Lemma rn_exact x : binary64 x -> rn x = x.
Proof. intro F. apply binary64_format in F. apply round_generic; auto. typeclasses eauto. Qed.

Lemma binary64_int n : Z.abs n < 2 ^ 53 -> binary64 (IZR n).
Proof. intro H. exists n, 0. split; [simpl; lra|]. split; [auto|lia]. Qed.

Lemma f_int_val_exact n : Z.abs n < 2 ^ 53 -> fval (f_int n) (IZR n).
Proof.
  intro H. rewrite <- (rn_exact (IZR n)) by (apply binary64_int; auto). apply f_int_val.
  assert (2 ^ 53 <= 2 ^ 100) by (apply Z.pow_le_mono_r; lia). lia.
Qed.

Lemma binary64_rn x : binary64 (rn x).
Proof. apply binary64_format. apply generic_format_round; typeclasses eauto. Qed.

(** Sums of small integers are exact, in any order. *)
Definition pick (zs : list Z) (t : stree) : list Z := map (fun i => nth i zs 0) (leaves t).

Lemma run_int_exact zs t : Forall (fun z => 0 <= z) zs -> lsumz (pick zs t) < 2 ^ 53 ->
  fval (run (map f_int zs) t) (IZR (lsumz (pick zs t))) /\ 0 <= lsumz (pick zs t).
Proof.
  intro P. assert (N : forall i, 0 <= nth i zs 0).
  { intro i. destruct (Nat.lt_ge_cases i (length zs)).
    - rewrite Forall_forall in P. apply P. apply nth_In. auto.
    - rewrite nth_overflow by auto. lia. }
  assert (N' : forall t, 0 <= lsumz (pick zs t)).
  { intro t'. unfold pick. induction (leaves t') as [|i l IH]; cbn [map lsumz]; [lia|].
    specialize (N i). lia. }
  intro H. split; [|apply N']. revert H. induction t as [i|a IHa b IHb]; intro H.
  - unfold pick in *. cbn [leaves map lsumz run] in *. rewrite Z.add_0_r in *. specialize (N i).
    change (FFin 0) with (f_int 0). rewrite map_nth. apply f_int_val_exact. lia.
  - unfold pick in *. cbn [leaves run] in *. rewrite map_app, lsumz_app in *.
    pose proof (N' a) as Na. pose proof (N' b) as Nb. unfold pick in Na, Nb.
    rewrite plus_IZR. rewrite <- (rn_exact (_ + _)%R).
    + apply fadd_val; [apply IHa; lia|apply IHb; lia|]. rewrite <- plus_IZR, <- abs_IZR.
      unfold big. apply IZR_le. rewrite Z.abs_eq by lia.
      assert (2 ^ 53 <= 2 ^ 1000) by (apply Z.pow_le_mono_r; lia). lia.
    + rewrite <- plus_IZR. apply binary64_int. lia.
Qed.

Lemma pick_all zs t : adds_all (length zs) t -> lsumz (pick zs t) = lsumz zs.
Proof.
  intro A. unfold pick. rewrite (lsumz_perm _ (map (fun i => nth i zs 0) (seq 0 (length zs)))).
  - f_equal. apply nth_ext with (d := 0) (d' := 0); [rewrite map_length, seq_length; auto|].
    intros n Hn. rewrite map_length, seq_length in Hn.
    rewrite (nth_indep _ 0 (nth 0 zs 0)) by (rewrite map_length, seq_length; auto).
    rewrite (map_nth (fun i => nth i zs 0)), seq_nth by auto. reflexivity.
  - apply Permutation_map. exact A.
Qed.

Lemma pixels_of_sum im : lsumz (pixels_of im) = sumz2 (ih im) (iw im) (px im).
Proof. unfold pixels_of. rewrite <- (map_id (ravel _ _ _)). apply lsumz_ravel. Qed.

Lemma mean_val t im : (0 < ih im * iw im)%nat -> (Z.of_nat (ih im * iw im) <= 2 ^ 29) ->
  (forall r c, (r < ih im)%nat -> (c < iw im)%nat -> 0 <= px im r c < 2 ^ 16) ->
  adds_all (ih im * iw im) t ->
  fval (np_mean t im) (rn (IZR (sumz2 (ih im) (iw im) (px im)) / IZR (Z.of_nat (ih im * iw im)))).
Proof.
  intros P L B A.
  assert (S : 0 <= sumz2 (ih im) (iw im) (px im) <= Z.of_nat (ih im * iw im) * 2 ^ 16).
  { rewrite <- (Z.mul_0_r (Z.of_nat (ih im * iw im))) at 1. apply sumz2_bounds.
    intros r c Hr Hc. specialize (B r c Hr Hc). lia. }
  assert (Le : length (pixels_of im) = (ih im * iw im)%nat) by apply ravel_length.
  destruct (run_int_exact (pixels_of im) t) as (V & _).
  - apply Forall_forall. intros z Hz. apply in_ravel in Hz. destruct Hz as (r & c & Hr & Hc & <-).
    apply B; auto.
  - rewrite pick_all, pixels_of_sum by (rewrite Le; auto). lia.
  - rewrite pick_all, pixels_of_sum in V by (rewrite Le; auto).
    apply fdiv_val; auto.
    + apply f_int_val_exact. lia.
    + apply IZR_neq. lia.
    + assert (0 < IZR (Z.of_nat (ih im * iw im)))%R by (apply IZR_lt; lia).
      unfold Rdiv. rewrite Rabs_mult, Rabs_inv, <- !abs_IZR, !Z.abs_eq by lia.
      apply Rle_trans with (IZR (2 ^ 45) * 1)%R.
      * apply Rmult_le_compat; [apply IZR_le; lia|left; apply Rinv_0_lt_compat; auto|apply IZR_le; lia|].
        rewrite <- Rinv_1. apply Rinv_le; [lra|]. apply IZR_le. lia.
      * unfold big. rewrite Rmult_1_r. apply IZR_le. apply Z.pow_le_mono_r; lia.
Qed.
