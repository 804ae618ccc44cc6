(** [rnd64] is round-to-nearest-even in the sense of Flocq. *)
From Coq Require Import List Bool ZArith QArith Qreals Reals Lia Lra.
From Flocq Require Import Core.
From Verif Require Import Base_Prelude Base_Str Base_Num.
Open Scope Z_scope.

Lemma Q2R_frac n d : Q2R (n # d) = (IZR n / IZR (Zpos d))%R.
Proof. reflexivity. Qed.

Lemma Zfloor_div n d : 0 < d -> Zfloor (IZR n / IZR d) = n / d.
Proof.
  intro Hd. apply Zfloor_imp. rewrite plus_IZR.
  assert (Hd' : (0 < IZR d)%R) by (apply IZR_lt; lia).
  pose proof (Z.div_mod n d ltac:(lia)) as E. pose proof (Z.mod_pos_bound n d Hd) as B.
  assert (E' : IZR n = (IZR d * IZR (n / d) + IZR (n mod d))%R).
  { rewrite <- mult_IZR, <- plus_IZR. f_equal. exact E. }
  assert (0 <= IZR (n mod d))%R by (apply IZR_le; lia).
  assert (IZR (n mod d) < IZR d)%R by (apply IZR_lt; lia).
  split.
  - apply Rmult_le_reg_r with (IZR d); auto. unfold Rdiv.
    rewrite Rmult_assoc, Rinv_l by lra. lra.
  - apply Rmult_lt_reg_r with (IZR d); auto. unfold Rdiv.
    rewrite Rmult_assoc, Rinv_l by lra. lra.
Qed.

Lemma zdiv_rne_spec n d : 0 < d -> zdiv_rne n d = ZnearestE (IZR n / IZR d).
Proof.
  intro Hd. unfold zdiv_rne, Znearest. rewrite (Zfloor_div n d Hd).
  assert (Hd' : (0 < IZR d)%R) by (apply IZR_lt; lia).
  pose proof (Z.div_mod n d ltac:(lia)) as E. pose proof (Z.mod_pos_bound n d Hd) as B.
  assert (E' : (IZR n / IZR d - IZR (n / d) = IZR (n mod d) / IZR d)%R).
  { assert (IZR n = (IZR d * IZR (n / d) + IZR (n mod d))%R).
    { rewrite <- mult_IZR, <- plus_IZR. f_equal. exact E. }
    rewrite H. field. lra. }
  rewrite E'.
  assert (C : Rcompare (IZR (n mod d) / IZR d) (/ 2) = Z.compare (2 * (n mod d)) d).
  { rewrite <- (Rcompare_mult_r (IZR d * 2)) by lra.
    replace (IZR (n mod d) / IZR d * (IZR d * 2))%R with (IZR (2 * (n mod d))).
    2:{ rewrite mult_IZR. field. lra. }
    replace (/ 2 * (IZR d * 2))%R with (IZR d) by field.
    apply Rcompare_IZR. }
  rewrite C.
  assert (Hceil : n mod d <> 0 -> Zceil (IZR n / IZR d) = n / d + 1).
  { intro Hne. rewrite Zceil_floor_neq.
    - rewrite Zfloor_div by auto. reflexivity.
    - rewrite Zfloor_div by auto. intro F.
      assert (IZR (n mod d) / IZR d = 0)%R by lra.
      apply Hne. apply eq_IZR. apply Rmult_integral in H.
      destruct H as [H|H]; auto. exfalso. apply Rinv_neq_0_compat in H; auto. lra. }
  destruct (Z.compare_spec (2 * (n mod d)) d).
  - destruct (Z.even (n / d)) eqn:Ev; simpl; auto. rewrite Hceil by lia. reflexivity.
  - reflexivity.
  - rewrite Hceil by lia. reflexivity.
Qed.

Lemma bpow_Z e : 0 <= e -> bpow radix2 e = IZR (2 ^ e).
Proof. intro H. rewrite <- IZR_Zpower by auto. reflexivity. Qed.

Lemma mag_q_spec n d :
  0 < n -> 0 < d -> mag_q n d = mag radix2 (IZR n / IZR d)%R :> Z.
Proof.
  intros Hn Hd. unfold mag_q.
  assert (Hd' : (0 < IZR d)%R) by (apply IZR_lt; lia).
  assert (Hn' : (0 < IZR n)%R) by (apply IZR_lt; lia).
  assert (Hq : (0 < IZR n / IZR d)%R) by (apply Rdiv_lt_0_compat; auto).
  set (a := Z.log2 n). set (b := Z.log2 d).
  assert (Ha : 2 ^ a <= n < 2 ^ (a + 1)) by (apply Z.log2_spec; auto).
  assert (Hb : 2 ^ b <= d < 2 ^ (b + 1)) by (apply Z.log2_spec; auto).
  assert (Ha0 : 0 <= a) by apply Z.log2_nonneg.
  assert (Hb0 : 0 <= b) by apply Z.log2_nonneg.
  (* bpow (a-b-1) < n/d < bpow (a-b+1) *)
  assert (L : (bpow radix2 (a - b - 1) < IZR n / IZR d)%R).
  { apply Rmult_lt_reg_r with (IZR d); auto. unfold Rdiv.
    rewrite Rmult_assoc, Rinv_l, Rmult_1_r by lra.
    apply Rlt_le_trans with (bpow radix2 (a - b - 1) * bpow radix2 (b + 1))%R.
    - apply Rmult_lt_compat_l; [apply bpow_gt_0|]. rewrite bpow_Z by lia.
      apply IZR_lt. lia.
    - rewrite <- bpow_plus. replace (a - b - 1 + (b + 1)) with a by lia.
      rewrite bpow_Z by lia. apply IZR_le. lia. }
  assert (U : (IZR n / IZR d < bpow radix2 (a - b + 1))%R).
  { apply Rmult_lt_reg_r with (IZR d); auto. unfold Rdiv.
    rewrite Rmult_assoc, Rinv_l, Rmult_1_r by lra.
    apply Rlt_le_trans with (bpow radix2 (a + 1))%R.
    - rewrite bpow_Z by lia. apply IZR_lt. lia.
    - replace (a + 1) with (a - b + 1 + b) by lia. rewrite bpow_plus.
      apply Rmult_le_compat_l; [apply bpow_ge_0|]. rewrite bpow_Z by lia.
      apply IZR_le. lia. }
  set (e0 := a - b) in *.
  assert (Dec : (if 0 <=? e0 then n <? d * 2 ^ e0 else n * 2 ^ (- e0) <? d) = true <->
                (IZR n / IZR d < bpow radix2 e0)%R).
  { destruct (0 <=? e0) eqn:E.
    - apply Z.leb_le in E. rewrite Z.ltb_lt, bpow_Z by auto. split; intro H.
      + apply Rmult_lt_reg_r with (IZR d); auto. unfold Rdiv.
        rewrite Rmult_assoc, Rinv_l, Rmult_1_r by lra.
        rewrite <- mult_IZR. apply IZR_lt. lia.
      + apply lt_IZR. rewrite mult_IZR.
        apply (Rmult_lt_compat_r (IZR d)) in H; auto. unfold Rdiv in H.
        rewrite Rmult_assoc, Rinv_l, Rmult_1_r in H by lra. lra.
    - apply Z.leb_gt in E. rewrite Z.ltb_lt.
      assert (Hp : (0 < IZR (2 ^ (- e0)))%R) by (apply IZR_lt, Z.pow_pos_nonneg; lia).
      replace (bpow radix2 e0) with (/ IZR (2 ^ (- e0)))%R.
      2:{ rewrite <- bpow_Z by lia. rewrite <- bpow_opp. f_equal. lia. }
      split; intro H.
      + apply IZR_lt in H. rewrite mult_IZR in H.
        apply Rmult_lt_reg_r with (IZR d); auto. unfold Rdiv.
        rewrite Rmult_assoc, Rinv_l, Rmult_1_r by lra.
        apply Rmult_lt_reg_r with (IZR (2 ^ (- e0))); auto.
        replace (/ IZR (2 ^ (- e0)) * IZR d * IZR (2 ^ (- e0)))%R with (IZR d)
          by (field; lra). exact H.
      + apply lt_IZR. rewrite mult_IZR.
        apply (Rmult_lt_compat_r (IZR d * IZR (2 ^ (- e0)))) in H;
          [|apply Rmult_lt_0_compat; auto].
        replace (IZR n / IZR d * (IZR d * IZR (2 ^ (- e0))))%R
          with (IZR n * IZR (2 ^ (- e0)))%R in H by (field; lra).
        replace (/ IZR (2 ^ (- e0)) * (IZR d * IZR (2 ^ (- e0))))%R with (IZR d) in H
          by (field; lra). exact H. }
  symmetry. apply mag_unique. rewrite Rabs_pos_eq by lra.
  destruct (if 0 <=? e0 then _ else _).
  - split; [lra|]. apply Dec. reflexivity.
  - replace (e0 + 1 - 1) with e0 by lia. split; [|exact U].
    destruct (Rle_or_lt (bpow radix2 e0) (IZR n / IZR d)) as [H|H]; auto.
    apply Dec in H. discriminate.
Qed.

Definition fexp64 := FLT_exp (-1074) 53.

Global Instance fexp64_valid : Valid_exp fexp64.
Proof. unfold fexp64. apply FLT_exp_valid. unfold Prec_gt_0. lia. Qed.

Lemma q_of_me_val m e : Q2R (q_of_me m e) = (IZR m * bpow radix2 e)%R.
Proof.
  unfold q_of_me. destruct (0 <=? e) eqn:E.
  - apply Z.leb_le in E. rewrite Q2R_frac. rewrite mult_IZR, bpow_Z by auto. field.
  - apply Z.leb_gt in E. rewrite (Qeq_eqR _ (m # Z.to_pos (2 ^ - e))) by apply Qred_correct.
    rewrite Q2R_frac. rewrite Z2Pos.id by (apply Z.pow_pos_nonneg; lia).
    rewrite <- bpow_Z by lia. unfold Rdiv. rewrite <- bpow_opp. f_equal. f_equal. lia.
Qed.

(** The mantissa and exponent computed by [rnd64] are those of [round]. *)
Lemma rnd64_core (q : Q) :
  Qnum q <> 0 ->
  let n := Qnum q in let d := Zpos (Qden q) in
  let e := Z.max (mag_q (Z.abs n) d - 53) (-1074) in
  let m := if 0 <=? e then zdiv_rne n (d * 2 ^ e) else zdiv_rne (n * 2 ^ (- e)) d in
  round radix2 fexp64 ZnearestE (Q2R q) = (IZR m * bpow radix2 e)%R.
Proof.
  intros Hn n d e m.
  assert (Hd : 0 < d) by (unfold d; lia).
  assert (Hd' : (0 < IZR d)%R) by (apply IZR_lt; lia).
  assert (Hx : Q2R q = (IZR n / IZR d)%R) by reflexivity.
  assert (He : cexp radix2 fexp64 (Q2R q) = e).
  { unfold cexp, fexp64, FLT_exp, e. rewrite Hx. rewrite mag_q_spec by lia.
    rewrite abs_IZR. rewrite <- mag_abs. unfold Rdiv. rewrite Rabs_mult, Rabs_inv.
    rewrite (Rabs_pos_eq (IZR d)) by lra. reflexivity. }
  unfold round, F2R, scaled_mantissa. rewrite He. simpl. f_equal. f_equal.
  rewrite Hx. unfold m. destruct (0 <=? e) eqn:E.
  - apply Z.leb_le in E.
    assert (Hp : (0 < IZR (2 ^ e))%R) by (apply IZR_lt, Z.pow_pos_nonneg; lia).
    rewrite zdiv_rne_spec.
    + f_equal. rewrite bpow_opp, bpow_Z by auto. rewrite mult_IZR. field. lra.
    + apply Z.mul_pos_pos; auto. apply Z.pow_pos_nonneg; lia.
  - apply Z.leb_gt in E. rewrite zdiv_rne_spec by auto. f_equal.
    rewrite bpow_Z by lia. rewrite mult_IZR. field. lra.
Qed.

Lemma rnd64_finite q r :
  rnd64 q = FFin r -> Q2R r = round radix2 fexp64 ZnearestE (Q2R q).
Proof.
  unfold rnd64. destruct (Qnum q =? 0) eqn:E0.
  - intro H. injection H as <-. apply Z.eqb_eq in E0.
    assert (Hx : Q2R q = 0%R) by (unfold Q2R; rewrite E0; lra).
    rewrite Hx, round_0 by apply valid_rnd_N. unfold Q2R. simpl. lra.
  - apply Z.eqb_neq in E0. cbv zeta.
    match goal with |- (if ?b then _ else _) = _ -> _ => destruct b end; [discriminate|].
    intro H. injection H as <-. rewrite q_of_me_val. symmetry. apply rnd64_core; auto.
Qed.

Lemma rnd64_infinite q neg :
  rnd64 q = FInf neg ->
  (bpow radix2 1024 <= Rabs (round radix2 fexp64 ZnearestE (Q2R q)))%R /\
  (neg = true <-> (Q2R q < 0)%R).
Proof.
  unfold rnd64. destruct (Qnum q =? 0) eqn:E0; [discriminate|].
  apply Z.eqb_neq in E0. cbv zeta.
  set (n := Qnum q). set (d := Zpos (Qden q)).
  set (e := Z.max (mag_q (Z.abs n) d - 53) (-1074)).
  set (m := if 0 <=? e then zdiv_rne n (d * 2 ^ e) else zdiv_rne (n * 2 ^ (- e)) d).
  destruct (2 ^ 1024 <=? Z.abs m * 2 ^ Z.max e 0) eqn:B; [|discriminate].
  intro H. injection H as <-. apply Z.leb_le in B. split.
  - rewrite rnd64_core by auto. fold n d e m.
    rewrite Rabs_mult, <- abs_IZR. rewrite (Rabs_pos_eq (bpow radix2 e)) by apply bpow_ge_0.
    destruct (Z.le_gt_cases 0 e) as [He|He].
    + rewrite Z.max_l in B by auto. rewrite !bpow_Z by lia. rewrite <- mult_IZR.
      apply IZR_le. exact B.
    + (* e < 0: the mantissa is below 2^53, so the test cannot succeed *)
      exfalso. rewrite Z.max_r in B by lia. rewrite Z.mul_1_r in B.
      assert (Hb : (Rabs (round radix2 fexp64 ZnearestE (Q2R q)) <= bpow radix2 (53 + e))%R).
      { apply abs_round_le_generic; try typeclasses eauto.
        - apply generic_format_bpow. unfold fexp64, FLT_exp. unfold e in *. lia.
        - apply Rlt_le. apply Rlt_le_trans with (bpow radix2 (mag radix2 (Q2R q))).
          + apply bpow_mag_gt.
          + apply bpow_le.
            assert (Hm : mag_q (Z.abs n) d = mag radix2 (Q2R q) :> Z).
            { rewrite mag_q_spec by (unfold d; lia). rewrite abs_IZR.
              rewrite <- (mag_abs radix2 (Q2R q)).
              change (Q2R q) with (IZR n / IZR d)%R. unfold Rdiv.
              rewrite Rabs_mult, Rabs_inv.
              rewrite (Rabs_pos_eq (IZR d)) by (apply IZR_le; unfold d; lia).
              reflexivity. }
            unfold e. lia. }
      rewrite rnd64_core in Hb by auto. fold n d e m in Hb.
      rewrite Rabs_mult, <- abs_IZR in Hb.
      rewrite (Rabs_pos_eq (bpow radix2 e)) in Hb by apply bpow_ge_0.
      rewrite bpow_plus in Hb. apply Rmult_le_reg_r in Hb; [|apply bpow_gt_0].
      rewrite bpow_Z in Hb by lia. apply le_IZR in Hb.
      assert (2 ^ 53 < 2 ^ 1024) by (apply Z.pow_lt_mono_r; lia). lia.
  - assert (Hd' : (0 < IZR d)%R) by (apply IZR_lt; unfold d; lia).
    change (Q2R q) with (IZR n / IZR d)%R. rewrite Z.ltb_lt. split; intro H.
    + apply IZR_lt in H. unfold Rdiv.
      assert (0 < / IZR d)%R by (apply Rinv_0_lt_compat; auto).
      apply Rmult_lt_reg_r with (IZR d); auto.
      rewrite Rmult_assoc, Rinv_l by lra. lra.
    + apply lt_IZR. apply (Rmult_lt_compat_r (IZR d)) in H; auto. unfold Rdiv in H.
      rewrite Rmult_assoc, Rinv_l in H by lra. lra.
Qed.

(** rnd64 q is never NaN, and finite results stay below 2^1024. *)
Lemma rnd64_not_nan q : rnd64 q <> FNan.
Proof.
  unfold rnd64. destruct (_ =? 0); [discriminate|]. cbv zeta.
  match goal with |- (if ?b then _ else _) <> _ => destruct b end; discriminate.
Qed.

Lemma rnd64_nearest q r x :
  rnd64 q = FFin r -> generic_format radix2 fexp64 x ->
  (Rabs (Q2R r - Q2R q) <= Rabs (x - Q2R q))%R.
Proof.
  intros H Hx. rewrite (rnd64_finite q r H).
  pose proof (round_N_pt radix2 fexp64 (fun z => negb (Z.even z)) (Q2R q)) as (_ & G).
  apply G. exact Hx.
Qed.
