(** Proofs for C119: the loader and the temporal data in binary64. *)
From Coq Require Import Ascii String List Bool Arith ZArith QArith Qabs Qreals Reals Lia Lra Permutation.
From Flocq Require Import Core.
From Verif Require Import Base_Prelude Base_Str Base_Num Base_Order Base_Sum Base_Float Spec_Num Proofs_Round
  Proofs_Num Proofs_Float Model_Path Model_Parser Model_Images Model_Loader Model_Data Model_Hist Model_Results Model_Emva Model_Rounded
  Model_RoundedSpatial Model_RoundedEmva Spec_Parser Spec_Images Spec_Loader Spec_Data Spec_Results Spec_Emva Spec_Rounded Spec_RoundedSpatial
  Spec_RoundedEmva Proofs_Images Proofs_Loader Proofs_Data Proofs_Data2 Proofs_Rounded Proofs_Rounded2 Proofs_Rounded3 Proofs_Rounded4
  Proofs_Rounded5 Proofs_RSpatial4 Proofs_RoundedIndex3 Proofs_Emva Proofs_Emva2.
Import ListNotations.
Local Arguments feq : simpl never.
Local Arguments flt : simpl never.

(** ** A pair without noise *)
Lemma quiet_pair order b h w A B : sound_order order -> pair_bits b h w A B ->
  (forall r c, (r < h)%nat -> (c < w)%nat -> px A r c = px B r c) ->
  exists d, Model_Rounded.temporal_entry order [A; B] = Ok d /\ within 0 0 (s2_f (h * w) d).
Proof.
  intros O H EQ. destruct (pair_entry order b h w A B O H) as (r & d & E & F & _ & Pv & _ & Dm).
  exists d. split; auto.
  destruct (pair_summary h w A B (pair_bits_ok _ _ _ _ _ H)) as (r' & E' & _ & V & _).
  rewrite E in E'. injection E' as <-. destruct H as (P & L & A1 & A2 & B1 & B2 & _).
  assert (GM : Q2R (grey_mean B) = Q2R (grey_mean A)).
  { rewrite (grey_mean_R h w A A1 A2 P), (grey_mean_R h w B B1 B2 P). do 2 f_equal. apply sumz2_ext. intros. symmetry. apply EQ; assumption. }
  rewrite GM, Rminus_eq_0, round_0 in Dm by typeclasses eauto.
  assert (Z0 : ft_pvar d = 0%Z).
  { rewrite Pv, V. rewrite (sumz2_ext h w _ (fun _ _ => 0%Z)) by (intros; rewrite EQ by assumption; ring).
    apply Z.le_antisymm; pose proof (sumz2_bounds h w (fun _ _ => 0%Z) 0 0) as B0;
      rewrite Z.mul_0_r in B0; apply B0; lia. }
  assert (BG : (Rabs 0 <= big)%R) by (rewrite Rabs_R0; unfold big; apply IZR_le; apply Z.pow_nonneg; lia).
  assert (N : (0 < IZR (4 * Z.of_nat (h * w)))%R) by (apply IZR_lt; lia).
  assert (FV : fval (var_f (h * w) d) 0%R).
  { unfold var_f. rewrite Z0.
    assert (K : fval (fmul (f_int 4) (f_int (Z.of_nat (h * w)))) (IZR (4 * Z.of_nat (h * w)))).
    { rewrite <- (rn_exact (IZR (4 * _))) by (apply binary64_int; lia). rewrite mult_IZR.
      apply fmul_val; try (apply f_int_val_exact; lia).
      rewrite <- mult_IZR, <- abs_IZR. unfold big. apply IZR_le.
      apply Z.le_trans with (2 ^ 32)%Z; [lia|]. apply Z.pow_le_mono_r; lia. }
    rewrite <- (round_0 radix2 fexp64 ZnearestE).
    replace 0%R with (0 / IZR (4 * Z.of_nat (h * w)))%R by (unfold Rdiv; ring).
    apply fdiv_val; auto; [apply f_int_val_exact; lia|lra|]. unfold Rdiv. rewrite Rmult_0_l. auto. }
  assert (FH : fval (half_sq_f d) 0%R).
  { unfold half_sq_f. rewrite <- (round_0 radix2 fexp64 ZnearestE). replace 0%R with (0 / 2)%R by lra.
    apply fdiv_val; [|apply half_val|lra|replace (0 / 2)%R with 0%R by lra; auto].
    rewrite <- (round_0 radix2 fexp64 ZnearestE). replace 0%R with (0 * 0)%R by lra.
    apply fmul_val; auto. rewrite Rmult_0_l. auto. }
  destruct (fsub_val _ _ _ _ FV FH) as (v & Ev & Rv); [rewrite Rminus_0_r; auto|].
  exists v. split; auto. rewrite Rminus_0_r, round_0 in Rv by typeclasses eauto.
  apply Rle_Qle. rewrite Q2R_Qabs, Q2R_minus, Rv. replace (Q2R 0) with 0%R by (unfold Q2R; simpl; lra).
  rewrite Rminus_0_r, Rabs_R0. lra.
Qed.

(** ** The mean, in the bound of the variance *)
Lemma mean_within order b h w A B : sound_order order -> pair_bits b h w A B ->
  exists d, Model_Rounded.temporal_entry order [A; B] = Ok d /\ within (variance_error b) (stack_mean h w [A; B]) (mean_f (h * w) d).
Proof.
  intros O H. destruct (mean_rounded order b h w A B O H) as (d & E & R). exists d. split; [exact E|].
  pose proof (mean_bounded b h w A B H) as MB. set (q := stack_mean h w [A; B]) in *.
  destruct H as (_ & _ & _ & _ & _ & _ & Hb & _).
  assert (U : (Rabs (rn (Q2R q) - Q2R q) <= ulp1 * IZR (2 ^ b) + tiny)%R) by (apply rn_abs; rewrite Rabs_pos_eq; lra).
  assert (B1 : (1 <= IZR (2 ^ b) <= 65536)%R).
  { split; [apply IZR_le; apply (Z.pow_le_mono_r 2 0 b); lia|]. apply (IZR_le _ (2 ^ 16)). apply Z.pow_le_mono_r; lia. }
  pose proof ulp1_pos as U1. pose proof tiny_small as T1.
  destruct R as [(v & Ev & N & _)|(neg & x & _ & N & BX & _)].
  - exists v. split; [exact Ev|]. apply Rle_Qle. rewrite Q2R_Qabs, Q2R_minus. unfold nearest_even in N. rewrite N.
    eapply Rle_trans; [exact U|]. unfold variance_error.
    rewrite Q2R_div by (unfold Qeq, inject_Z; cbn [Qnum Qden]; lia). rewrite !Q2R_inject_Z.
    assert (ulp1 = / IZR (2 ^ 50) / 8)%R.
    { unfold ulp1, Rdiv. rewrite <- Rinv_mult. f_equal. rewrite <- mult_IZR. reflexivity. }
    replace (2 * b)%Z with (b + b)%Z by lia. rewrite Z.pow_add_r, mult_IZR by lia.
    set (m := IZR (2 ^ b)) in *. assert (I : (0 < / IZR (2 ^ 50))%R) by lra. set (i := (/ IZR (2 ^ 50))%R) in *.
    unfold Rdiv at 1. fold i. assert (m * 1 <= m * m)%R by (apply Rmult_le_compat_l; lra). nra.
  - exfalso. change (x = rn (Q2R q)) in N. rewrite <- N in U.
    assert (BB : (bpow radix2 1024 <= 65536 + (ulp1 * IZR (2 ^ b) + tiny))%R).
    { eapply Rle_trans; [exact BX|]. replace x with ((x - Q2R q) + Q2R q)%R by ring. eapply Rle_trans; [apply Rabs_triang|].
      rewrite (Rabs_pos_eq (Q2R q)) by lra. lra. }
    assert (BH : (bpow radix2 20 <= bpow radix2 1024)%R) by (apply bpow_le; lia).
    change (bpow radix2 20) with 1048576%R in BH. nra.
Qed.

(** ** The loader *)
Lemma load_imgs_series fs path : forall fnames shapes ims s, load_imgs fs path shapes fnames = Ok (ims, s) -> series fs path fnames ims.
Proof.
  induction fnames as [|f rest IH]; intros shapes ims s H; cbn [load_imgs] in H.
  - injection H as <- _. constructor.
  - destruct (fs (path_join path [f])) as [im|] eqn:E; [|discriminate].
    destruct (1 <? _)%nat; [discriminate|]. destruct (load_imgs fs path _ rest) as [(l & s')|e] eqn:L; [|discriminate].
    cbn [bind] in H. injection H as <- _. constructor; [exact E|]. eapply IH; exact L.
Qed.

Section Load.
Context {D F : Type} (build : int_imgs -> D) (build_f : list image -> res F) (R : D -> F -> Prop) (fs : fsys) (path : str).
Definition item_ok (fnames : list str) : Prop := forall ims r, series fs path fnames ims -> get_int_imgs ims = Ok r ->
  exists f, build_f ims = Ok f /\ R (build r) f.

Lemma points_f : forall items shapes data s, Forall (fun x => item_ok (snd x)) items ->
  load_points build fs path shapes items = Ok (data, s) ->
  exists fdata, load_points_f build_f fs path shapes items = Ok (fdata, s) /\ table2 R data fdata.
Proof.
  induction items as [|(p & fn) rest IH]; intros shapes data s K H; cbn [load_points load_points_f] in *.
  - injection H as <- <-. exists []. split; [reflexivity|constructor].
  - inversion K as [|? ? K1 K2]; subst. cbn [snd] in K1. unfold get_imgs_data, get_imgs_data_f in *.
    destruct (load_imgs fs path shapes fn) as [(ims & s1)|e] eqn:L; [|discriminate]. cbn [bind] in *.
    destruct (get_int_imgs ims) as [r|e] eqn:G; [|discriminate]. cbn [bind] in *.
    destruct (K1 ims r (load_imgs_series _ _ _ _ _ _ L) G) as (f & Ef & Rf). rewrite Ef. cbn [bind].
    destruct (load_points build fs path s1 rest) as [(ds & s2)|e] eqn:P; [|discriminate]. cbn [bind] in H. injection H as <- <-.
    destruct (IH s1 ds s2 K2 P) as (fd & E & T). rewrite E. cbn [bind]. exists ((p, f) :: fd). split; [reflexivity|].
    constructor; [split; [reflexivity|exact Rf]|exact T].
Qed.

Lemma exposures_f : forall items shapes data s, Forall (fun e => Forall (fun x => item_ok (snd x)) (snd e)) items ->
  load_exposures build fs path shapes items = Ok (data, s) ->
  exists fdata, load_exposures_f build_f fs path shapes items = Ok (fdata, s) /\ table2 (table2 R) data fdata.
Proof.
  induction items as [|(t & inner) rest IH]; intros shapes data s K H; cbn [load_exposures load_exposures_f] in *.
  - injection H as <- <-. exists []. split; [reflexivity|constructor].
  - inversion K as [|? ? K1 K2]; subst. cbn [snd] in K1. cbv zeta in *.
    destruct (negb _); [discriminate|]. destruct (_ <? 2)%nat; [discriminate|].
    destruct (load_points build fs path shapes inner) as [(ds & s1)|e] eqn:P; [|discriminate]. cbn [bind] in H.
    destruct (points_f _ _ _ _ K1 P) as (fd & -> & T). cbn [bind].
    destruct (load_exposures build fs path s1 rest) as [(es & s2)|e] eqn:L; [|discriminate]. cbn [bind] in H. injection H as <- <-.
    destruct (IH s1 es s2 K2 L) as (fe & -> & TE). cbn [bind]. exists ((t, fd) :: fe). split; [reflexivity|].
    constructor; [split; [reflexivity|exact T]|exact TE].
Qed.
End Load.
