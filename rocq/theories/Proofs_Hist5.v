(** The histograms of a result object, in digital numbers. *)
From Coq Require Import List Bool Arith ZArith QArith Qround Lia.
From Verif Require Import Base_Prelude Base_Sum Base_Xreal Model_Images Model_Data Model_Results
  Model_Hist Spec_Hist Proofs_Hist Proofs_Hist2 Proofs_Hist3.
Import ListNotations.
Open Scope Z_scope.

Lemma ltb_Qle_bool b v k d q : (0 < k)%Q -> (q == inject_Z b / k - d)%Q ->
  Qle_bool q (inject_Z v / k - d) = (b <=? v).
Proof.
  intros H E. destruct (Z.leb_spec b v).
  - apply Qle_bool_iff. rewrite E. unfold Qminus. apply Qplus_le_compat; [|apply Qle_refl].
    apply Qdiv_le_iff; auto. rewrite <- Zle_Qle. auto.
  - destruct (Qle_bool _ _) eqn:B; auto. apply Qle_bool_iff in B. rewrite E in B.
    unfold Qminus in B. apply Qplus_le_l in B. apply Qdiv_le_iff in B; auto.
    rewrite <- Zle_Qle in B. lia.
Qed.

Lemma rescaled_counts h w f k d :
  (0 < h * w)%nat -> (0 < k)%Q ->
  exists hh, histogram1288 (plain (ravel h w f)) Qmax1288 = Ok hh /\
    counts_pixels h w (fun r c => inject_Z (f r c) / k - d)%Q
      (h_bins (rescale k d hh)) (h_values (rescale k d hh)).
Proof.
  intros H Hk.
  destruct (histogram_partition (ravel h w f) Qmax1288 (ravel_nonempty h w f H)
              ltac:(unfold Qmax1288; lia))
    as (hh & lo & hi & W & E & _ & _ & HW & L & N1 & N2 & P & _ & SS & _).
  exists hh. split; [exact E|]. cbv zeta in *.
  set (n := length (h_bins hh)) in *.
  assert (Lb : length (h_bins (rescale k d hh)) = n) by (unfold rescale; cbn; apply map_length).
  assert (B : forall i, (i < n)%nat ->
     (nth i (h_bins (rescale k d hh)) 0 == inject_Z (lo + Z.of_nat i * W) / k - d)%Q).
  { intros i Hi. rewrite rescale_bins by auto. destruct (P i Hi) as [-> _]. reflexivity. }
  assert (KN : ~ (k == 0)%Q) by (intro Z0; rewrite Z0 in Hk; apply Qlt_irrefl in Hk; auto).
  exists (inject_Z W / k)%Q. split; [|split; [|split; [|split; [|split]]]].
  - apply Qlt_shift_div_l; auto. rewrite Qmult_0_l. change 0%Q with (inject_Z 0). rewrite <- Zlt_Qlt. lia.
  - rewrite Lb. unfold rescale. cbn. exact L.
  - rewrite Lb. unfold Qmax1288 in N2. lia.
  - intros i Hi. rewrite Lb in Hi. rewrite !B by lia.
    replace (lo + Z.of_nat (S i) * W) with (lo + Z.of_nat i * W + W) by lia.
    rewrite (inject_Z_plus (lo + Z.of_nat i * W) W). field. auto.
  - intros i Hi. rewrite Lb in Hi. destruct (P i Hi) as [_ V].
    unfold rescale at 1. cbn [h_values]. rewrite V. unfold between. rewrite how_many_ravel.
    unfold pixels_with. apply sumz2_ext. intros r c _ _.
    rewrite (ltb_Qle_bool (lo + Z.of_nat i * W) (f r c) k d _ Hk (B i Hi)).
    rewrite (ltb_Qle_bool (lo + Z.of_nat i * W + W) (f r c) k d).
    + rewrite <- Z.ltb_antisym. reflexivity.
    + auto.
    + rewrite (B i Hi). rewrite (inject_Z_plus (lo + Z.of_nat i * W) W). field. auto.
  - unfold rescale. cbn [h_values]. rewrite SS, ravel_length. reflexivity.
Qed.

Lemma dsnu_histogram o :
  let s := sd_sum (dark o) in
  let L := qn (sd_L (dark o)) in
  (0 < ih s * iw s)%nat -> (0 < sd_L (dark o))%nat ->
  exists hh, histogram_DSNU o = Ok hh /\
    counts_pixels (ih s) (iw s)
      (fun r c => inject_Z (px s r c) / L
                  - inject_Z (sumz2 (ih s) (iw s) (px s)) / qn (ih s * iw s) / L)%Q
      (h_bins hh) (h_values hh).
Proof.
  intros s L H HL.
  assert (M : zmean (pixels_of s) = (inject_Z (sumz2 (ih s) (iw s) (px s)) / qn (ih s * iw s))%Q).
  { unfold zmean, pixels_of. rewrite ravel_length. f_equal. f_equal.
    rewrite <- (map_id (ravel _ _ _)). apply (lsumz_ravel (ih s) (iw s) (px s) (fun z => z)). }
  destruct (rescaled_counts (ih s) (iw s) (px s) L (zmean (pixels_of s) / L) H (qn_pos _ HL))
    as (hh & E & C).
  unfold histogram_DSNU. fold s. unfold pixels_of at 1. rewrite E. cbn [bind].
  eexists. split; [reflexivity|]. fold L. rewrite M in *. exact C.
Qed.

Lemma prnu_histogram o h w :
  let b := sd_sum (bright o) in let d := sd_sum (dark o) in
  let L := qn (sd_L (bright o)) in
  shape b = (h, w) -> shape d = (h, w) -> (4 < h)%nat -> (4 < w)%nat -> (0 < sd_L (bright o))%nat ->
  let diff := fun r c => px b r c - px d r c in
  exists hh, histogram_PRNU o = Ok hh /\
    counts_pixels (h - 4) (w - 4)
      (fun r c => inject_Z (25 * diff (r + 2)%nat (c + 2)%nat - block_sum 5 diff r c) / (L * 25) - 0)%Q
      (h_bins hh) (h_values hh).
Proof.
  intros b d L Sb Sd Hh Hw HL diff.
  unfold histogram_PRNU, prnu_image. fold b d. rewrite Sb, Sd.
  unfold shape_eqb. cbn [fst snd]. rewrite !Nat.eqb_refl. cbn [andb bind].
  unfold shape in Sb. inversion Sb as [[Eh Ew]]. rewrite Eh, Ew.
  destruct (high_pass_spec (mkImg h w diff) 5 eq_refl ltac:(lia)) as (im & E & Ih & Iw & P).
  unfold diff in E. rewrite E. cbn [bind fst snd]. cbn [ih iw] in Ih, Iw.
  replace (Z.of_nat 5 ^ 2) with 25 in * by reflexivity.
  assert (Hk : (0 < L * 25)%Q).
  { apply Qmult_lt_0_compat; [apply qn_pos; auto|reflexivity]. }
  assert (Hs : (0 < ih im * iw im)%nat) by (rewrite Ih, Iw; simpl; nia).
  destruct (rescaled_counts (ih im) (iw im) (px im) _ 0%Q Hs Hk) as (hh & E1 & C).
  unfold pixels_of. rewrite E1. cbn [bind].
  eexists. split; [reflexivity|].
  replace (h - 4)%nat with (ih im) by (rewrite Ih; reflexivity).
  replace (w - 4)%nat with (iw im) by (rewrite Iw; reflexivity).
  destruct C as (wd & W1 & W2 & W3 & W4 & W5 & W6). exists wd. repeat (split; [assumption|]).
  split; [|assumption]. intros i Hi. rewrite W5 by auto. unfold pixels_with. apply sumz2_ext.
  intros r c Hr Hc. rewrite P by auto. reflexivity.
Qed.
