(** Plain images, the images of the plots, and spectrograms. *)
From Coq Require Import List Bool Arith ZArith QArith Sorted Lia Reals Lra.
From Verif Require Import Base_Prelude Base_Num Base_Float Base_Order Base_Sum Base_SumR Base_Xreal
  Model_Images Model_Data Model_FFT Model_Profile Spec_FFT Spec_Profile Proofs_Hist Proofs_Hist3 Proofs_FFT Proofs_Profile.
Import ListNotations.
Open Scope nat_scope.

Lemma sorted_same (a : list nat) : forall b, StronglySorted lt a -> StronglySorted lt b ->
  (forall j, In j a <-> In j b) -> a = b.
Proof.
  induction a as [|x a IH]; intros b Sa Sb E.
  - destruct b as [|y b]; auto. destruct (proj2 (E y)); left; auto.
  - destruct b as [|y b]; [destruct (proj1 (E x)); left; auto|].
    apply StronglySorted_inv in Sa. destruct Sa as [Sa Fa].
    apply StronglySorted_inv in Sb. destruct Sb as [Sb Fb].
    rewrite Forall_forall in Fa, Fb.
    assert (x = y).
    { destruct (proj1 (E x) (or_introl eq_refl)) as [|H]; auto.
      destruct (proj2 (E y) (or_introl eq_refl)) as [|H']; auto.
      apply Fa in H'. apply Fb in H. lia. }
    subst y. f_equal. apply IH; auto. intros j. split; intros H.
    + destruct (proj1 (E j) (or_intror H)) as [->|]; auto. apply Fa in H. lia.
    + destruct (proj2 (E j) (or_intror H)) as [->|]; auto. apply Fb in H. lia.
Qed.

Lemma seq_sorted k n : StronglySorted lt (seq k n).
Proof.
  revert k. induction n as [|n IH]; intros k; [constructor|]. cbn [seq]. constructor; auto.
  apply Forall_forall. intros j Hj. apply in_seq in Hj. lia.
Qed.

Lemma curve_positions P l w : curve P l -> (forall j, (exists v, P j v) <-> j < w) -> map fst l = seq 0 w.
Proof.
  intros (S1 & A & B) H. apply sorted_same; [exact S1|apply seq_sorted|].
  intros j. rewrite in_map_iff, in_seq. split.
  - intros ([j' v] & <- & I). split; [lia|]. apply H. exists v. apply A. exact I.
  - intros [_ Hj]. apply H in Hj. destruct Hj as (v & Hv). destruct (B j v Hv) as (v' & I).
    exists (j, v'). auto.
Qed.

Lemma plain_mid_positions h w f i j :
  (exists v, pixel_of_row (plain_pic h w f) i j v) <-> j < w.
Proof.
  split; [intros (v & H & _); exact H|]. intros H. exists (f i j). split; [exact H|]. split; reflexivity.
Qed.

Lemma plain_average_positions h w f j : 0 < h -> (exists v, average (plain_pic h w f) j v) <-> j < w.
Proof.
  intros Hh. split; [intros (v & H & _); exact H|]. intros H.
  assert (E : exists i, i < rows (plain_pic h w f) /\ visible (plain_pic h w f) i j = true) by (exists 0; auto).
  pose proof (count_pos _ _ E) as C.
  exists (seen_sum (plain_pic h w f) j / seen_count (plain_pic h w f) j)%Q. split; [exact H|].
  split; [exact E|]. field. intros Z. rewrite Z in C. apply (Qlt_irrefl 0). exact C.
Qed.

Lemma plain_h h w f : 0 < h -> 0 < w ->
  exists c, image_profiles false (mkQ h w Plain f) = Ok c /\
    map fst (f_mean c) = seq 0 w /\ map fst (f_min c) = seq 0 w /\
    map fst (f_max c) = seq 0 w /\ map fst (f_mid c) = seq 0 w /\
    curve (average (plain_pic h w f)) (f_mean c) /\ curve (least (plain_pic h w f)) (f_min c) /\
    curve (greatest (plain_pic h w f)) (f_max c) /\
    curve (pixel_of_row (plain_pic h w f) (h / 2)) (f_mid c).
Proof.
  intros Hh Hw. destruct (horizontal (mkQ h w Plain f) (h / 2)) as (c & E & C1 & C2 & C3 & C4); auto.
  - discriminate.
  - left. split; auto. exists 0. auto.
  - apply half_below; auto.
  - change (pic (mkQ h w Plain f)) with (plain_pic h w f) in *.
    exists c. split; [exact E|].
    destruct (bracketed false _ _ E) as (B1 & B2 & _).
    assert (M : map fst (f_mean c) = seq 0 w)
      by (apply (curve_positions _ _ w C1); intros j; apply plain_average_positions; auto).
    split; [exact M|]. split; [congruence|]. split; [congruence|].
    split; [apply (curve_positions _ _ w C4); intros j; apply plain_mid_positions|].
    auto.
Qed.

Lemma plain_both (vertical : bool) h w f : 0 < h -> 0 < w ->
  let p := if vertical then flipped (plain_pic h w f) else plain_pic h w f in
  exists c, image_profiles vertical (mkQ h w Plain f) = Ok c /\
    map fst (f_mean c) = seq 0 (cols p) /\ map fst (f_min c) = seq 0 (cols p) /\
    map fst (f_max c) = seq 0 (cols p) /\ map fst (f_mid c) = seq 0 (cols p) /\
    curve (average p) (f_mean c) /\ curve (least p) (f_min c) /\ curve (greatest p) (f_max c) /\
    curve (pixel_of_row p (rows p / 2)) (f_mid c).
Proof.
  intros Hh Hw p. destruct vertical.
  - destruct (plain_h w h (fun i j => f j i) Hw Hh) as (c & E & R). exists c. split; [exact E|exact R].
  - exact (plain_h h w f Hh Hw).
Qed.

Lemma masked_both (vertical : bool) h w mask f m : 0 < h -> 0 < w ->
  let p := if vertical then flipped (masked_pic h w mask f) else masked_pic h w mask f in
  middle p m -> m < rows p ->
  exists c, image_profiles vertical (mkQ h w (Masked mask) f) = Ok c /\
    curve (average p) (f_mean c) /\ curve (least p) (f_min c) /\ curve (greatest p) (f_max c) /\
    curve (pixel_of_row p m) (f_mid c).
Proof.
  intros Hh Hw p M Hm. destruct vertical.
  - apply (vertical (mkQ h w (Masked mask) f)); auto. discriminate.
  - apply (horizontal (mkQ h w (Masked mask) f)); auto. discriminate.
Qed.

(** ** Errors *)

Lemma no_mask_fails (vertical : bool) h w f : 0 < h -> 0 < w ->
  image_profiles vertical (mkQ h w NoMask f) = Err TypeError.
Proof.
  assert (H : forall h w f, 0 < h -> image_profiles false (mkQ h w NoMask f) = Err TypeError).
  { clear. intros h w f Hh. unfold image_profiles; cbn [q_h q_w q_kind].
    destruct (h =? 0) eqn:E; [apply Nat.eqb_eq in E; lia|].
    unfold row; cbn [q_h q_w]. pose proof (half_below h Hh) as B. apply Nat.ltb_lt in B. rewrite B.
    reflexivity. }
  intros Hh Hw. destruct vertical; [apply (H w h (fun i j => f j i) Hw)|apply H; auto].
Qed.

Lemma middle_hidden h w mask f : 0 < h <= 2 ->
  (forall j, j < w -> mask (h / 2) j = true) ->
  image_profiles false (mkQ h w (Masked mask) f) = Err IndexError.
Proof.
  intros Hh Hm. unfold image_profiles; cbn [q_h q_w q_kind].
  destruct (h =? 0) eqn:E; [apply Nat.eqb_eq in E; lia|].
  unfold row at 1; cbn [q_h q_w]. pose proof (half_below h (proj1 Hh)) as B. apply Nat.ltb_lt in B. rewrite B.
  cbn [bind].
  assert (F : forallb is_masked (map (at_ (mkQ h w (Masked mask) f) (h / 2)) (seq 0 w)) = true).
  { apply (row_masked (mkQ h w (Masked mask) f) (h / 2)). intros j Hj. simpl. rewrite Hm by auto. reflexivity. }
  rewrite F. unfold row; cbn [q_h q_w].
  assert (G : h / 2 + 1 <? h = false).
  { apply Nat.ltb_ge. destruct Hh as [H1 H2]. destruct h as [|[|[|h]]]; simpl; lia. }
  rewrite G. reflexivity.
Qed.

(** ** The images of the plots *)

Lemma sub_nowrap a b : (0 <= a < 2 ^ 63 -> 0 <= b < 2 ^ 63 -> wrap64 (a - b) = a - b)%Z.
Proof.
  intros Ha Hb. unfold wrap64. rewrite Z.mod_small; lia.
Qed.

Lemma average_ext h w f g j v : (forall i j, (f i j == g i j)%Q) ->
  average (plain_pic h w f) j v -> average (plain_pic h w g) j v.
Proof.
  intros E (Hj & Hi & Eq). split; [exact Hj|]. split; [exact Hi|].
  rewrite Eq. unfold seen_sum; cbn [rows visible value plain_pic]. apply sumq_ext. intros i _. apply E.
Qed.

Lemma appears_ext h w f g j v : (forall i j, (f i j == g i j)%Q) ->
  appears (plain_pic h w f) j v -> appears (plain_pic h w g) j v.
Proof.
  intros E (Hj & i & Hi & Hv & Eq). split; [exact Hj|]. exists i. split; [exact Hi|]. split; [exact Hv|].
  cbn [value plain_pic] in *. rewrite <- E. exact Eq.
Qed.

Lemma least_ext h w f g j v : (forall i j, (f i j == g i j)%Q) ->
  least (plain_pic h w f) j v -> least (plain_pic h w g) j v.
Proof.
  intros E [A L]. split; [eapply appears_ext; eauto|]. intros i Hi Hv. cbn [value plain_pic].
  rewrite <- E. apply (L i Hi Hv).
Qed.

Lemma greatest_ext h w f g j v : (forall i j, (f i j == g i j)%Q) ->
  greatest (plain_pic h w f) j v -> greatest (plain_pic h w g) j v.
Proof.
  intros E [A L]. split; [eapply appears_ext; eauto|]. intros i Hi Hv. cbn [value plain_pic].
  rewrite <- E. apply (L i Hi Hv).
Qed.

Lemma row_ext h w f g m j v : (forall i j, (f i j == g i j)%Q) ->
  pixel_of_row (plain_pic h w f) m j v -> pixel_of_row (plain_pic h w g) m j v.
Proof.
  intros E (Hj & Hv & Eq). split; [exact Hj|]. split; [exact Hv|]. cbn [value plain_pic] in *.
  rewrite Eq. apply E.
Qed.

Lemma curve_change (P P' : nat -> Q -> Prop) l : (forall j v, P j v -> P' j v) -> (forall j v, P' j v -> P j v) ->
  curve P l -> curve P' l.
Proof.
  intros A B (S1 & C & D). split; [exact S1|]. split; [intros; apply A, C; auto|].
  intros j v H. apply (D j v), B, H.
Qed.

Lemma shows_h_ext h w f g c : (forall i j, (f i j == g i j)%Q) -> shows false h w f c -> shows false h w g c.
Proof.
  intros E (P & C1 & C2 & C3 & C4). assert (E' : forall i j, (g i j == f i j)%Q) by (intros; symmetry; auto).
  split; [exact P|]. split; [|split; [|split]].
  - eapply curve_change; [| |exact C1]; intros j v; apply average_ext; auto.
  - eapply curve_change; [| |exact C2]; intros j v; apply least_ext; auto.
  - eapply curve_change; [| |exact C3]; intros j v; apply greatest_ext; auto.
  - eapply curve_change; [| |exact C4]; intros j v; apply row_ext; auto.
Qed.

Lemma shows_ext (v : bool) h w f g c : (forall i j, (f i j == g i j)%Q) -> shows v h w f c -> shows v h w g c.
Proof.
  destruct v; [|apply shows_h_ext].
  intros E H. apply (shows_h_ext w h (fun i j => f j i) (fun i j => g j i)); auto.
Qed.

Lemma profiles_shown (v : bool) s h w : 0 < h -> 0 < w ->
  sums (sd_sum (sp_bright s)) h w -> sums (sd_sum (sp_dark s)) h w ->
  0 < sd_L (sp_bright s) -> 0 < sd_L (sp_dark s) ->
  let a := (qn (sd_L (sp_dark s)) / qn (sd_L (sp_bright s)))%Q in
  exists b d, plot_profiles v s = Ok (b, d) /\
    shows v h w (fun i j => avg_of (sp_bright s) i j - a * avg_of (sp_dark s) i j)%Q b /\
    shows v h w (fun i j => a * avg_of (sp_dark s) i j)%Q d.
Proof.
  intros Hh Hw (B1 & B2 & B3) (D1 & D2 & D3) Lb Ld a.
  pose proof (qn_neq0 _ Lb) as Nb. pose proof (qn_neq0 _ Ld) as Nd.
  unfold plot_profiles, profile_images, shape. rewrite B1, B2, D1, D2. unfold shape_eqb. cbn [fst snd].
  rewrite !Nat.eqb_refl. cbn [andb bind].
  destruct (plain_both v h w (fun i j => inject_Z (wrap64 (px (sd_sum (sp_bright s)) i j - px (sd_sum (sp_dark s)) i j)) / qn (sd_L (sp_bright s)))%Q Hh Hw)
    as (b & E & P1 & _ & _ & _ & P2 & P3 & P4 & P5).
  destruct (plain_both v h w (fun i j => inject_Z (px (sd_sum (sp_dark s)) i j) / qn (sd_L (sp_bright s)))%Q Hh Hw)
    as (d & E' & Q1 & _ & _ & _ & Q2 & Q3 & Q4 & Q5).
  exists b, d. rewrite E. cbn [bind]. rewrite E'. cbn [bind]. split; [reflexivity|]. split.
  - apply (shows_ext v h w (fun i j => inject_Z (wrap64 (px (sd_sum (sp_bright s)) i j - px (sd_sum (sp_dark s)) i j)) / qn (sd_L (sp_bright s)))%Q);
      [|split; [exact P1|auto]].
    intros i j. rewrite sub_nowrap by auto. unfold Z.sub. rewrite inject_Z_plus, inject_Z_opp.
    unfold a, avg_of. field. auto.
  - apply (shows_ext v h w (fun i j => inject_Z (px (sd_sum (sp_dark s)) i j) / qn (sd_L (sp_bright s)))%Q);
      [|split; [exact Q1|auto]].
    intros i j. unfold a, avg_of. field. auto.
Qed.

Lemma profiles_equal_counts (v : bool) s h w : 0 < h -> 0 < w ->
  sums (sd_sum (sp_bright s)) h w -> sums (sd_sum (sp_dark s)) h w ->
  0 < sd_L (sp_bright s) -> sd_L (sp_dark s) = sd_L (sp_bright s) ->
  exists b d, plot_profiles v s = Ok (b, d) /\
    shows v h w (fun i j => avg_of (sp_bright s) i j - avg_of (sp_dark s) i j)%Q b /\
    shows v h w (avg_of (sp_dark s)) d.
Proof.
  intros Hh Hw B D L E. destruct (profiles_shown v s h w Hh Hw B D L ltac:(lia)) as (b & d & P & S1 & S2).
  exists b, d. split; [exact P|]. rewrite E in S1, S2. pose proof (qn_neq0 _ L) as N.
  split; (eapply shows_ext; [|eassumption]; intros i j; cbv beta; field; exact N).
Qed.

(** Three dark images of value 8 and four bright images of value 30. *)
Definition flat (v : Z) : image := mkImg 1 2 (fun _ _ => v).
Definition unequal_counts : res spatial :=
  d <- get_int_imgs [flat 8; flat 8; flat 8] ;;
  b <- get_int_imgs [flat 30; flat 30; flat 30; flat 30] ;;
  get_spatial 1 2 [(FFin 1, [(fzero, d); (FFin 100, b)])].

Lemma dark_too_low :
  exists s b d v, unequal_counts = Ok s /\ plot_profiles false s = Ok (b, d) /\
    In (0, v) (f_mean d) /\ (v == 6)%Q /\ (avg_of (sp_dark s) 0 0 == 8)%Q /\ (avg_of (sp_dark s) 0 1 == 8)%Q /\
    exists u, In (0, u) (f_mean b) /\ (u == 24)%Q /\
      (avg_of (sp_bright s) 0 0 - avg_of (sp_dark s) 0 0 == 22)%Q.
Proof.
  remember unequal_counts as r eqn:E. vm_compute in E. destruct r as [s|e]; [|discriminate].
  exists s. injection E as ->.
  eexists _, _, _. split; [reflexivity|].
  split; [vm_compute; reflexivity|].
  split; [left; reflexivity|]. split; [vm_compute; reflexivity|].
  split; [vm_compute; reflexivity|]. split; [vm_compute; reflexivity|].
  eexists. split; [left; reflexivity|]. split; vm_compute; reflexivity.
Qed.

(** ** Rounding *)

(** Three rows of one image whose only pixel sum is 1 with ten images. *)
Lemma mean_above : exists rows, rows = repeat (fdiv (f_int 1) (f_int 10)) 3 /\
  flt (max_f rows) (mean_f rows) = true.
Proof. eexists. split; [reflexivity|]. vm_compute. reflexivity. Qed.

(** ** Spectrograms *)

Open Scope R_scope.

Lemma combine_map_r {A B C} (f : B -> C) (a : list A) b :
  combine a (map f b) = map (fun p => (fst p, f (snd p))) (combine a b).
Proof. revert b. induction a as [|x a IH]; intros [|y b]; simpl; f_equal; auto. Qed.

Lemma sqrt_ratio S m : 0 <= S -> 0 < m -> sqrt (S / m) = percent_of (sqrt S) m * sqrt m / 100.
Proof.
  intros HS Hm. unfold percent_of. rewrite sqrt_div by auto.
  pose proof (sqrt_lt_R0 m Hm) as P. pose proof (sqrt_sqrt m (Rlt_le _ _ Hm)) as Q.
  replace (100 * sqrt S / m * sqrt m / 100) with (sqrt S * (sqrt m / m)) by (field; lra).
  replace (sqrt m / m) with (/ sqrt m); [reflexivity|].
  rewrite <- Q at 3. field. lra.
Qed.

Lemma ratio_exact S m : 0 <= S -> 0 < m ->
  (sqrt (S / m) = percent_of (sqrt S) m <-> S = 0 \/ m = 10000).
Proof.
  intros HS Hm. rewrite sqrt_ratio by auto. unfold percent_of. split.
  - intros E. destruct (Req_dec S 0) as [|N]; [left; auto|right].
    assert (P : 0 < sqrt S) by (apply sqrt_lt_R0; lra).
    assert (E2 : sqrt m = 100).
    { assert (X : sqrt S * (sqrt m - 100) = 0).
      { replace (sqrt S * (sqrt m - 100)) with ((100 * sqrt S / m * sqrt m / 100 - 100 * sqrt S / m) * m)
          by (field; lra). rewrite E. ring. }
      apply Rmult_integral in X. destruct X; lra. }
    rewrite <- (sqrt_sqrt m) by lra. rewrite E2. lra.
  - intros [->| ->].
    + rewrite sqrt_0. field. lra.
    + replace 10000 with (100 * 100) by lra. rewrite sqrt_square by lra. field.
Qed.

Lemma sumR2_turned (rotate : bool) h w f :
  sumR2 (if rotate then w else h) (if rotate then h else w) (turned rotate f) = sumR2 h w f.
Proof.
  destruct rotate; unfold turned; [|reflexivity]. unfold sumR2. apply sumR_swap.
Qed.

Lemma FFT_ext h w f g (rotate : bool) n : (forall i j, f i j = g i j) ->
  (0 < h)%nat -> (0 < w)%nat -> (0 < n)%nat ->
  FFT1288 h w f rotate n =
  Ok (map XR (map (fun k => spectrum (if rotate then w else h) (if rotate then h else w) (turned rotate g) k / INR n ^ 2)
     (seq 0 ((if rotate then h else w) / 2 + 1)))).
Proof.
  intros E Hh Hw Hn. assert (X : forall a b f g k, (forall i j, f i j = g i j) -> spectrum a b f k = spectrum a b g k).
  { clear. intros a b f g k E. unfold spectrum, mean_of.
    assert (M : sumR2 a b f = sumR2 a b g) by (apply sumR2_ext; auto). rewrite M. f_equal. apply sumR_ext. intros r _. f_equal.
    apply modulus_ext. intros j _. rewrite E. reflexivity. }
  unfold FFT1288. destruct rotate; rewrite fft_rows_eq by auto; do 2 f_equal; apply map_ext; intros k;
    f_equal; apply X; intros i j; unfold turned; apply E.
Qed.

Lemma xsqrt_real x : 0 <= x -> xsqrt (XR x) = XR (sqrt x).
Proof. intros H. unfold xsqrt. destruct (Rlt_dec x 0); [lra|reflexivity]. Qed.

Lemma prnu_curve (rotate : bool) s h w : (0 < h)%nat -> (0 < w)%nat ->
  sums (sd_sum (sp_bright s)) h w -> sums (sd_sum (sp_dark s)) h w ->
  (0 < sd_L (sp_bright s))%nat ->
  let H := if rotate then w else h in
  let W := if rotate then h else w in
  let m := mean_of H W (turned rotate (net s)) in
  0 < m ->
  exists l, spectrogram_PRNU rotate s = Ok l /\ length l = (W / 2 + 1)%nat /\
    forall k, (k <= W / 2)%nat ->
      exists f, nth_error l k = Some (f, XR (sqrt (spectrum H W (turned rotate (net s)) k / m))).
Proof.
  intros Hh Hw (B1 & B2 & B3) (D1 & D2 & D3) L H W m Hm.
  unfold spectrogram_PRNU, shape. rewrite B1, B2, D1, D2. unfold shape_eqb. cbn [fst snd].
  rewrite !Nat.eqb_refl. cbn [andb].
  set (data := fun i j => IZR (wrap64 (px (sd_sum (sp_bright s)) i j - px (sd_sum (sp_dark s)) i j)) /
                          INR (sd_L (sp_bright s))).
  assert (E : forall i j, data i j = net s i j).
  { intros i j. unfold data, net. rewrite sub_nowrap by auto. rewrite minus_IZR. reflexivity. }
  rewrite (FFT_ext h w data (net s) rotate 1 E) by (auto with arith). cbn [bind].
  assert (N : sumR2 h w data / INR (h * w) = m).
  { unfold m, mean_of. unfold H, W. rewrite sumR2_turned.
    assert (M : sumR2 h w data = sumR2 h w (net s)) by (apply sumR2_ext; auto).
    rewrite M, mult_INR. destruct rotate; [rewrite (Rmult_comm (INR w))|]; reflexivity. }
  rewrite xdiv_fin_ by (apply not_0_INR; nia). rewrite N.
  eexists. split; [reflexivity|]. fold H W.
  set (sp := map (fun k => spectrum H W (turned rotate (net s)) k / INR 1 ^ 2) (seq 0 (W / 2 + 1))).
  assert (Lsp : length sp = (W / 2 + 1)%nat) by (unfold sp; rewrite map_length, seq_length; reflexivity).
  assert (Len : length (GetFrecs (map XR sp)) = (W / 2 + 1)%nat).
  { unfold GetFrecs. rewrite !map_length, !seq_length. exact Lsp. }
  split.
  - rewrite combine_length, Len, !map_length, Lsp. apply Nat.min_id.
  - intros k Hk. rewrite combine_map_r, nth_error_map.
    assert (G : exists f, nth_error (combine (GetFrecs (map XR sp)) (map XR sp)) k
       = Some (f, XR (spectrum H W (turned rotate (net s)) k / INR 1 ^ 2))).
    { eexists. rewrite (nth_error_nth' _ (0, XR 0)) by (rewrite combine_length, Len, !map_length, Lsp; lia).
      rewrite combine_nth by (rewrite Len, !map_length, Lsp; reflexivity).
      f_equal. f_equal. unfold sp. rewrite map_map, nth_map_seq by lia. reflexivity. }
    destruct G as (f & G). rewrite G. cbn [option_map fst snd]. exists f. do 2 f_equal.
    rewrite xdiv_fin_ by lra. rewrite xsqrt_real.
    + do 3 f_equal. simpl. field.
    + unfold Rdiv. apply Rmult_le_pos; [|left; apply Rinv_0_lt_compat; auto].
      simpl. replace (1 * (1 * 1)) with 1 by ring. rewrite Rinv_1, Rmult_1_r.
      apply spectrum_nonneg; unfold H, W; destruct rotate; auto.
Qed.

Lemma prnu_percent (rotate : bool) s h w : (0 < h)%nat -> (0 < w)%nat ->
  sums (sd_sum (sp_bright s)) h w -> sums (sd_sum (sp_dark s)) h w ->
  (0 < sd_L (sp_bright s))%nat ->
  let H := if rotate then w else h in
  let W := if rotate then h else w in
  let m := mean_of H W (turned rotate (net s)) in
  0 < m ->
  exists l, spectrogram_PRNU rotate s = Ok l /\ length l = (W / 2 + 1)%nat /\
    forall k, (k <= W / 2)%nat ->
      let dev := sqrt (spectrum H W (turned rotate (net s)) k) in
      exists f y, nth_error l k = Some (f, XR y) /\ y = percent_of dev m * sqrt m / 100 /\
        (y = percent_of dev m <-> dev = 0 \/ m = 10000).
Proof.
  intros Hh Hw B D L H W m Hm. destruct (prnu_curve rotate s h w Hh Hw B D L Hm) as (l & E & Len & P).
  exists l. split; [exact E|]. split; [exact Len|]. intros k Hk dev.
  destruct (P k Hk) as (f & Pk). exists f. eexists. split; [exact Pk|]. fold H W. fold m.
  assert (S0 : 0 <= spectrum H W (turned rotate (net s)) k)
    by (apply spectrum_nonneg; unfold H, W; destruct rotate; auto).
  split; [apply sqrt_ratio; auto|]. unfold dev. rewrite ratio_exact by auto.
  split; (intros [A|A]; [left|right; exact A]).
  - rewrite A. apply sqrt_0.
  - apply sqrt_eq_0; auto.
Qed.

Lemma dsnu_curve (rotate : bool) s h w : (0 < h)%nat -> (0 < w)%nat ->
  ih (sd_sum (sp_dark s)) = h -> iw (sd_sum (sp_dark s)) = w ->
  (0 < sd_L (sp_bright s))%nat -> (0 < sd_L (sp_dark s))%nat ->
  let H := if rotate then w else h in
  let W := if rotate then h else w in
  let dark := fun i j => IZR (px (sd_sum (sp_dark s)) i j) / INR (sd_L (sp_dark s)) in
  exists l, spectrogram_DSNU rotate s = Ok l /\ length l = (W / 2 + 1)%nat /\
    forall k, (k <= W / 2)%nat ->
      exists f, nth_error l k =
        Some (f, XR (INR (sd_L (sp_dark s)) / INR (sd_L (sp_bright s)) * sqrt (spectrum H W (turned rotate dark) k))).
Proof.
  intros Hh Hw D1 D2 Lb Ld H W dark. unfold spectrogram_DSNU. rewrite D1, D2.
  set (n := sd_L (sp_bright s)) in *. set (n' := sd_L (sp_dark s)) in *.
  assert (Pb : 0 < INR n) by (apply INR_pos; auto). assert (Pd : 0 < INR n') by (apply INR_pos; auto).
  set (raw := fun i j => IZR (px (sd_sum (sp_dark s)) i j)).
  assert (E : forall i j, raw i j = INR n' * dark i j) by (intros; unfold raw, dark; field; lra).
  rewrite (FFT_ext h w raw (fun i j => INR n' * dark i j) rotate n E) by auto. cbn [bind].
  eexists. split; [reflexivity|]. fold H W.
  set (sp := map (fun k => spectrum H W (turned rotate (fun i j => INR n' * dark i j)) k / INR n ^ 2) (seq 0 (W / 2 + 1))).
  assert (Lsp : length sp = (W / 2 + 1)%nat) by (unfold sp; rewrite map_length, seq_length; reflexivity).
  assert (Len : length (GetFrecs (map XR sp)) = (W / 2 + 1)%nat).
  { unfold GetFrecs. rewrite !map_length, !seq_length. exact Lsp. }
  split.
  - rewrite combine_length, Len, !map_length, Lsp. apply Nat.min_id.
  - intros k Hk. rewrite combine_map_r, nth_error_map.
    assert (G : exists f, nth_error (combine (GetFrecs (map XR sp)) (map XR sp)) k
       = Some (f, XR ((INR n' / INR n) ^ 2 * spectrum H W (turned rotate dark) k))).
    { eexists. rewrite (nth_error_nth' _ (0, XR 0)) by (rewrite combine_length, Len, !map_length, Lsp; lia).
      rewrite combine_nth by (rewrite Len, !map_length, Lsp; reflexivity).
      f_equal. f_equal. unfold sp. rewrite map_map, nth_map_seq by lia. f_equal.
      assert (Q : spectrum H W (turned rotate (fun i j => INR n' * dark i j)) k
                  = spectrum H W (fun i j => INR n' * turned rotate dark i j) k).
      { destruct rotate; reflexivity. }
      rewrite Q, spectrum_scal. field. lra. }
    destruct G as (f & G). rewrite G. cbn [option_map fst snd]. exists f. do 2 f_equal.
    assert (S0 : 0 <= spectrum H W (turned rotate dark) k)
      by (apply spectrum_nonneg; unfold H, W; destruct rotate; auto).
    assert (P0 : 0 <= INR n' / INR n) by (left; apply Rdiv_lt_0_compat; auto).
    rewrite xsqrt_real by (apply Rmult_le_pos; [apply pow2_ge_0|auto]).
    rewrite sqrt_mult by (auto; apply pow2_ge_0). rewrite sqrt_pow2 by auto. reflexivity.
Qed.

Lemma dsnu_equal_counts (rotate : bool) s h w : (0 < h)%nat -> (0 < w)%nat ->
  ih (sd_sum (sp_dark s)) = h -> iw (sd_sum (sp_dark s)) = w ->
  (0 < sd_L (sp_bright s))%nat -> sd_L (sp_dark s) = sd_L (sp_bright s) ->
  let H := if rotate then w else h in
  let W := if rotate then h else w in
  let dark := fun i j => IZR (px (sd_sum (sp_dark s)) i j) / INR (sd_L (sp_dark s)) in
  exists l, spectrogram_DSNU rotate s = Ok l /\ length l = (W / 2 + 1)%nat /\
    forall k, (k <= W / 2)%nat ->
      exists f, nth_error l k = Some (f, XR (sqrt (spectrum H W (turned rotate dark) k))).
Proof.
  intros Hh Hw D1 D2 Lb E H W dark.
  destruct (dsnu_curve rotate s h w Hh Hw D1 D2 Lb ltac:(lia)) as (l & P & Len & F).
  exists l. split; [exact P|]. split; [exact Len|]. intros k Hk. destruct (F k Hk) as (f & Ff).
  exists f. rewrite Ff. do 3 f_equal. fold H W. fold dark. rewrite E.
  replace (INR (sd_L (sp_bright s)) / INR (sd_L (sp_bright s))) with 1 by (field; apply not_0_INR; lia).
  ring.
Qed.

(** Three dark images of value 0 and three bright images with pixels 3 and 1. *)
Definition stripes : res spatial :=
  let d := mkImg 1 2 (fun _ _ => 0%Z) in
  let b := mkImg 1 2 (fun _ j => if (j =? 0)%nat then 3%Z else 1%Z) in
  d <- get_int_imgs [d; d; d] ;;
  b <- get_int_imgs [b; b; b] ;;
  get_spatial 1 2 [(FFin 1, [(fzero, d); (FFin 100, b)])].

Lemma three_equal h w f : exists ii, get_int_imgs [mkImg h w f; mkImg h w f; mkImg h w f] = Ok ii /\
  ii_L ii = 3%nat /\ ih (ii_sum ii) = h /\ iw (ii_sum ii) = w /\
  forall r c, px (ii_sum ii) r c
    = wrap64 (wrap64 (wrap64 (0 + wrap64 (f r c)) + wrap64 (f r c)) + wrap64 (f r c))%Z.
Proof.
  unfold get_int_imgs. cbn [forallb shape ih iw]. unfold shape_eqb. cbn [fst snd].
  rewrite !Nat.eqb_refl. cbn [andb negb fold_left int_step px].
  eexists. split; [reflexivity|]. cbn [ii_L ii_sum ih iw px]. auto.
Qed.

Lemma two_points d b : ii_L d = 3%nat -> ii_L b = 3%nat ->
  exists s, get_spatial 1 2 [(FFin 1, [(fzero, d); (FFin 100, b)])] = Ok s /\
    sd_sum (sp_dark s) = ii_sum d /\ sd_L (sp_dark s) = 3%nat /\
    sd_sum (sp_bright s) = ii_sum b /\ sd_L (sp_bright s) = 3%nat.
Proof.
  intros Ld Lb. unfold get_spatial.
  assert (P : py_sorted (dkeys [(fzero, d); (FFin 100, b)]) = [fzero; FFin 100]) by reflexivity.
  rewrite P.
  assert (G1 : dget feq fzero [(fzero, d); (FFin 100, b)] = Some d) by reflexivity.
  assert (G2 : dget feq (FFin 100) [(fzero, d); (FFin 100, b)] = Some b) by reflexivity.
  change (negb (existsb (feq fzero) [fzero; FFin 100])) with false.
  change (negb (length [fzero; FFin 100] =? 2)%nat) with false. cbv iota.
  rewrite G1. cbn [of_option bind]. unfold get_spatial_data at 1. rewrite Ld. cbn [Nat.eqb].
  cbn [bind of_option nth_error]. rewrite G2. cbn [of_option bind]. unfold get_spatial_data. rewrite Lb.
  cbn [Nat.eqb bind]. eexists. split; [reflexivity|]. cbn [sp_dark sp_bright sd_sum sd_L]. auto.
Qed.

Lemma stripes_sums : exists s, stripes = Ok s /\
  ih (sd_sum (sp_bright s)) = 1%nat /\ iw (sd_sum (sp_bright s)) = 2%nat /\
  ih (sd_sum (sp_dark s)) = 1%nat /\ iw (sd_sum (sp_dark s)) = 2%nat /\
  sd_L (sp_bright s) = 3%nat /\ sd_L (sp_dark s) = 3%nat /\
  (forall i j, px (sd_sum (sp_dark s)) i j = 0%Z) /\
  (forall i, px (sd_sum (sp_bright s)) i 0%nat = 9%Z) /\ (forall i, px (sd_sum (sp_bright s)) i 1%nat = 3%Z) /\
  forall i j, (0 <= px (sd_sum (sp_bright s)) i j < 2 ^ 63)%Z.
Proof.
  unfold stripes.
  destruct (three_equal 1 2 (fun _ _ => 0%Z)) as (d & E1 & Ld & Hd & Wd & Pd).
  destruct (three_equal 1 2 (fun _ j => if (j =? 0)%nat then 3%Z else 1%Z)) as (b & E2 & Lb & Hb & Wb & Pb).
  rewrite E1. cbn [bind]. rewrite E2. cbn [bind].
  destruct (two_points d b Ld Lb) as (s & E & S1 & S2 & S3 & S4). exists s.
  split; [exact E|]. rewrite S1, S2, S3, S4.
  split; [exact Hb|]. split; [exact Wb|]. split; [exact Hd|]. split; [exact Wd|].
  split; [reflexivity|]. split; [reflexivity|].
  split; [intros i j; rewrite Pd; reflexivity|].
  split; [intros i; rewrite Pb; reflexivity|].
  split; [intros i; rewrite Pb; reflexivity|].
  intros i j. rewrite Pb. destruct (j =? 0)%nat; split; [discriminate|reflexivity|discriminate|reflexivity].
Qed.

Lemma percent_wrong : exists s l f, stripes = Ok s /\ spectrogram_PRNU false s = Ok l /\
  nth_error l 1 = Some (f, XR 1) /\
  70 < percent_of (sqrt (spectrum 1 2 (net s) 1)) (mean_of 1 2 (net s)).
Proof.
  destruct stripes_sums as (s & E & B1 & B2 & D1 & D2 & Lb & Ld & Pd & P0 & P1 & Pb).
  assert (N0 : forall i, net s i 0 = 3).
  { intros i. unfold net. rewrite P0, Pd, Lb. simpl. field. }
  assert (N1 : forall i, net s i 1 = 1).
  { intros i. unfold net. rewrite P1, Pd, Lb. simpl. field. }
  assert (M : mean_of 1 2 (net s) = 2).
  { unfold mean_of, sumR2, sumR. rewrite N0, N1. simpl. field. }
  assert (S2 : spectrum 1 2 (net s) 1 = 2).
  { unfold spectrum, modulus2. rewrite M. cbn [sumR]. rewrite N0, N1.
    replace (2 * PI * INR 1 * INR 0 / INR 2) with 0 by (simpl; field).
    replace (2 * PI * INR 1 * INR 1 / INR 2) with PI by (simpl; field).
    rewrite cos_0, cos_PI, sin_0, sin_PI. simpl. field. }
  assert (SB : sums (sd_sum (sp_bright s)) 1 2) by (split; [exact B1|split; [exact B2|exact Pb]]).
  assert (SD : sums (sd_sum (sp_dark s)) 1 2).
  { split; [exact D1|]. split; [exact D2|]. intros i j. rewrite Pd. lia. }
  destruct (prnu_curve false s 1 2) as (l & El & _ & F); auto with arith.
  { rewrite Lb. auto with arith. }
  { change (0 < mean_of 1 2 (net s)). rewrite M. lra. }
  destruct (F 1%nat) as (f & Ff); [simpl; auto|].
  exists s, l, f. split; [exact E|]. split; [exact El|]. split.
  - rewrite Ff. change (turned false (net s)) with (net s). rewrite M, S2.
    replace (2 / 2) with 1 by field. rewrite sqrt_1. reflexivity.
  - rewrite M, S2. unfold percent_of.
    assert (Q : 1.4 < sqrt 2). { apply Rsqr_incrst_0; try lra; [|apply sqrt_pos].
      rewrite Rsqr_sqrt by lra. unfold Rsqr. lra. }
    lra.
Qed.

Lemma stripes_fit : exists s, stripes = Ok s /\
  sums (sd_sum (sp_bright s)) 1 2 /\ sums (sd_sum (sp_dark s)) 1 2 /\
  (0 < sd_L (sp_bright s))%nat /\ sd_L (sp_dark s) = sd_L (sp_bright s).
Proof.
  destruct stripes_sums as (s & E & B1 & B2 & D1 & D2 & Lb & Ld & Pd & P0 & P1 & Pb).
  exists s. split; [exact E|]. split; [split; [exact B1|split; [exact B2|exact Pb]]|].
  split; [split; [exact D1|split; [exact D2|intros i j; rewrite Pd; lia]]|].
  rewrite Lb, Ld. auto with arith.
Qed.
