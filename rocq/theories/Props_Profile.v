(** Properties of the profile plots (C61, C69) and of the spectrograms (C69, C70). *)
From Coq Require Import List Bool Arith ZArith QArith Reals.
From Verif Require Import Base_Prelude Base_Num Base_Float Base_Order Base_Sum Base_SumR Base_Xreal
  Model_Images Model_Data Model_FFT Model_Profile Spec_FFT Spec_Profile Proofs_Profile Proofs_Profile2.
Import ListNotations.
Open Scope nat_scope.

(** ** C61: profiles *)

(** Every plain image: one entry per column (per row for the vertical profile), the
    average, least and greatest pixel and the pixel of the middle row. *)
Theorem C61_plain (vertical : bool) h w f : 0 < h -> 0 < w ->
  let p := if vertical then flipped (plain_pic h w f) else plain_pic h w f in
  exists c, image_profiles vertical (mkQ h w Plain f) = Ok c /\
    map fst (f_mean c) = seq 0 (cols p) /\ map fst (f_min c) = seq 0 (cols p) /\
    map fst (f_max c) = seq 0 (cols p) /\ map fst (f_mid c) = seq 0 (cols p) /\
    curve (average p) (f_mean c) /\ curve (least p) (f_min c) /\ curve (greatest p) (f_max c) /\
    curve (pixel_of_row p (rows p / 2)) (f_mid c).
Proof. exact (plain_both vertical h w f). Qed.
Print Assumptions C61_plain.

Example C61_plain_case :
  image_profiles true (mkQ 2 3 Plain (fun i j => inject_Z (Z.of_nat (i * 10 + j)))) =
  Ok (mkProf [(0%nat, 3 # 3); (1%nat, 33 # 3)] [(0%nat, 0 # 1); (1%nat, 10 # 1)] [(0%nat, 2 # 1); (1%nat, 12 # 1)] [(0%nat, 1 # 1); (1%nat, 11 # 1)])%Q.
Proof. vm_compute. reflexivity. Qed.

(** Masked (colour) images: the same over the pixels that are not masked; the middle row
    is the next one if the row in the middle is masked completely. *)
Theorem C61_masked (vertical : bool) h w mask f m : 0 < h -> 0 < w ->
  let p := if vertical then flipped (masked_pic h w mask f) else masked_pic h w mask f in
  middle p m -> m < rows p ->
  exists c, image_profiles vertical (mkQ h w (Masked mask) f) = Ok c /\
    curve (average p) (f_mean c) /\ curve (least p) (f_min c) /\ curve (greatest p) (f_max c) /\
    curve (pixel_of_row p m) (f_mid c).
Proof. exact (masked_both vertical h w mask f m). Qed.
Print Assumptions C61_masked.

Example C61_masked_case :
  let mask := fun i j => negb (Nat.even i && Nat.even j) in
  let f := fun i j => inject_Z (Z.of_nat (i * 10 + j)) in
  middle (masked_pic 6 4 mask f) 4 /\
  image_profiles false (mkQ 6 4 (Masked mask) f) =
  Ok (mkProf [(0%nat, 60 # 3); (2%nat, 66 # 3)] [(0%nat, 0 # 1); (2%nat, 2 # 1)] [(0%nat, 40 # 1); (2%nat, 42 # 1)] [(0%nat, 40 # 1); (2%nat, 42 # 1)])%Q.
Proof. split; [right; split; [reflexivity|intros; reflexivity]|vm_compute; reflexivity]. Qed.

(** Every image of any kind: the curves lie in order at every position. *)
Theorem C61_bracketed (vertical : bool) im c : image_profiles vertical im = Ok c ->
  map fst (f_min c) = map fst (f_mean c) /\ map fst (f_max c) = map fst (f_mean c) /\
  (forall j v lo hi, In (j, v) (f_mean c) -> In (j, lo) (f_min c) -> In (j, hi) (f_max c) -> (lo <= v <= hi)%Q) /\
  (forall j v, In (j, v) (f_mid c) ->
     exists lo hi, In (j, lo) (f_min c) /\ In (j, hi) (f_max c) /\ (lo <= v <= hi)%Q).
Proof. exact (bracketed vertical im c). Qed.
Print Assumptions C61_bracketed.

(** In binary64 the mean of equal values may exceed them. *)
Theorem C61_rounding_refuted : exists column, column = repeat (fdiv (f_int 1) (f_int 10)) 3 /\
  flt (max_f column) (mean_f column) = true.
Proof. exact mean_above. Qed.
Print Assumptions C61_rounding_refuted.

(** A masked array without a mask has no profile. *)
Theorem C61_no_mask_refuted (vertical : bool) h w f : 0 < h -> 0 < w ->
  image_profiles vertical (mkQ h w NoMask f) = Err TypeError.
Proof. exact (no_mask_fails vertical h w f). Qed.
Print Assumptions C61_no_mask_refuted.

(** At most two rows with the last one masked: no profile. *)
Theorem C61_masked_middle_refuted h w mask f : 0 < h <= 2 ->
  (forall j, j < w -> mask (h / 2) j = true) ->
  image_profiles false (mkQ h w (Masked mask) f) = Err IndexError.
Proof. exact (middle_hidden h w mask f). Qed.
Print Assumptions C61_masked_middle_refuted.

Example C61_masked_middle_case : exists mask : nat -> nat -> bool,
  mask 0 0 = false /\ forall j, j < 4 -> mask (2 / 2) j = true.
Proof. exists (fun i _ => Nat.odd i). split; reflexivity. Qed.

(** ** C69: the dark curves *)

(** As many dark images as bright ones: the averaged images are shown. *)
Theorem C69_profiles (vertical : bool) s h w : 0 < h -> 0 < w ->
  sums (sd_sum (sp_bright s)) h w -> sums (sd_sum (sp_dark s)) h w ->
  0 < sd_L (sp_bright s) -> sd_L (sp_dark s) = sd_L (sp_bright s) ->
  exists b d, plot_profiles vertical s = Ok (b, d) /\
    shows vertical h w (fun i j => avg_of (sp_bright s) i j - avg_of (sp_dark s) i j)%Q b /\
    shows vertical h w (avg_of (sp_dark s)) d.
Proof. exact (profiles_equal_counts vertical s h w). Qed.
Print Assumptions C69_profiles.

Example C69_profiles_case : exists s, stripes = Ok s /\
  sums (sd_sum (sp_bright s)) 1 2 /\ sums (sd_sum (sp_dark s)) 1 2 /\
  0 < sd_L (sp_bright s) /\ sd_L (sp_dark s) = sd_L (sp_bright s).
Proof. exact stripes_fit. Qed.

(** In general the dark image is scaled by the ratio of the numbers of images. *)
Theorem C69_profiles_scaled (vertical : bool) s h w : 0 < h -> 0 < w ->
  sums (sd_sum (sp_bright s)) h w -> sums (sd_sum (sp_dark s)) h w ->
  0 < sd_L (sp_bright s) -> 0 < sd_L (sp_dark s) ->
  let a := (qn (sd_L (sp_dark s)) / qn (sd_L (sp_bright s)))%Q in
  exists b d, plot_profiles vertical s = Ok (b, d) /\
    shows vertical h w (fun i j => avg_of (sp_bright s) i j - a * avg_of (sp_dark s) i j)%Q b /\
    shows vertical h w (fun i j => a * avg_of (sp_dark s) i j)%Q d.
Proof. exact (profiles_shown vertical s h w). Qed.
Print Assumptions C69_profiles_scaled.

(** Three dark and four bright images of constant value 8 and 30: 6 and 24 are drawn
    where 8 and 22 are right. *)
Theorem C69_counts_refuted :
  exists s b d v, unequal_counts = Ok s /\ plot_profiles false s = Ok (b, d) /\
    In (0, v) (f_mean d) /\ (v == 6)%Q /\ (avg_of (sp_dark s) 0 0 == 8)%Q /\ (avg_of (sp_dark s) 0 1 == 8)%Q /\
    exists u, In (0, u) (f_mean b) /\ (u == 24)%Q /\
      (avg_of (sp_bright s) 0 0 - avg_of (sp_dark s) 0 0 == 22)%Q.
Proof. exact dark_too_low. Qed.
Print Assumptions C69_counts_refuted.

Open Scope R_scope.

Theorem C69_spectrogram (rotate : bool) s h w : (0 < h)%nat -> (0 < w)%nat ->
  ih (sd_sum (sp_dark s)) = h -> iw (sd_sum (sp_dark s)) = w ->
  (0 < sd_L (sp_bright s))%nat -> sd_L (sp_dark s) = sd_L (sp_bright s) ->
  let H := if rotate then w else h in
  let W := if rotate then h else w in
  let dark := fun i j => IZR (px (sd_sum (sp_dark s)) i j) / INR (sd_L (sp_dark s)) in
  exists l, spectrogram_DSNU rotate s = Ok l /\ length l = (W / 2 + 1)%nat /\
    forall k, (k <= W / 2)%nat ->
      exists f, nth_error l k = Some (f, XR (sqrt (spectrum H W (turned rotate dark) k))).
Proof. exact (dsnu_equal_counts rotate s h w). Qed.
Print Assumptions C69_spectrogram.

Theorem C69_spectrogram_scaled (rotate : bool) s h w : (0 < h)%nat -> (0 < w)%nat ->
  ih (sd_sum (sp_dark s)) = h -> iw (sd_sum (sp_dark s)) = w ->
  (0 < sd_L (sp_bright s))%nat -> (0 < sd_L (sp_dark s))%nat ->
  let H := if rotate then w else h in
  let W := if rotate then h else w in
  let dark := fun i j => IZR (px (sd_sum (sp_dark s)) i j) / INR (sd_L (sp_dark s)) in
  exists l, spectrogram_DSNU rotate s = Ok l /\ length l = (W / 2 + 1)%nat /\
    forall k, (k <= W / 2)%nat ->
      exists f, nth_error l k =
        Some (f, XR (INR (sd_L (sp_dark s)) / INR (sd_L (sp_bright s)) * sqrt (spectrum H W (turned rotate dark) k))).
Proof. exact (dsnu_curve rotate s h w). Qed.
Print Assumptions C69_spectrogram_scaled.

(** ** C70: the scale of the PRNU spectrograms *)

(** The height of the curve is the deviation in percent times sqrt(mean)/100: right only
    where there is no deviation or for a mean of 10000 DN. *)
Theorem C70_scale (rotate : bool) s h w : (0 < h)%nat -> (0 < w)%nat ->
  sums (sd_sum (sp_bright s)) h w -> sums (sd_sum (sp_dark s)) h w ->
  (0 < sd_L (sp_bright s))%nat ->
  let H := if rotate then w else h in
  let W := if rotate then h else w in
  let m := mean_of H W (turned rotate (net s)) in
  0 < m ->
  exists l, spectrogram_PRNU rotate s = Ok l /\ length l = (W / 2 + 1)%nat /\
    forall k, (k <= W / 2)%nat ->
      let dev := sqrt (spectrum H W (turned rotate (net s)) k) in
      exists f y, nth_error l k = Some (f, XR y) /\ y = percent_of dev m * sqrt m / 100 /\
        (y = percent_of dev m <-> dev = 0 \/ m = 10000).
Proof. exact (prnu_percent rotate s h w). Qed.
Print Assumptions C70_scale.

(** Columns of 3 and 1 DN: more than 70 %, drawn at 1. *)
Theorem C70_percent_refuted : exists s l f, stripes = Ok s /\ spectrogram_PRNU false s = Ok l /\
  nth_error l 1 = Some (f, XR 1) /\
  70 < percent_of (sqrt (spectrum 1 2 (net s) 1)) (mean_of 1 2 (net s)).
Proof. exact percent_wrong. Qed.
Print Assumptions C70_percent_refuted.
