(** Properties C36-C42, C63: histograms, high-pass filter, row compression, spectra. *)
From Coq Require Import List Bool Arith ZArith QArith Reals Qreals Lia.
From Verif Require Import Base_Prelude Base_Sum Base_Xreal Base_SumR Model_Images Model_Data
  Model_Results Model_Hist Model_FFT Spec_Hist Spec_FFT
  Proofs_Hist Proofs_Hist2 Proofs_Hist3 Proofs_Hist4 Proofs_Hist5 Proofs_FFT Props_Results.
Import ListNotations.
Open Scope Z_scope.

(** C36: one bin per pixel, at most Qmax bins of the least possible integer width, and
    the counts of the reference algorithm. *)
Theorem C36_partition y Qmax :
  y <> [] -> 1 <= Qmax ->
  exists h lo hi W,
    histogram1288 (plain y) Qmax = Ok h /\
    is_min lo y /\ is_max hi y /\ 1 <= W /\
    let n := length (h_bins h) in
    let bin := fun i => lo + Z.of_nat i * W in
    length (h_values h) = n /\ (1 <= n)%nat /\ Z.of_nat n <= Qmax /\
    (forall i, (i < n)%nat ->
       (nth i (h_bins h) 0%Q == inject_Z (bin i))%Q /\
       nth i (h_values h) 0 = Z.of_nat (between (bin i) (bin i + W) y)) /\
    (forall v, In v y -> exists! i, (i < n)%nat /\ bin i <= v < bin i + W) /\
    lsumz (h_values h) = Z.of_nat (length y) /\
    (hi - lo + 1 <= Qmax -> W = 1 /\ Z.of_nat n = hi - lo + 1) /\
    (forall W', 1 <= W' -> (hi - lo) / W' + 1 <= Qmax -> W <= W') /\
    h_values h = reference_histogram lo W n y.
Proof. exact (histogram_partition y Qmax). Qed.
Print Assumptions C36_partition.
Example C36_case : exists h, histogram1288 (plain [3; 10; 4; 3; 7]) 4 = Ok h /\
  h_bins h = [3 # 1; 5 # 1; 7 # 1; 9 # 1]%Q /\ h_values h = [3; 0; 1; 1].
Proof. eexists. split; [reflexivity|]. split; reflexivity. Qed.

(** An empty array, or one with every element masked, is refused. *)
Theorem C36_nothing_to_count y Qmax :
  (y = [] -> histogram1288 y Qmax = Err ValueError) /\
  (y <> [] -> (forall c, In c y -> snd c = true) -> histogram1288 y Qmax = Err TypeError).
Proof. exact (histogram_empty y Qmax). Qed.
Print Assumptions C36_nothing_to_count.
Example C36_nothing_case : histogram1288 [(5, true); (6, true)] 4 = Err TypeError.
Proof. reflexivity. Qed.

(** For a masked array the bins come from the unmasked pixels, but masked pixels are
    counted as well. *)
Theorem C36_masked_refuted :
  exists y h, (exists a b, In (a, false) y /\ In (b, true) y) /\
    histogram1288 y 256 = Ok h /\
    lsumz (h_values h) <> Z.of_nat (length (filter (fun c => negb (snd c)) y)).
Proof. exact masked_counted. Qed.
Print Assumptions C36_masked_refuted.

(** C37: percentage of the pixels deviating by at least the bin value. *)
Theorem C37_dark o :
  let s := sd_sum (dark o) in
  (0 < ih s * iw s)%nat -> (0 < sd_L (dark o))%nat ->
  exists a, histogram_DSNU_accumulated o = Ok a /\
    accumulated_histogram (ih s) (iw s) (px s) (qn (sd_L (dark o))) (a_bins a) (a_values a).
Proof. exact (dsnu_accumulated o). Qed.
Print Assumptions C37_dark.

Theorem C37_bright o h w :
  let b := sd_sum (bright o) in let d := sd_sum (dark o) in
  shape b = (h, w) -> shape d = (h, w) -> (4 < h)%nat -> (4 < w)%nat -> (0 < sd_L (bright o))%nat ->
  let diff := fun r c => px b r c - px d r c in
  exists a, histogram_PRNU_accumulated o = Ok a /\
    accumulated_histogram (h - 4) (w - 4)
      (fun r c => 25 * diff (r + 2)%nat (c + 2)%nat - block_sum 5 diff r c)
      (qn (sd_L (bright o)) * 25) (a_bins a) (a_values a).
Proof. exact (prnu_accumulated o h w). Qed.
Print Assumptions C37_bright.

(** A 6x5 object: one pixel of the dark image and one of the bright image stand out. *)
Definition ex_sd (f : nat -> nat -> Z) (L : nat) : sdata :=
  mkS (mkImg 6 5 f) L 6 5 (Some 0%Q) (Some 0%Q) 0%Q (Some 0%Q) (Some 0%Q).
Definition ex_hist_obj : robj :=
  mkObj (o_t sample)
    (mkSpatial (sp_texp (o_s sample)) (sp_up (o_s sample))
       (ex_sd (fun r c => if ((r =? 1) && (c =? 2))%nat%bool then 50 else Z.of_nat c) 2)
       (ex_sd (fun r c => if ((r =? 3) && (c =? 2))%nat%bool then 130 else 100 + Z.of_nat c) 2))
    None None.
Example C37_case : match histogram_DSNU_accumulated ex_hist_obj with
  | Ok a => (length (a_bins a), map Qred (firstn 4 (a_values a)), Qred (nth 47 (a_values a) 0%Q))
  | Err _ => (0%nat, [], 0%Q)
  end = (48%nat, [100; 80; 130 # 3; 70 # 3]%Q, 10 # 3).
Proof. lazy. reflexivity. Qed.
Example C37_case_bright : match histogram_PRNU_accumulated ex_hist_obj with
  | Ok a => (map Qred (a_bins a), map Qred (a_values a))
  | Err _ => ([], [])
  end = ([7], [100])%Q.
Proof. lazy. reflexivity. Qed.

(** C64: the histograms count the pixels of the deviation image in digital numbers. *)
Theorem C64_dark o :
  let s := sd_sum (dark o) in
  let L := qn (sd_L (dark o)) in
  (0 < ih s * iw s)%nat -> (0 < sd_L (dark o))%nat ->
  exists hh, histogram_DSNU o = Ok hh /\
    counts_pixels (ih s) (iw s)
      (fun r c => inject_Z (px s r c) / L
                  - inject_Z (sumz2 (ih s) (iw s) (px s)) / qn (ih s * iw s) / L)%Q
      (h_bins hh) (h_values hh).
Proof. exact (dsnu_histogram o). Qed.
Print Assumptions C64_dark.
Theorem C64_bright o h w :
  let b := sd_sum (bright o) in let d := sd_sum (dark o) in
  let L := qn (sd_L (bright o)) in
  shape b = (h, w) -> shape d = (h, w) -> (4 < h)%nat -> (4 < w)%nat -> (0 < sd_L (bright o))%nat ->
  let diff := fun r c => px b r c - px d r c in
  exists hh, histogram_PRNU o = Ok hh /\
    counts_pixels (h - 4) (w - 4)
      (fun r c => inject_Z (25 * diff (r + 2)%nat (c + 2)%nat - block_sum 5 diff r c) / (L * 25) - 0)%Q
      (h_bins hh) (h_values hh).
Proof. exact (prnu_histogram o h w). Qed.
Print Assumptions C64_bright.
Example C64_case : match histogram_PRNU ex_hist_obj with
  | Ok a => (Qred (nth 0 (h_bins a) 0%Q), length (h_bins a), nth 0 (h_values a) 0, nth 233 (h_values a) 0)
  | Err _ => (0%Q, 0%nat, 0, 0)
  end = (2 # 5, 234%nat, 1, 1).
Proof. lazy. reflexivity. Qed.

(** C38: scaled difference to the local mean. *)
Theorem C38_high_pass im dim : Nat.odd dim = true -> (3 <= dim)%nat ->
  exists im', high_pass_filter im dim = Ok (im', Z.of_nat dim ^ 2) /\
   ih im' = (ih im - (dim - 1))%nat /\ iw im' = (iw im - (dim - 1))%nat /\
   forall r c, (r < ih im')%nat -> (c < iw im')%nat ->
     px im' r c = Z.of_nat dim ^ 2 * px im (r + (dim - 1) / 2)%nat (c + (dim - 1) / 2)%nat
                  - block_sum dim (px im) r c.
Proof. exact (high_pass_spec im dim). Qed.
Print Assumptions C38_high_pass.
Example C38_case : exists im' m,
  high_pass_filter (mkImg 3 4 (fun r c => Z.of_nat (r * r + c * c * c))) 3 = Ok (im', m) /\
  m = 9 /\ ih im' = 1%nat /\ iw im' = 2%nat /\ px im' 0 0 = -24 /\ px im' 0 1 = -42.
Proof. eexists. eexists. split; [reflexivity|]. vm_compute. repeat split. Qed.

Theorem C38_even_size_refused im dim :
  Nat.odd dim = false -> high_pass_filter im dim = Err ValueError.
Proof. exact (high_pass_even im dim). Qed.
Print Assumptions C38_even_size_refused.

(** A linear gradient (in particular a constant image) is filtered to zero. *)
Theorem C38_gradient_is_zero h w A B C dim :
  Nat.odd dim = true -> (3 <= dim)%nat ->
  exists im' m,
    high_pass_filter (mkImg h w (fun i j => A + B * Z.of_nat i + C * Z.of_nat j)) dim = Ok (im', m) /\
    forall r c, (r < ih im')%nat -> (c < iw im')%nat -> px im' r c = 0.
Proof. exact (high_pass_linear_zero h w A B C dim). Qed.
Print Assumptions C38_gradient_is_zero.

(** Linear in the image, and unchanged by an offset [k]. *)
Theorem C38_linear h w f g dim a b k :
  Nat.odd dim = true -> (3 <= dim)%nat ->
  exists i1 i2 i3 m,
    high_pass_filter (mkImg h w f) dim = Ok (i1, m) /\
    high_pass_filter (mkImg h w g) dim = Ok (i2, m) /\
    high_pass_filter (mkImg h w (fun r c => a * f r c + b * g r c + k)) dim = Ok (i3, m) /\
    forall r c, (r < h - (dim - 1))%nat -> (c < w - (dim - 1))%nat ->
      px i3 r c = a * px i1 r c + b * px i2 r c.
Proof. exact (high_pass_additive h w f g dim a b k). Qed.
Print Assumptions C38_linear.

(** The size 1 is accepted but the result has no pixel at all. *)
Theorem C38_size_one_refuted :
  exists im im', ih im = 3%nat /\ iw im = 3%nat /\
    high_pass_filter im 1 = Ok (im', 1) /\ ih im' = 0%nat /\ iw im' = 0%nat.
Proof. exact size_one_empty. Qed.
Print Assumptions C38_size_one_refuted.

(** C39: masked images.  [seen r c]: pixel (r, c) of the cropped image is unmasked;
    [n_at r c]: number of unmasked pixels in its window. *)
Theorem C39_masked_high_pass m dim :
  Nat.odd dim = true -> (3 <= dim)%nat ->
  let h := ih (m_img m) in let w := iw (m_img m) in
  let s := ((dim - 1) / 2)%nat in
  let inside := fun r c => (r + (dim - 1) < h)%nat /\ (c + (dim - 1) < w)%nat in
  let seen := fun r c => inside r c /\ m_mask m (r + s)%nat (c + s)%nat = false in
  let n_at := block_sum dim (fun i j => if m_mask m i j then 0 else 1) in
  (exists r c, seen r c) ->
  (forall n, (forall r c, seen r c -> n_at r c = n) ->
     exists m', high_pass_filter_masked m dim = Ok (m', Some n) /\
       ih (m_img m') = (h - (dim - 1))%nat /\ iw (m_img m') = (w - (dim - 1))%nat /\
       forall r c, inside r c ->
         m_mask m' r c = m_mask m (r + s)%nat (c + s)%nat /\
         (m_mask m' r c = false ->
          px (m_img m') r c =
          n * px (m_img m) (r + s)%nat (c + s)%nat
          - block_sum dim (fun i j => if m_mask m i j then 0 else px (m_img m) i j) r c)) /\
  ((exists r c r' c', seen r c /\ seen r' c' /\ n_at r c <> n_at r' c') ->
     high_pass_filter_masked m dim = Err ValueError).
Proof. exact (masked_spec m dim). Qed.
Print Assumptions C39_masked_high_pass.
(** A Bayer channel: every second pixel in both directions. *)
Definition bayer (h w : nat) (f : nat -> nat -> Z) : mimage :=
  mkMI (mkImg h w f) (fun r c => negb (Nat.even r && Nat.even c)).
Example C39_case : exists m',
  high_pass_filter_masked (bayer 6 5 (fun r c => Z.of_nat (r * r * r + 100 * c))) 5 = Ok (m', Some 9) /\
  m_mask m' 0 0 = false /\ m_mask m' 1 0 = true /\ px (m_img m') 0 0 = -144.
Proof. eexists. split; [reflexivity|]. vm_compute. repeat split. Qed.
Example C39_case_refused :
  high_pass_filter_masked (mkMI (mkImg 6 6 (fun _ _ => 7)) (fun r c => Nat.eqb r 0 && Nat.eqb c 0)) 3
  = Err ValueError.
Proof. vm_compute. reflexivity. Qed.

Theorem C39_masked_values_irrelevant m1 m2 dim :
  shape (m_img m1) = shape (m_img m2) ->
  (forall r c, m_mask m1 r c = m_mask m2 r c) ->
  (forall r c, m_mask m1 r c = false -> px (m_img m1) r c = px (m_img m2) r c) ->
  match high_pass_filter_masked m1 dim, high_pass_filter_masked m2 dim with
  | Ok (a, na), Ok (b, nb) =>
      na = nb /\ shape (m_img a) = shape (m_img b) /\
      (forall r c, m_mask a r c = m_mask b r c /\ px (m_img a) r c = px (m_img b) r c)
  | Err e1, Err e2 => e1 = e2
  | _, _ => False
  end.
Proof. exact (masked_noninterference m1 m2 dim). Qed.
Print Assumptions C39_masked_values_irrelevant.

(** C40: no row is corrupted by the in-place compression. *)
Theorem C40_row_compression width data masks :
  length masks = length data ->
  (forall d, In d data -> length d = width) ->
  exists c,
    row_wise_compress width data masks = map (firstn c) (kept_rows data masks) /\
    (forall r, In r (kept_rows data masks) -> (1 <= c <= length r)%nat) /\
    (kept_rows data masks <> [] -> exists r, In r (kept_rows data masks) /\ length r = c).
Proof. exact (compress_spec width data masks). Qed.
Print Assumptions C40_row_compression.
Example C40_case :
  row_wise_compress 3 [[1; 2; 3]; [4; 5; 6]; [7; 8; 9]; [10; 11; 12]]
    [[true; true; true]; [false; true; false]; [true; true; true]; [false; false; false]]
  = [[4; 6]; [10; 11]].
Proof. reflexivity. Qed.

Open Scope R_scope.

(** C41: the returned list determines the full symmetric spectrum, whose sum is the
    energy of the image. *)
Theorem C41_power_spectrum h w f (rotate : bool) n :
  (0 < h)%nat -> (0 < w)%nat -> (0 < n)%nat ->
  let H := if rotate then w else h in
  let W := if rotate then h else w in
  let g := fun r c => if rotate then f c r else f r c in
  exists l, FFT1288 h w f rotate n = Ok (map XR l) /\ length l = (W / 2 + 1)%nat /\
    (forall k, (k <= W / 2)%nat -> nth k l 0 = spectrum H W g k / INR n ^ 2 /\ 0 <= nth k l 0) /\
    sumR W (fun k => nth (Nat.min k (W - k)) l 0) = energy H W g / INR n ^ 2.
Proof. exact (fft_both h w f rotate n). Qed.
Print Assumptions C41_power_spectrum.
Example C41_case : exists l, FFT1288 2 3 (fun r c => INR (r + c)) false 1 = Ok (map XR l) /\ length l = 2%nat.
Proof.
  destruct (C41_power_spectrum 2 3 (fun r c => INR (r + c)) false 1) as (l & E & L & _); auto with arith.
  exists l. split; [exact E|exact L].
Qed.

Theorem C41_mirror h w f k : (0 < w)%nat -> (k <= w)%nat ->
  spectrum h w f (w - k) = spectrum h w f k.
Proof. exact (spectrum_mirror h w f k). Qed.
Print Assumptions C41_mirror.

(** The sum of n equal images, with n, has the spectrum of one image. *)
Theorem C41_sum_of_images h w f (rotate : bool) n : (0 < h)%nat -> (0 < w)%nat -> (0 < n)%nat ->
  FFT1288 h w (fun r c => INR n * f r c) rotate n = FFT1288 h w f rotate 1.
Proof. exact (fft_scaled h w f rotate n). Qed.
Print Assumptions C41_sum_of_images.

(** A constant image has no spectrum. *)
Theorem C41_constant h w b (rotate : bool) n : (0 < h)%nat -> (0 < w)%nat -> (0 < n)%nat ->
  exists l, FFT1288 h w (fun _ _ => b) rotate n = Ok (map XR l) /\ forall x, In x l -> x = 0.
Proof. exact (fft_constant h w b rotate n). Qed.
Print Assumptions C41_constant.

(** A wave with k0 periods over the w columns gives one line, at entry k0. *)
Theorem C41_pure_wave h w k0 A B : (0 < h)%nat -> (0 < k0)%nat -> (2 * k0 < w)%nat ->
  FFT1288 h w (fun _ c => B + A * cos (2 * PI * INR k0 * INR c / INR w)) false 1 =
  Ok (map XR (map (fun k => if (k =? k0)%nat then A ^ 2 * INR w / 4 else 0) (seq 0 (w / 2 + 1)))).
Proof. exact (wave_fft h w k0 A B). Qed.
Print Assumptions C41_pure_wave.

(** A masked image: the spectrum of the compressed rows. *)
Theorem C41_masked width data masks n :
  length masks = length data -> (forall d, In d data -> length d = width) ->
  kept_rows data masks <> [] ->
  exists c,
    (forall r, In r (kept_rows data masks) -> (1 <= c <= length r)%nat) /\
    (exists r, In r (kept_rows data masks) /\ length r = c) /\
    FFT1288_masked width data masks n =
    FFT1288 (length (kept_rows data masks)) c
      (fun r j => IZR (nth j (nth r (kept_rows data masks) []) 0%Z)) false n.
Proof. exact (masked_fft width data masks n). Qed.
Print Assumptions C41_masked.

(** C42: the label is k / (2 (w/2 + 1)), not k / w: the line of a wave with k0 / w
    periods per pixel is drawn at a lower frequency, for every even width. *)
Theorem C42_labels_refuted h w k0 A : (0 < h)%nat -> (0 < k0)%nat -> (2 * k0 < w)%nat ->
  Nat.even w = true -> A <> 0 ->
  exists l, FFT1288 h w (fun _ c => A * cos (2 * PI * INR k0 * INR c / INR w)) false 1 = Ok (map XR l) /\
    0 < nth k0 l 0 /\
    nth k0 (GetFrecs l) 0 = INR k0 / (INR w + 2) /\
    nth k0 (GetFrecs l) 0 < INR k0 / INR w.
Proof. exact (labels_wrong h w k0 A). Qed.
Print Assumptions C42_labels_refuted.
Example C42_case : (0 < 1)%nat /\ (0 < 2)%nat /\ (2 * 2 < 8)%nat /\ Nat.even 8 = true /\ 3 <> 0.
Proof. repeat split; try lia. apply IZR_neq. lia. Qed.

(** No label ever reaches the Nyquist frequency; they are evenly spaced from 0. *)
Theorem C42_labels {A} (l : list A) k : (k < length l)%nat ->
  nth k (GetFrecs l) 0 = INR k / (2 * INR (length l)) /\ 0 <= nth k (GetFrecs l) 0 < 1 / 2.
Proof. exact (labels_below_half l k). Qed.
Print Assumptions C42_labels.

(** The labels are right for odd widths up to the missing half: k / (w + 1). *)
Theorem C42_odd_width h w f : (0 < h)%nat -> Nat.odd w = true ->
  exists l, FFT1288 h w f false 1 = Ok (map XR l) /\
    forall k, (k <= w / 2)%nat -> nth k (GetFrecs l) 0 = INR k / (INR w + 1).
Proof. exact (labels_odd h w f). Qed.
Print Assumptions C42_odd_width.

(** C63: the normal curve is the density with the image's mean and deviation, times
    the number of pixels and the bin width, up to a factor of at least (n-1)/n. *)
Theorem C63_model_curve y Qmax :
  y <> [] -> (1 <= Qmax)%Z ->
  exists h lo hi W,
    histogram1288 (plain y) Qmax = Ok h /\ is_min lo y /\ is_max hi y /\ (1 <= W)%Z /\
    length (h_model h) = length (h_bins h) /\
    (lo = hi -> h_model h = [XNan]) /\
    ((lo < hi)%Z ->
     exists rho,
       let n := INR (length (h_bins h)) in
       (n - 1) / n <= rho < 1 /\ rho = IZR (hi - lo) / (n * IZR W) /\
       forall i, (i < length (h_bins h))%nat ->
         nth i (h_model h) XNan =
         XR (rho * (INR (length y) * IZR W * gauss (mean_R y) (std_R y) (Q2R (nth i (h_bins h) 0%Q))))).
Proof. exact (model_curve y Qmax). Qed.
Print Assumptions C63_model_curve.
