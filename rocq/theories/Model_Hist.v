(** Model of the histogram, high-pass filter and row compression of
    src/emva1288/process/routines.py and of the histogram properties of
    src/emva1288/process/results.py.

    Integer arithmetic is exact (no int64 wrap-around, no rounding of the double
    precision sums inside the convolution); means are exact rationals. *)
From Coq Require Import List Bool Arith ZArith QArith Qround Reals Qreals.
From Verif Require Import Base_Prelude Base_Sum Base_Xreal Model_Images Model_Data Model_Results.
Import ListNotations.
Open Scope Z_scope.

(** One element of a (possibly masked) integer array: data and mask. *)
Definition cell := (Z * bool)%type.

(** np.ravel: the elements row by row. *)
Definition ravel {A} (h w : nat) (f : nat -> nat -> A) : list A :=
  flat_map (fun r => map (fun c => f r c) (seq 0 w)) (seq 0 h).

(** A plain array is a masked array without masked elements. *)
Definition plain (l : list Z) : list cell := map (fun v => (v, false)) l.

(** The unmasked elements. *)
Definition visible (y : list cell) : list Z := map fst (filter (fun p => negb (snd p)) y).

(** np.min and np.max of a non-empty list (0 for the empty list, not used). *)
Definition zmin (l : list Z) : Z := match l with [] => 0 | x :: l' => fold_left Z.min l' x end.
Definition zmax (l : list Z) : Z := match l with [] => 0 | x :: l' => fold_left Z.max l' x end.

Definition count {A} (f : A -> bool) (l : list A) : nat := length (filter f l).

(** numpy.histogram with explicit bin edges e_0 .. e_n: the elements are counted with
    searchsorted: below e_i for i < n, not above e_n for the last edge, and the
    counts are differences of consecutive numbers.  The mask is not considered. *)
Definition edge_count (data : list Z) (n : nat) (edge : nat -> Z) (i : nat) : Z :=
  if (i <? n)%nat then Z.of_nat (count (fun v => v <? edge i) data)
  else Z.of_nat (count (fun v => v <=? edge i) data).
Definition np_histogram (data : list Z) (n : nat) (edge : nat -> Z) : list Z :=
  map (fun i => edge_count data n edge (S i) - edge_count data n edge i) (seq 0 n).

Record hist := mkHist { h_bins : list Q; h_values : list Z; h_model : list xr }.

(** np.mean and the square of np.std. *)
Definition zmean (l : list Z) : Q := (inject_Z (lsumz l) / qn (length l))%Q.
Definition zvar (l : list Z) : Q :=
  (lsumq (map (fun v => (inject_Z v - zmean l) * (inject_Z v - zmean l)) l) / qn (length l))%Q.

(** routines.py:280-282, one value of the normal distribution.  With sigma = 0 the
    range is 0 as well and the first factor is 0/0. *)
Definition normal_at (mu var range : Q) (nbins : Z) (N : nat) (b : Z) : xr :=
  if Qeq_bool var 0 then XNan
  else let sigma := sqrt (Q2R var) in
       XR (Q2R range / IZR nbins * INR N / (sqrt (2 * PI) * sigma)
           * exp (- (1 / 2) * (1 / sigma * (IZR b - Q2R mu)) ^ 2))%R.

(** routines.py:252-302 Histogram1288, for Qmax >= 1 (results.py:64 uses 256).
    An empty array has no minimum (ValueError); with every element masked the bounds
    are numpy.ma.masked, which range() refuses (TypeError). *)
Definition histogram1288 (y : list cell) (Qmax : Z) : res hist :=
  match y with
  | [] => Err ValueError
  | _ =>
    let v := visible y in
    match v with
    | [] => Err TypeError
    | _ =>
      let ymin := zmin v in
      let ymax := zmax v in
      let q := ymax - ymin in
      let '(W, nb) :=
        if q + 1 >? Qmax
        then let W := Qfloor (inject_Z q / inject_Z Qmax) + 1 in
             (W, Qfloor (inject_Z q / inject_Z W) + 1)
        else (1, q + 1) in
      let n := Z.to_nat nb in
      let B := fun i => ymin + Z.of_nat i * W in
      Ok (mkHist (map (fun i => inject_Z (B i)) (seq 0 n))
                 (np_histogram (map fst y) n B)
                 (map (fun i => normal_at (zmean v) (zvar v) (inject_Z q) nb (length v) (B i))
                      (seq 0 n)))
    end
  end.

(** ** High-pass filter *)

(** scipy.ndimage.convolve, mode 'reflect' (d c b a | a b c d | d c b a): the row or
    column read for position z of an axis of length n. *)
Definition reflect (n : nat) (z : Z) : nat :=
  let m := z mod (2 * Z.of_nat n) in
  Z.to_nat (if m <? Z.of_nat n then m else 2 * Z.of_nat n - 1 - m).

(** scipy.ndimage.convolve with an odd dim x dim kernel. *)
Definition convolve (h w : nat) (f : nat -> nat -> Z) (dim : nat) (kern : nat -> nat -> Z)
    (i j : nat) : Z :=
  let sl := Z.of_nat (dim / 2) in
  sumz2 dim dim (fun a b =>
    kern a b * f (reflect h (Z.of_nat i + sl - Z.of_nat a))
                 (reflect w (Z.of_nat j + sl - Z.of_nat b))).

(** The kernel: -1 everywhere but at [sl, sl]. *)
Definition hp_kernel (sl : nat) (centre : Z) (a b : nat) : Z :=
  if ((a =? sl) && (b =? sl))%nat%bool then centre else -1.

(** Length of l[sl:-sl]; with sl = 0 this is l[0:0]. *)
Definition cropped (n sl : nat) : nat := if (sl =? 0)%nat then 0%nat else (n - 2 * sl)%nat.

(** img[sl:-sl, sl:-sl] *)
Definition crop (sl : nat) (im : image) : image :=
  mkImg (cropped (ih im) sl) (cropped (iw im) sl) (fun r c => px im (r + sl)%nat (c + sl)%nat).

(** routines.py:623-716 high_pass_filter, plain array: image and multiplicator. *)
Definition high_pass_filter (im : image) (dim : nat) : res (image * Z) :=
  if Nat.even dim then Err ValueError
  else
    let sl := (dim / 2)%nat in
    let centre := Z.of_nat dim ^ 2 - 1 in
    Ok (crop sl (mkImg (ih im) (iw im)
                   (convolve (ih im) (iw im) (px im) dim (hp_kernel sl centre))),
        centre + 1).

(** A masked image. *)
Record mimage := mkMI { m_img : image; m_mask : nat -> nat -> bool }.

(** img.filled(0) *)
Definition filled0 (m : mimage) (r c : nat) : Z :=
  if m_mask m r c then 0 else px (m_img m) r c.

(** routines.py:682-708 high_pass_filter, masked array.  An empty cropped array has no
    maximum (ValueError).  When every cropped pixel is masked the kernel centre is NaN:
    multiplicator [None], and no pixel of the result is visible. *)
Definition high_pass_filter_masked (m : mimage) (dim : nat) : res (mimage * option Z) :=
  if Nat.even dim then Err ValueError
  else
    let sl := (dim / 2)%nat in
    let h := ih (m_img m) in
    let w := iw (m_img m) in
    let value := convolve h w (fun r c => if m_mask m r c then 0 else 1) dim (fun _ _ => 1) in
    let h' := cropped h sl in
    let w' := cropped w sl in
    let vals := visible (ravel h' w' (fun r c =>
                  (value (r + sl)%nat (c + sl)%nat, m_mask m (r + sl)%nat (c + sl)%nat))) in
    let out := fun centre =>
      mkMI (crop sl (mkImg h w (convolve h w (filled0 m) dim (hp_kernel sl centre))))
           (fun r c => m_mask m (r + sl)%nat (c + sl)%nat) in
    if ((h' =? 0) || (w' =? 0))%nat%bool then Err ValueError
    else match vals with
         | [] => Ok (out 0, None)
         | _ => if negb (zmax vals =? zmin vals) then Err ValueError
                else let centre := zmax vals - 1 in
                     Ok (out centre, Some (centre + 1))
         end.

(** ** results.py:1114-1224, for plain arrays *)

Definition Qmax1288 : Z := 256.

Definition pixels_of (im : image) : list Z := ravel (ih im) (iw im) (px im).

(** self.spatial['sum'] - self.spatial['sum_dark'] *)
Definition prnu_image (o : robj) : res image :=
  let a := sd_sum (bright o) in
  let b := sd_sum (dark o) in
  if shape_eqb (shape a) (shape b)
  then Ok (mkImg (ih a) (iw a) (fun r c => px a r c - px b r c))
  else Err ValueError.

(** h['bins'] /= k ; h['bins'] -= d *)
Definition rescale (k d : Q) (h : hist) : hist :=
  mkHist (map (fun b => b / k - d)%Q (h_bins h)) (h_values h) (h_model h).

(** results.py:1114-1138 histogram_PRNU *)
Definition histogram_PRNU (o : robj) : res hist :=
  y <- prnu_image o ;;
  d <- high_pass_filter y 5 ;;
  h <- histogram1288 (plain (pixels_of (fst d))) Qmax1288 ;;
  Ok (rescale (qn (sd_L (bright o)) * inject_Z (snd d)) 0 h).

(** results.py:1172-1196 histogram_DSNU *)
Definition histogram_DSNU (o : robj) : res hist :=
  let y := pixels_of (sd_sum (dark o)) in
  h <- histogram1288 (plain y) Qmax1288 ;;
  Ok (rescale (qn (sd_L (dark o))) (zmean y / qn (sd_L (dark o))) h).

(** np.abs(y - int(np.mean(y))); int() truncates towards zero.  Empty: NaN, which
    int() refuses. *)
Definition abs_deviation (y : list Z) : res (list Z) :=
  match y with
  | [] => Err ValueError
  | _ => let c := Z.quot (lsumz y) (Z.of_nat (length y)) in
         Ok (map (fun v => Z.abs (v - c)) y)
  end.

(** np.cumsum *)
Fixpoint cumsum (acc : Z) (l : list Z) : list Z :=
  match l with [] => [] | x :: l' => (acc + x) :: cumsum (acc + x) l' end.

Record ahist := mkAHist { a_bins : list Q; a_values : list Q; a_model : list xr }.

(** results.py:1163-1167 and 1216-1222: scaled bins, values accumulated from the end
    and expressed in percent of [size]. *)
Definition accumulate (k : Q) (size : nat) (h : hist) : ahist :=
  mkAHist (map (fun b => b / k)%Q (h_bins h))
          (map (fun v => 100 * inject_Z v / qn size)%Q
               (rev (cumsum 0 (rev (h_values h)))))
          (h_model h).

(** results.py:1140-1170 histogram_PRNU_accumulated *)
Definition histogram_PRNU_accumulated (o : robj) : res ahist :=
  y <- prnu_image o ;;
  d <- high_pass_filter y 5 ;;
  z <- abs_deviation (pixels_of (fst d)) ;;
  h <- histogram1288 (plain z) Qmax1288 ;;
  Ok (accumulate (qn (sd_L (bright o)) * inject_Z (snd d)) (length z) h).

(** results.py:1198-1224 histogram_DSNU_accumulated *)
Definition histogram_DSNU_accumulated (o : robj) : res ahist :=
  z <- abs_deviation (pixels_of (sd_sum (dark o))) ;;
  h <- histogram1288 (plain z) Qmax1288 ;;
  Ok (accumulate (qn (sd_L (dark o))) (length z) h).

(** ** Row compression *)

(** numpy.ma compressed() of one row. *)
Definition compressed_row (data : list Z) (mask : list bool) : list Z :=
  map fst (filter (fun p => negb (snd p)) (combine data mask)).

(** compressed[k, :len(line)] = line, for a row number k inside the array. *)
Definition write_prefix (line old : list Z) : list Z := line ++ skipn (length line) old.
Fixpoint set_row (k : nat) (line : list Z) (buf : list (list Z)) : list (list Z) :=
  match buf, k with
  | [], _ => []
  | row :: buf', O => write_prefix line row :: buf'
  | row :: buf', S k' => row :: set_row k' line buf'
  end.

(** routines.py:231-240 one round of the loop, for row [i].  The copy's data and the
    array [compressed] are the same buffer: the row is read from the buffer as it is
    now.  State: buffer, lines, cols. *)
Definition compress_step (masks : list (list bool)) (st : list (list Z) * nat * nat) (i : nat) :=
  let '(buf, lines, cols) := st in
  let line := compressed_row (nth i buf []) (nth i masks []) in
  if (length line =? 0)%nat then (buf, lines, cols)
  else (set_row lines line buf, S lines, Nat.min cols (length line)).

(** routines.py:215-242 _row_wise_compress (185-212 is the same definition): the rows of
    the returned array.  [width] is img.shape[1]. *)
Definition row_wise_compress (width : nat) (data : list (list Z)) (masks : list (list bool))
    : list (list Z) :=
  let '(buf, lines, cols) :=
    fold_left (compress_step masks) (seq 0 (length data)) (data, 0%nat, width) in
  map (firstn cols) (firstn lines buf).
