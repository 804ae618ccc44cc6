(** Model of FFT1288 and GetFrecs (src/emva1288/process/routines.py).

    Images have real values; np.fft.fft is the discrete Fourier transform, computed
    exactly. *)
From Coq Require Import List Bool Arith ZArith Reals.
From Verif Require Import Base_Prelude Base_Xreal Base_SumR Model_Images Model_Hist.
Import ListNotations.
Open Scope R_scope.

(** np.fft.fft of one row x of length c, entry k: real and imaginary part. *)
Definition fft_re (c : nat) (x : nat -> R) (k : nat) : R :=
  sumR c (fun j => x j * cos (2 * PI * INR k * INR j / INR c)).
Definition fft_im (c : nat) (x : nat -> R) (k : nat) : R :=
  - sumR c (fun j => x j * sin (2 * PI * INR k * INR j / INR c)).

(** routines.py:170-172: [fft /= sqrt(cols)], then real(fft * conjugate(fft)). *)
Definition fabs (c : nat) (x : nat -> R) (k : nat) : R :=
  (fft_re c x k / sqrt (INR c)) ^ 2 + (fft_im c x k / sqrt (INR c)) ^ 2.

(** routines.py:126-182 FFT1288 of a plain 2-D array with [h] rows and [w] columns
    (after the optional transposition).  No columns: np.fft.fft raises ValueError.  No
    rows: the means are NaN. *)
Definition fft_rows (h w : nat) (f : nat -> nat -> R) (n : nat) : res (list xr) :=
  if (w =? 0)%nat then Err ValueError
  else
    let mean := sumR2 h w f / INR (h * w) in
    let img := fun r c => f r c - mean in
    let r := fun k => if (h =? 0)%nat then XNan
                      else XR (sumR h (fun i => fabs w (img i) k) / INR h) in
    Ok (map (fun k => xdiv (r k) (XR (INR n ^ 2))) (seq 0 (w / 2 + 1))).

Definition FFT1288 (h w : nat) (f : nat -> nat -> R) (rotate : bool) (n : nat) : res (list xr) :=
  if rotate then fft_rows w h (fun r c => f c r) n else fft_rows h w f n.

(** FFT1288 of a masked integer array, given by rows: the compressed array is
    transformed.  Its number of columns is the length of its rows, or the width of the
    image when no row is left (routines.py:226-242). *)
Definition FFT1288_masked (width : nat) (data : list (list Z)) (masks : list (list bool)) (n : nat)
    : res (list xr) :=
  let rows := row_wise_compress width data masks in
  let w := match rows with [] => width | row :: _ => length row end in
  fft_rows (length rows) w (fun r c => IZR (nth c (nth r rows []) 0%Z)) n.

(** routines.py:245-249 GetFrecs. *)
Definition GetFrecs {A} (fft : list A) : list R :=
  let n := length fft in
  map (fun k => INR k * 1 / INR (2 * n)) (seq 0 n).
