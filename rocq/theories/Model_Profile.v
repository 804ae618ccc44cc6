(** Profile and spectrogram plots: src/emva1288/process/plotting.py.  Definitions only.

    Values are exact rationals (profiles) or reals (spectrograms). *)
From Coq Require Import List Bool Arith ZArith QArith Reals.
From Verif Require Import Base_Prelude Base_Num Base_Float Base_Sum Base_SumR Base_Xreal Base_Order Model_Images
  Model_Data Model_FFT.
Import ListNotations.
Open Scope nat_scope.

(** Arguments of plotting.py:623-656.  Kinds of arrays: plain, masked array without a
    mask ([mask] is the scalar False), masked array with a mask. *)
Inductive mask_kind : Type :=
| Plain
| NoMask
| Masked (m : nat -> nat -> bool).

(** plotting.py:623: [image], a two-dimensional array. *)
Record qimage := mkQ { q_h : nat; q_w : nat; q_kind : mask_kind; q_at : nat -> nat -> Q }.

(** numpy indexing (plotting.py:636-648): a pixel, [None] when it is masked. *)
Definition at_ (im : qimage) (i j : nat) : option Q :=
  match q_kind im with
  | Masked m => if m i j then None else Some (q_at im i j)
  | _ => Some (q_at im i j)
  end.

(** plotting.py:634 np.transpose *)
Definition transpose (im : qimage) : qimage :=
  mkQ (q_w im) (q_h im)
      (match q_kind im with Masked m => Masked (fun i j => m j i) | k => k end)
      (fun i j => q_at im j i).

(** numpy masked reductions (plotting.py:636-638): the values that are not masked. *)
Definition present {A} (l : list (option A)) : list A :=
  flat_map (fun o => match o with Some x => [x] | None => [] end) l.

(** plotting.py:636-638, reduction along axis 0: masked where the whole column is masked. *)
Definition column (im : qimage) (j : nat) : list Q :=
  present (map (fun i => at_ im i j) (seq 0 (q_h im))).
Definition reduce (f : Q -> list Q -> Q) (im : qimage) : list (option Q) :=
  map (fun j => match column im j with [] => None | x :: l => Some (f x l) end) (seq 0 (q_w im)).

(** np.mean, np.min, np.max of a non-empty column (plotting.py:636-638). *)
Definition qmean (x : Q) (l : list Q) : Q := (lsumq (x :: l) / qn (length (x :: l)))%Q.
Definition qmin (x : Q) (l : list Q) : Q := fold_left (fun a b => if Qle_bool a b then a else b) l x.
Definition qmax (x : Q) (l : list Q) : Q := fold_left (fun a b => if Qle_bool b a then a else b) l x.

(** plotting.py:641 and 648: img[i, :] *)
Definition row (im : qimage) (i : nat) : res (list (option Q)) :=
  if i <? q_h im then Ok (map (at_ im i) (seq 0 (q_w im))) else Err IndexError.

(** plotting.py:645: an element of [profile_mid.mask]. *)
Definition is_masked (o : option Q) : bool := match o with None => true | Some _ => false end.

(** plotting.py:658-667 [_get_x_y]: positions and values; the scalar mask has no
    length. *)
Definition get_x_y (k : mask_kind) (p : list (option Q)) : res (list (nat * Q)) :=
  match k with
  | NoMask => Err TypeError
  | _ => Ok (flat_map (fun jo => match snd jo with Some v => [(fst jo, v)] | None => [] end)
               (combine (seq 0 (length p)) p))
  end.

(** plotting.py:651-655: the dictionary of curves. *)
Record profiles := mkProf
  { f_mean : list (nat * Q);
    f_min : list (nat * Q);
    f_max : list (nat * Q);
    f_mid : list (nat * Q) }.

(** plotting.py:623-656 [_get_image_profiles]; np.min refuses an image without
    rows. *)
Definition image_profiles (vertical : bool) (image : qimage) : res profiles :=
  let img := if vertical then transpose image else image in
  if q_h img =? 0 then Err ValueError
  else
    mid <- row img (q_h img / 2) ;;
    mid <- (match q_kind img with
            | Masked _ => if forallb is_masked mid then row img (q_h img / 2 + 1) else Ok mid
            | _ => Ok mid
            end) ;;
    m <- get_x_y (q_kind img) (reduce qmean img) ;;
    mn <- get_x_y (q_kind img) (reduce qmin img) ;;
    mx <- get_x_y (q_kind img) (reduce qmax img) ;;
    md <- get_x_y (q_kind img) mid ;;
    Ok (mkProf m mn mx md).

(** plotting.py:695-698: the images of the profile plots, [sum] and [sum_dark] divided
    by L of the bright images; int64 subtraction. *)
Definition profile_images (s : spatial) : res (qimage * qimage) :=
  let b := sd_sum (sp_bright s) in
  let d := sd_sum (sp_dark s) in
  let L := qn (sd_L (sp_bright s)) in
  if shape_eqb (shape b) (shape d)
  then Ok (mkQ (ih b) (iw b) Plain (fun i j => inject_Z (wrap64 (px b i j - px d i j)) / L)%Q,
           mkQ (ih d) (iw d) Plain (fun i j => inject_Z (px d i j) / L)%Q)
  else Err ValueError.

(** plotting.py:681-698 [plot] of the profile plots: the bright and dark curves. *)
Definition plot_profiles (vertical : bool) (s : spatial) : res (profiles * profiles) :=
  '(b, d) <- profile_images s ;;
  pb <- image_profiles vertical b ;;
  pd <- image_profiles vertical d ;;
  Ok (pb, pd).

(** plotting.py:636, [np.mean(img, axis=0)] of a plain image in binary64: the rows are added one after
    the other. *)
Definition mean_f (rows : list pyfloat) : pyfloat :=
  match rows with
  | [] => FNan
  | x :: l => fdiv (fold_left fadd l x) (f_int (Z.of_nat (length rows)))
  end.
(** plotting.py:638, [np.max(img, axis=0)] in binary64, one column. *)
Definition max_f (rows : list pyfloat) : pyfloat :=
  match rows with [] => FNan | x :: l => fold_left (fun a b => if flt a b then b else a) l x end.

(** ** Spectrograms *)

Open Scope R_scope.

(** plotting.py:378-390 and 448-458: frequency and height of the curve 'Data' of the PRNU
    spectrograms. *)
Definition spectrogram_PRNU (rotate : bool) (s : spatial) : res (list (R * xr)) :=
  let b := sd_sum (sp_bright s) in
  let d := sd_sum (sp_dark s) in
  if shape_eqb (shape b) (shape d)
  then
    let data := fun i j => IZR (wrap64 (px b i j - px d i j)) / INR (sd_L (sp_bright s)) in
    let data_mean := xdiv (XR (sumR2 (ih b) (iw b) data)) (XR (INR (ih b * iw b))) in
    f <- FFT1288 (ih b) (iw b) data rotate 1 ;;
    Ok (combine (GetFrecs f) (map (fun x => xsqrt (xdiv x data_mean)) f))
  else Err ValueError.

(** plotting.py:415-424 and 483-493: the curve 'Data' of the DSNU spectrograms. *)
Definition spectrogram_DSNU (rotate : bool) (s : spatial) : res (list (R * xr)) :=
  let d := sd_sum (sp_dark s) in
  f <- FFT1288 (ih d) (iw d) (fun i j => IZR (px d i j)) rotate (sd_L (sp_bright s)) ;;
  Ok (combine (GetFrecs f) (map xsqrt f)).
