(** The linearity fit of results.py with the binary64 roundings that NumPy makes.
    [Model_Results] has the same function over exact numbers. *)
From Coq Require Import List Bool Arith ZArith QArith.
From Verif Require Import Base_Prelude Base_Num Base_Order Base_Float Model_Rounded Model_Results Model_RoundedIndex.
Import ListNotations.
Open Scope Z_scope.

(** np.sum of a float64 array; [order n] is the order of the additions for [n] elements. *)
Definition np_sum (order : nat -> stree) (l : list pyfloat) : pyfloat :=
  match l with [] => fzero | _ => run l (order (length l)) end.

(** x ** 2: NumPy squares arrays as x * x; for a scalar it calls pow, taken to be correctly
    rounded. *)
Definition fsq (x : pyfloat) : pyfloat := fmul x x.

(** results.py:548-552, the five sums over the pairs (x, y) of the range and the y values. *)
Record fsums := mkSums { fs_xy : pyfloat; fs_xy2 : pyfloat; fs_x2y2 : pyfloat; fs_y : pyfloat; fs_y2 : pyfloat }.
Definition fit_sums (order : nat -> stree) (P : list (pyfloat * pyfloat)) (Y : list pyfloat) : fsums :=
  mkSums
    (np_sum order (map (fun p => fdiv (fst p) (snd p)) P))
    (np_sum order (map (fun p => fdiv (fst p) (fsq (snd p))) P))
    (np_sum order (map (fun p => fsq (fdiv (fst p) (snd p))) P))
    (np_sum order (map (fun y => fdiv (f_int 1) y) Y))
    (np_sum order (map (fun y => fdiv (f_int 1) (fsq y)) Y)).

(** results.py:554-555. *)
Definition fit_offset_f (s : fsums) : pyfloat :=
  fdiv (fsub (fmul (fs_xy s) (fs_xy2 s)) (fmul (fs_x2y2 s) (fs_y s)))
       (fsub (fsq (fs_xy2 s)) (fmul (fs_x2y2 s) (fs_y2 s))).
Definition fit_slope_f (s : fsums) (b : pyfloat) : pyfloat :=
  fdiv (fsub (fs_xy s) (fmul b (fs_xy2 s))) (fs_x2y2 s).

(** results.py:560, one point. *)
Definition deviation_f (a b x y : pyfloat) : pyfloat :=
  let v := fadd (fmul a x) b in fdiv (fmul (f_int 100) (fsub y v)) v.

(** np.min / np.max of a float64 array: ValueError when it is empty, NaN when it has one. *)
Definition fextreme (f : pyfloat -> pyfloat -> pyfloat) (l : list pyfloat) : res pyfloat :=
  match l with [] => Err ValueError | x :: l' => Ok (fold_left f l' x) end.

Record flin := mkFLin { fl_slope : pyfloat; fl_offset : pyfloat; fl_dev : list pyfloat; fl_min : pyfloat; fl_max : pyfloat }.

(** results.py:514-569 linearity. *)
Definition flinearity (order : nat -> stree) (o : fobj) : res flin :=
  Y <- fsignal o ;;
  let X := ftp_up (fo_t o) in
  imax <- findex_linearity_max o ;;
  imin <- findex_linearity_min o ;;
  P_ <- fnp_pairs (slice imin (imax + 1) X) (slice imin (imax + 1) Y) ;;
  let s := fit_sums order P_ (slice imin (imax + 1) Y) in
  let b := fit_offset_f s in
  let a := fit_slope_f s b in
  P <- fnp_pairs X Y ;;
  let dev := map (fun p => deviation_f a b (fst p) (snd p)) P in
  mn <- fextreme fminimum (slice imin (imax + 1) dev) ;;
  mx <- fextreme fmaximum (slice imin (imax + 1) dev) ;;
  Ok (mkFLin a b dev mn mx).
