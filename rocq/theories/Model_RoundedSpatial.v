(** The spatial branch of data.py with the binary64 roundings that NumPy makes.
    [Model_Data] has the same functions over exact numbers.  As in [Model_Rounded] a
    summation is given the tree of its additions. *)
From Coq Require Import List Bool Arith ZArith QArith.
From Verif Require Import Base_Prelude Base_Num Base_Order Base_Sum Base_Float Model_Images
  Model_Loader Model_Data Model_Hist Model_Rounded.
Import ListNotations.
Open Scope Z_scope.

(** The orders of the additions NumPy makes in one call of _get_spatial_data. *)
Record sum_orders := mkOrders {
  so_mean : stree;              (** avg_.mean() *)
  so_col : nat -> stree;        (** np.mean(avg_, axis=0), one entry *)
  so_row : nat -> stree;        (** np.mean(avg_, axis=1), one entry *)
  so_var_mean : stree;          (** var_.mean() *)
  so_var_inner : stree;         (** the mean inside np.var *)
  so_var : stree;               (** the squares inside np.var *)
  so_cav : stree;               (** np.sum(np.square(avg_row - avg)) *)
  so_rav : stree                (** np.sum(np.square(avg_col - avg)) *)
}.

(** np.mean of a float64 array. *)
Definition fmean (t : stree) (xs : list pyfloat) : pyfloat :=
  fdiv (run xs t) (f_int (Z.of_nat (length xs))).

(** [x - m], squared (np.square, or the product of x with itself inside np.var). *)
Definition fdev2 (m x : pyfloat) : pyfloat := fmul (fsub x m) (fsub x m).

(** np.var(xs, ddof=1). *)
Definition fvar (tm t : stree) (xs : list pyfloat) : pyfloat :=
  fdiv (run (map (fdev2 (fmean tm xs)) xs) t) (f_int (Z.of_nat (length xs - 1))).

Record fsdata := mkFS {
  fs_sum : image;
  fs_L : nat;
  fs_M : nat;
  fs_N : nat;
  fs_var_mean : pyfloat;
  fs_avg_var : pyfloat;
  fs_avg_mean : pyfloat;
  fs_avg_var_cav : pyfloat;
  fs_avg_var_rav : pyfloat
}.

(** data.py:264-328 _get_spatial_data; exceptions as in [get_spatial_data].  np.square(L) is
    an integer. *)
Definition get_spatial_data_f (o : sum_orders) (M N : nat) (d : int_imgs) : res fsdata :=
  let h := ih (ii_sum d) in
  let w := iw (ii_sum d) in
  let L := ii_L d in
  if (L =? 0)%nat then Err AttributeError
  else if (N =? 0)%nat then Err ZeroDivisionError
  else if (M =? 0)%nat then Err ZeroDivisionError
  else
    let fl n := f_int (Z.of_nat n) in
    let avg_ r c := fdiv (f_int (px (ii_sum d) r c)) (fmul (f_int 1) (fl L)) in
    let avg := fmean (so_mean o) (ravel h w avg_) in
    let avg_row := map (fun c => fmean (so_col o c) (map (fun r => avg_ r c) (seq 0 h))) (seq 0 w) in
    let avg_col := map (fun r => fmean (so_row o r) (map (fun c => avg_ r c) (seq 0 w))) (seq 0 h) in
    let var_ r c := fdiv (f_int (px (ii_pvar d) r c)) (fmul (fmul (f_int 1) (fl (L * L)%nat)) (fl (L - 1)%nat)) in
    let var_mean := fmean (so_var_mean o) (ravel h w var_) in
    let avg_var := fvar (so_var_inner o) (so_var o) (ravel h w avg_) in
    let cav := fsub (fmul (fdiv (f_int 1) (fl N)) (run (map (fdev2 avg) avg_row) (so_cav o)))
                    (fdiv var_mean (fl (L * M)%nat)) in
    let rav := fsub (fmul (fdiv (f_int 1) (fl M)) (run (map (fdev2 avg) avg_col) (so_rav o)))
                    (fdiv var_mean (fl (L * N)%nat)) in
    Ok (mkFS (ii_sum d) L M N var_mean avg_var avg cav rav).

Record fspatial := mkFSpatial {
  fsp_texp : pyfloat;
  fsp_up : pyfloat;
  fsp_dark : fsdata;
  fsp_bright : fsdata
}.

(** data.py:190-262 _get_spatial; one set of orders for each of the two calls. *)
Definition get_spatial_f (od ob : sum_orders) (M N : nat) (data : dict pyfloat (dict pyfloat int_imgs))
  : res fspatial :=
  match data with
  | [(exposure, inner)] =>
      let photons := py_sorted (dkeys inner) in
      if negb (existsb (feq fzero) photons) then Err ValueError
      else if negb (length photons =? 2)%nat then Err ValueError
      else
        d <- of_option KeyError (dget feq fzero inner) ;;
        dark <- get_spatial_data_f od M N d ;;
        bphoton <- of_option IndexError (nth_error photons 1) ;;
        d' <- of_option KeyError (dget feq bphoton inner) ;;
        bright <- get_spatial_data_f ob M N d' ;;
        Ok (mkFSpatial exposure bphoton dark bright)
  | _ => Err ValueError
  end.
