(** Model of src/emva1288/process/results.py (class Results1288) and of the two
    fits of routines.py.

    Exposure times and photon counts are finite numbers.  Values that only go
    through + - * / are exact rationals; values that go through roots, logarithms
    or a division that may be by zero are [xr] (reals with infinities and NaN).
    The decimal constants (0.7, 0.24, ...) are the exact decimals. *)
From Coq Require Import List Bool Arith ZArith QArith Reals Qreals.
From Verif Require Import Base_Prelude Base_Sum Base_Xreal Model_Images Model_Data.
Import ListNotations.
Open Scope Q_scope.

(** self.temporal *)
Record rtemporal := mkRT {
  r_texp : list Q; r_up : list Q; r_uy : list Q; r_s2y : list Q;
  r_uydark : list Q; r_s2ydark : list Q
}.

(** The object: data, pixel area, and the attribute _index_u_ysat. *)
Record robj := mkObj {
  o_t : rtemporal;
  o_s : spatial;
  o_area : option Q;
  o_sat : option Z
}.

(** numpy broadcasting of two 1-D arrays: the pairs an elementwise operation
    combines. *)
Definition np_pairs (a b : list Q) : res (list (Q * Q)) :=
  if (length a =? length b)%nat then Ok (combine a b)
  else match a, b with
       | [x], _ => Ok (map (fun y => (x, y)) b)
       | _, [y] => Ok (map (fun x => (x, y)) a)
       | _, _ => Err ValueError
       end.

(** numpy [a - b]. *)
Definition np_sub (a b : list Q) : res (list Q) :=
  P <- np_pairs a b ;; Ok (map (fun p => fst p - snd p) P).

(** Python indexing, with negative indices. *)
Definition py_get {A} (l : list A) (i : Z) : res A :=
  let j := (if i <? 0 then i + Z.of_nat (length l) else i)%Z in
  if (j <? 0)%Z then Err IndexError
  else of_option IndexError (nth_error l (Z.to_nat j)).

(** results.py:72-74 and 59-63. *)
Definition s2q : Q := 1 / 12.
Definition index_start : nat := 0.
Definition index_sensitivity_min : nat := 0.

Definition Qge_b (a b : Q) : bool := Qle_bool b a.

(** results.py:98-112: the loop over i = k-1, k-2, ..., 0.  The [elif] is the
    negation of the [if]. *)
Fixpoint sat_loop (s2 : list Q) (k : nat) (max_ : Q) (max_i : nat) : res nat :=
  match k with
  | O => Ok max_i
  | S i =>
      a <- of_option IndexError (nth_error s2 i) ;;
      if Qge_b a max_ then sat_loop s2 i a i
      else
        b <- of_option IndexError (nth_error s2 (if (i =? 0)%nat then 1%nat else (i - 1)%nat)) ;;
        if Qge_b b max_ then sat_loop s2 i a i else Ok max_i
  end.

(** results.py:86-114 index_u_ysat: value, and the attribute afterwards.  The test
    [if self._index_u_ysat] is false for None and for 0. *)
Definition index_u_ysat (o : robj) : res Z * option Z :=
  match o_sat o with
  | Some z => if negb (z =? 0)%Z then (Ok z, Some z)
              else match sat_loop (r_s2y (o_t o)) (length (r_s2y (o_t o))) 0 0 with
                   | Ok i => (Ok (Z.of_nat i), Some (Z.of_nat i))
                   | Err e => (Err e, o_sat o)
                   end
  | None => match sat_loop (r_s2y (o_t o)) (length (r_s2y (o_t o))) 0 0 with
            | Ok i => (Ok (Z.of_nat i), Some (Z.of_nat i))
            | Err e => (Err e, o_sat o)
            end
  end.

(** The signal u_y - u_ydark, used by many properties. *)
Definition signal (o : robj) : res (list Q) := np_sub (r_uy (o_t o)) (r_uydark (o_t o)).

(** np.argwhere of a condition, as a list of indices. *)
Definition argwhere (f : Q -> bool) (l : list Q) : list nat :=
  map fst (filter (fun p => f (snd p)) (combine (seq 0 (length l)) l)).

(** max(...)[0] and min(...)[0] of the list of indices. *)
Definition max_index (l : list nat) : res nat :=
  match l with [] => Err ValueError | x :: l' => Ok (fold_left Nat.max l' x) end.
Definition min_index (l : list nat) : res nat :=
  match l with [] => Err ValueError | x :: l' => Ok (fold_left Nat.min l' x) end.

(** results.py:116-129. *)
Definition index_sensitivity_max (o : robj) : res nat :=
  Y <- signal o ;;
  i <- fst (index_u_ysat o) ;;
  y <- py_get Y i ;;
  max_index (argwhere (fun v => Qle_bool v ((7 # 10) * y)) Y).

(** l[a:b] for 0 <= a. *)
Definition slice {A} (a b : nat) (l : list A) : list A := firstn (b - a) (skipn a l).

(** routines.py:72-98 LinearB0: scipy's leastsq is taken to return the minimiser of
    the sum of the squared residuals; when every x is 0 the residuals do not depend
    on the slope and leastsq returns its start value 1.  leastsq raises TypeError
    with fewer residuals than parameters. *)
Definition fit_b0 (P : list (Q * Q)) : Q :=
  let sxx := lsumq (map (fun p => fst p * fst p) P) in
  let sxy := lsumq (map (fun p => fst p * snd p) P) in
  if Qeq_bool sxx 0 then 1 else sxy / sxx.
Definition linear_b0 (X Y : list Q) : res Q :=
  P <- np_pairs X Y ;;
  if (length P <? 1)%nat then Err TypeError else Ok (fit_b0 P).

(** routines.py:101-123 LinearB: slope and offset, same assumption.  Only called with
    at least three different x; the start values (1, 1) stand for the case of equal
    x (not reached). *)
Definition fit_b (P : list (Q * Q)) : Q * Q :=
  let n := qn (length P) in
  let sx := lsumq (map fst P) in
  let sy := lsumq (map snd P) in
  let sxx := lsumq (map (fun p => fst p * fst p) P) in
  let sxy := lsumq (map (fun p => fst p * snd p) P) in
  let det := n * sxx - sx * sx in
  if Qeq_bool det 0 then (1, 1)
  else ((n * sxy - sx * sy) / det, (sxx * sy - sx * sxy) / det).
Definition linear_b (X Y : list Q) : res (Q * Q) :=
  P <- np_pairs X Y ;;
  if (length P <? 2)%nat then Err TypeError else Ok (fit_b P).

(** results.py:143-166 R. *)
Definition responsivity (o : robj) : res Q :=
  Y <- signal o ;;
  m <- index_sensitivity_max o ;;
  linear_b0 (slice index_sensitivity_min (m + 1) (r_up (o_t o)))
            (slice index_sensitivity_min (m + 1) Y).

(** results.py:168-192 K. *)
Definition gain (o : robj) : res Q :=
  X <- signal o ;;
  Y <- np_sub (r_s2y (o_t o)) (r_s2ydark (o_t o)) ;;
  m <- index_sensitivity_max o ;;
  linear_b0 (slice index_sensitivity_min (m + 1) X)
            (slice index_sensitivity_min (m + 1) Y).

(** results.py:194-205 inverse_K. *)
Definition inverse_K (o : robj) : res xr := k <- gain o ;; Ok (xdiv (xq 1) (xq k)).

(** results.py:207-222 QE. *)
Definition QE (o : robj) : res xr :=
  r <- responsivity o ;; k <- gain o ;; Ok (xdiv (xmul (xq 100) (xq r)) (xq k)).

(** len(np.unique(l)) *)
Fixpoint unique_count (l : list Q) : nat :=
  match l with
  | [] => 0
  | x :: l' => (if existsb (Qeq_bool x) l' then 0 else 1) + unique_count l'
  end.

(** results.py:238-250: the dark variance used. *)
Definition dark_variance (o : robj) : res Q :=
  s2 <- (if (unique_count (r_texp (o_t o)) <=? 2)%nat
         then py_get (r_s2ydark (o_t o)) 0
         else fit <- linear_b (r_texp (o_t o)) (r_s2ydark (o_t o)) ;; Ok (snd fit)) ;;
  Ok (if negb (Qle_bool (24 # 100) s2) then 24 # 100 else s2).

(** results.py:224-251 sigma_y_dark. *)
Definition sigma_y_dark (o : robj) : res xr := v <- dark_variance o ;; Ok (xsqrt (xq v)).

(** results.py:253-265 sigma_d. *)
Definition sigma_d (o : robj) : res xr :=
  s <- sigma_y_dark o ;; k <- gain o ;;
  Ok (xdiv (xsqrt (xsub (xsq s) (xq s2q))) (xq k)).

(** results.py:267-279 u_p_min. *)
Definition u_p_min (o : robj) : res xr :=
  q <- QE o ;; s <- sigma_y_dark o ;; k <- gain o ;;
  Ok (xmul (xdiv (xq 100) q) (xadd (xdiv s (xq k)) (xq (1 # 2)))).

(** results.py:300-311 u_e_min. *)
Definition u_e_min (o : robj) : res xr :=
  q <- QE o ;; u <- u_p_min o ;; Ok (xdiv (xmul q u) (xq 100)).

(** results.py:331-342 u_p_sat. *)
Definition u_p_sat (o : robj) : res Q :=
  i <- fst (index_u_ysat o) ;; py_get (r_up (o_t o)) i.

(** results.py:363-376 u_e_sat. *)
Definition u_e_sat (o : robj) : res xr :=
  q <- QE o ;; u <- u_p_sat o ;; Ok (xdiv (xmul q (xq u)) (xq 100)).

(** results.py:281-298, 313-328, 344-361, 378-397: [if not self.pixel_area]. *)
Definition per_area (area : option Q) (v : res xr) : res (option xr) :=
  match area with
  | None => Ok None
  | Some a => if Qeq_bool a 0 then Ok None else x <- v ;; Ok (Some (xdiv x (xq a)))
  end.
Definition u_p_min_area (o : robj) : res (option xr) := per_area (o_area o) (u_p_min o).
Definition u_e_min_area (o : robj) : res (option xr) := per_area (o_area o) (u_e_min o).
Definition u_p_sat_area (o : robj) : res (option xr) :=
  per_area (o_area o) (u <- u_p_sat o ;; Ok (xq u)).
Definition u_e_sat_area (o : robj) : res (option xr) := per_area (o_area o) (u_e_sat o).

(** results.py:399-449. *)
Definition SNR_max (o : robj) : res xr := u <- u_e_sat o ;; Ok (xsqrt u).
Definition SNR_max_dB (o : robj) : res xr := s <- SNR_max o ;; Ok (xmul (xq 20) (xlog10 s)).
Definition SNR_max_bit (o : robj) : res xr := s <- SNR_max o ;; Ok (xlog2 s).
Definition inverse_SNR_max (o : robj) : res xr := s <- SNR_max o ;; Ok (xdiv (xq 100) s).

(** results.py:451-482. *)
Definition DR (o : robj) : res xr := s <- u_p_sat o ;; m <- u_p_min o ;; Ok (xdiv (xq s) m).
Definition DR_dB (o : robj) : res xr := d <- DR o ;; Ok (xmul (xq 20) (xlog10 d)).

(** results.py:484-512. *)
Definition index_linearity_min (o : robj) : res nat :=
  Y <- signal o ;;
  i <- fst (index_u_ysat o) ;;
  y <- py_get Y i ;;
  min_index (argwhere (fun v => Qge_b v ((5 # 100) * y)) Y).
Definition index_linearity_max (o : robj) : res nat :=
  Y <- signal o ;;
  i <- fst (index_u_ysat o) ;;
  y <- py_get Y i ;;
  max_index (argwhere (fun v => Qle_bool v ((95 # 100) * y)) Y).

(** a / b, [None] when b is 0 (numpy: infinity or NaN). *)
Definition qdiv_o (a b : Q) : option Q := if Qeq_bool b 0 then None else Some (a / b).

(** results.py:541-553: slope and offset from the pairs (x, y) of the range and the
    y values; [None] when a division by zero occurs. *)
Definition relative_fit (P : list (Q * Q)) (Y : list Q) : option (Q * Q) :=
  if existsb (fun y => Qeq_bool y 0) Y then None
  else
    let xy := lsumq (map (fun p => fst p / snd p) P) in
    let xy2 := lsumq (map (fun p => fst p / (snd p * snd p)) P) in
    let x2y2 := lsumq (map (fun p => (fst p / snd p) * (fst p / snd p)) P) in
    let y1 := lsumq (map (fun y => 1 / y) Y) in
    let y2 := lsumq (map (fun y => 1 / (y * y)) Y) in
    match qdiv_o (xy * xy2 - x2y2 * y1) (xy2 * xy2 - x2y2 * y2) with
    | None => None
    | Some b => match qdiv_o (xy - b * xy2) x2y2 with
                | None => None
                | Some a => Some (a, b)
                end
    end.

(** results.py:560 relative deviation of one point. *)
Definition deviation (ab : Q * Q) (x y : Q) : option Q :=
  qdiv_o (100 * (y - (fst ab * x + snd ab))) (fst ab * x + snd ab).

Definition Qmin_b (a b : Q) : Q := if Qle_bool a b then a else b.
Definition Qmax_b (a b : Q) : Q := if Qle_bool a b then b else a.

(** np.min / np.max: ValueError on an empty array; [None] when some element is not
    finite (what numpy then returns is not modelled). *)
Fixpoint all_some {A} (l : list (option A)) : option (list A) :=
  match l with
  | [] => Some []
  | Some x :: l' => match all_some l' with Some r => Some (x :: r) | None => None end
  | None :: _ => None
  end.
Definition np_extreme (f : Q -> Q -> Q) (l : list (option Q)) : res (option Q) :=
  match l with
  | [] => Err ValueError
  | _ => match all_some l with
         | Some (x :: l') => Ok (Some (fold_left f l' x))
         | _ => Ok None
         end
  end.

Record lin := mkLin {
  lin_fit : option (Q * Q);
  lin_dev : list (option Q);
  lin_min : option Q;
  lin_max : option Q
}.

(** results.py:514-569 linearity. *)
Definition linearity (o : robj) : res lin :=
  Y <- signal o ;;
  let X := r_up (o_t o) in
  imax <- index_linearity_max o ;;
  imin <- index_linearity_min o ;;
  P_ <- np_pairs (slice imin (imax + 1) X) (slice imin (imax + 1) Y) ;;
  let fit := relative_fit P_ (slice imin (imax + 1) Y) in
  P <- np_pairs X Y ;;
  let dev := map (fun p => match fit with
                           | Some ab => deviation ab (fst p) (snd p)
                           | None => None
                           end) P in
  mn <- np_extreme Qmin_b (slice imin (imax + 1) dev) ;;
  mx <- np_extreme Qmax_b (slice imin (imax + 1) dev) ;;
  Ok (mkLin fit dev mn mx).

(** results.py:571-597. *)
Definition LE_min (o : robj) : res (option Q) := l <- linearity o ;; Ok (lin_min l).
Definition LE_max (o : robj) : res (option Q) := l <- linearity o ;; Ok (lin_max l).

(** results.py:599-623 u_I_var_DN. *)
Definition u_I_var_DN (o : robj) : res xr :=
  if (unique_count (r_texp (o_t o)) <=? 2)%nat then Ok XNan
  else
    fit <- linear_b (r_texp (o_t o)) (r_s2ydark (o_t o)) ;;
    if negb (Qle_bool 0 (fst fit)) then Ok XNan
    else k <- gain o ;; Ok (xmul (xdiv (xq (fst fit)) (xq k)) (xq (inject_Z (10 ^ 9)))).

(** results.py:625-644 u_I_var ([ui is np.nan] returns NaN, as does NaN / K). *)
Definition u_I_var (o : robj) : res xr :=
  ui <- u_I_var_DN o ;;
  match ui with
  | XNan => Ok XNan
  | _ => k <- gain o ;; Ok (xdiv ui (xq k))
  end.

(** results.py:646-686. *)
Definition u_I_mean_DN (o : robj) : res xr :=
  if (unique_count (r_texp (o_t o)) <=? 2)%nat then Ok XNan
  else
    fit <- linear_b (r_texp (o_t o)) (r_uydark (o_t o)) ;;
    Ok (xmul (xq (fst fit)) (xq (inject_Z (10 ^ 9)))).
Definition u_I_mean (o : robj) : res xr :=
  ui <- u_I_mean_DN o ;;
  match ui with
  | XNan => Ok XNan
  | _ => k <- gain o ;; Ok (xdiv ui (xq k))
  end.

(** ** Spatial part.  [None] is NaN. *)
Definition olift2 (f : Q -> Q -> Q) (a b : option Q) : option Q :=
  match a, b with Some x, Some y => Some (f x y) | _, _ => None end.

(** self.spatial: the entries without and with the suffix _dark. *)
Definition bright (o : robj) : sdata := sp_bright (o_s o).
Definition dark (o : robj) : sdata := sp_dark (o_s o).

(** results.py:688-746 sigma_2_y_stack(_dark), s_2_y_measured(_dark). *)
Definition sigma_2_y_stack (o : robj) : option Q := sd_var_mean (bright o).
Definition sigma_2_y_stack_dark (o : robj) : option Q := sd_var_mean (dark o).
Definition s_2_y_measured (o : robj) : option Q := sd_avg_var (bright o).
Definition s_2_y_measured_dark (o : robj) : option Q := sd_avg_var (dark o).

(** results.py:748-772 s_2_y, s_2_y_dark. *)
Definition s_2_y (o : robj) : option Q :=
  olift2 Qminus (s_2_y_measured o) (omap (fun v => v / qn (sd_L (bright o))) (sigma_2_y_stack o)).
Definition s_2_y_dark (o : robj) : option Q :=
  olift2 Qminus (s_2_y_measured_dark o)
         (omap (fun v => v / qn (sd_L (dark o))) (sigma_2_y_stack_dark o)).

(** results.py:774-820 s_2_y_cav(_dark), s_2_y_rav(_dark). *)
Definition s_2_y_cav (o : robj) : option Q := sd_avg_var_cav (bright o).
Definition s_2_y_cav_dark (o : robj) : option Q := sd_avg_var_cav (dark o).
Definition s_2_y_rav (o : robj) : option Q := sd_avg_var_rav (bright o).
Definition s_2_y_rav_dark (o : robj) : option Q := sd_avg_var_rav (dark o).

(** Division of Python integers. *)
Definition zdivz (a b : Z) : res Q :=
  if (b =? 0)%Z then Err ZeroDivisionError else Ok (inject_Z a / inject_Z b).

Definition dimM (s : sdata) : Z := Z.of_nat (sd_M s).
Definition dimN (s : sdata) : Z := Z.of_nat (sd_N s).

(** results.py:822-854 s_2_y_col(_dark). *)
Definition s_2_y_col (o : robj) : res (option Q) :=
  let M := dimM (bright o) in let N := dimN (bright o) in
  para_1 <- zdivz (M * N - M) (M * N - M - N) ;;
  para_2 <- zdivz N (M * N - M - N) ;;
  Ok (olift2 (fun a b => para_1 * a - para_2 * b) (s_2_y_cav o)
             (olift2 Qminus (s_2_y o) (s_2_y_rav o))).
Definition s_2_y_col_dark (o : robj) : res (option Q) :=
  let M := dimM (dark o) in let N := dimN (dark o) in
  para_1 <- zdivz (M * N - M) (M * N - M - N) ;;
  para_2 <- zdivz N (M * N - M - N) ;;
  Ok (olift2 (fun a b => para_1 * a - para_2 * b) (s_2_y_cav_dark o)
             (olift2 Qminus (s_2_y_dark o) (s_2_y_rav_dark o))).

(** results.py:856-888 s_2_y_row(_dark). *)
Definition s_2_y_row (o : robj) : res (option Q) :=
  let M := dimM (bright o) in let N := dimN (bright o) in
  para_1 <- zdivz (M * N - N) (M * N - M - N) ;;
  para_2 <- zdivz M (M * N - M - N) ;;
  Ok (olift2 (fun a b => para_1 * a - para_2 * b) (s_2_y_rav o)
             (olift2 Qminus (s_2_y o) (s_2_y_cav o))).
Definition s_2_y_row_dark (o : robj) : res (option Q) :=
  let M := dimM (dark o) in let N := dimN (dark o) in
  para_1 <- zdivz (M * N - N) (M * N - M - N) ;;
  para_2 <- zdivz M (M * N - M - N) ;;
  Ok (olift2 (fun a b => para_1 * a - para_2 * b) (s_2_y_rav_dark o)
             (olift2 Qminus (s_2_y_dark o) (s_2_y_cav_dark o))).

(** results.py:890-920 s_2_y_pixel(_dark). *)
Definition s_2_y_pixel (o : robj) : res (option Q) :=
  let M := dimM (bright o) in let N := dimN (bright o) in
  para <- zdivz (M * N) (M * N - M - N) ;;
  Ok (omap (fun x => para * x)
        (olift2 Qminus (olift2 Qminus (s_2_y o) (s_2_y_cav o)) (s_2_y_rav o))).
Definition s_2_y_pixel_dark (o : robj) : res (option Q) :=
  let M := dimM (dark o) in let N := dimN (dark o) in
  para <- zdivz (M * N) (M * N - M - N) ;;
  Ok (omap (fun x => para * x)
        (olift2 Qminus (olift2 Qminus (s_2_y_dark o) (s_2_y_cav_dark o)) (s_2_y_rav_dark o))).

(** results.py:922-1027: [if v < 0: return nan] then sqrt(v) / K. *)
Definition dsnu_of (o : robj) (v : option Q) : res xr :=
  if xlt0 (xoq v) then Ok XNan
  else k <- gain o ;; Ok (xdiv (xsqrt (xoq v)) (xq k)).
Definition DSNU1288 (o : robj) : res xr := dsnu_of o (s_2_y_dark o).
Definition DSNU1288_DN (o : robj) : res xr :=
  Ok (if xlt0 (xoq (s_2_y_dark o)) then XNan else xsqrt (xoq (s_2_y_dark o))).
Definition DSNU1288_row (o : robj) : res xr := v <- s_2_y_row_dark o ;; dsnu_of o v.
Definition DSNU1288_col (o : robj) : res xr := v <- s_2_y_col_dark o ;; dsnu_of o v.
Definition DSNU1288_pixel (o : robj) : res xr := v <- s_2_y_pixel_dark o ;; dsnu_of o v.

(** results.py:1029-1111: sqrt(v - v_dark) * 100 / (avg_mean - avg_mean_dark). *)
Definition prnu_of (o : robj) (v v_dark : option Q) : xr :=
  xdiv (xmul (xsqrt (xsub (xoq v) (xoq v_dark))) (xq 100))
       (xsub (xq (sd_avg_mean (bright o))) (xq (sd_avg_mean (dark o)))).
Definition PRNU1288 (o : robj) : res xr := Ok (prnu_of o (s_2_y o) (s_2_y_dark o)).
Definition PRNU1288_row (o : robj) : res xr :=
  v <- s_2_y_row o ;; d <- s_2_y_row_dark o ;; Ok (prnu_of o v d).
Definition PRNU1288_col (o : robj) : res xr :=
  v <- s_2_y_col o ;; d <- s_2_y_col_dark o ;; Ok (prnu_of o v d).
Definition PRNU1288_pixel (o : robj) : res xr :=
  v <- s_2_y_pixel o ;; d <- s_2_y_pixel_dark o ;; Ok (prnu_of o v d).

(** plotting.py:262-266: the curve 'Theoretical' at photon count x. *)
Definition snr_theoretical (o : robj) (x : R) : res xr :=
  qe <- QE o ;; sd <- sigma_d o ;; k <- gain o ;;
  let e := xmul (xdiv qe (xq 100)) (XR x) in
  Ok (xdiv e (xsqrt (xadd (xadd (xsq sd) (xdiv (xq s2q) (xsq (xq k)))) e))).

(** plotting.py:271: the curve 'Ideal'. *)
Definition snr_ideal (x : R) : xr := xsqrt (XR x).

(** plotting.py:287-296: the curve 'Total SNR'. *)
Definition snr_total (o : robj) (x : R) : res xr :=
  qe <- QE o ;; sd <- sigma_d o ;; k <- gain o ;; dsnu <- DSNU1288 o ;; prnu <- PRNU1288 o ;;
  let e := xmul (xdiv qe (xq 100)) (XR x) in
  Ok (xdiv e (xsqrt (xadd (xadd (xadd (xadd (xsq sd) (xdiv (xq s2q) (xsq (xq k)))) e)
                                (xsq dsnu))
                          (xsq (xmul (xmul (xdiv prnu (xq 100)) (xdiv qe (xq 100))) (XR x)))))).
