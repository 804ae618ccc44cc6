(** What the plots draw: src/emva1288/process/plotting.py.  Definitions only.

    A curve is its label, whether its points are joined, and its points.  Colours,
    fonts, legends and axis labels are dropped. *)
From Coq Require Import Ascii String List Bool Arith ZArith QArith Reals Qreals.
From Verif Require Import Base_Prelude Base_Str Base_Num Base_Float Base_Sum Base_Xreal Base_Order Model_Images
  Model_Data Model_Results Model_Hist Model_Profile.
Import ListNotations.
Open Scope nat_scope.

Record curve (A B : Type) := mkCurve { k_label : str; k_joined : bool; k_points : list (A * B) }.
Arguments mkCurve {A B}.
Arguments k_label {A B}.
Arguments k_joined {A B}.
Arguments k_points {A B}.

(** matplotlib's plot: 'x and y must have same first dimension'. *)
Definition xy {A B} (xs : list A) (ys : list B) : res (list (A * B)) :=
  if (length xs =? length ys)%nat then Ok (combine xs ys) else Err ValueError.

(** l[i] for an index that is not negative. *)
Definition get {A} (l : list A) (i : nat) : res A := of_option IndexError (nth_error l i).

(** plotting.py:138-163 PlotSensitivity.plot *)
Definition plot_sensitivity (o : robj) : res (list (curve Q Q)) :=
  let X := r_up (o_t o) in
  Y <- signal o ;;
  data <- xy X Y ;;
  r <- responsivity o ;;
  fit <- xy X (map (Qmult r) X) ;;
  m <- index_sensitivity_max o ;;
  xi <- get X index_sensitivity_min ;;
  xf <- get X m ;;
  yi <- get Y index_sensitivity_min ;;
  yf <- get Y m ;;
  Ok [mkCurve (lit "Data") true data; mkCurve (lit "Fit") true fit;
      mkCurve (lit "Fit range") false [(xi, yi); (xf, yf)]].

(** plotting.py:204-233 PlotPTC.plot *)
Definition plot_ptc (o : robj) : res (list (curve Q Q)) :=
  X <- signal o ;;
  Y <- np_sub (r_s2y (o_t o)) (r_s2ydark (o_t o)) ;;
  data <- xy X Y ;;
  k <- gain o ;;
  fit <- xy X (map (Qmult k) X) ;;
  s <- fst (index_u_ysat o) ;;
  xs <- py_get X s ;;
  ys <- py_get Y s ;;
  m <- index_sensitivity_max o ;;
  xi <- get X index_sensitivity_min ;;
  xf <- get X m ;;
  yi <- get Y index_sensitivity_min ;;
  yf <- get Y m ;;
  Ok [mkCurve (lit "Data") true data; mkCurve (lit "Fit") true fit;
      mkCurve (lit "Saturation") false [(xs, ys)];
      mkCurve (lit "Fit range") false [(xi, yi); (xf, yf)]].

(** plotting.py:314-338 PlotLinearity.plot; [None]: no number (a division by zero in
    the fit). *)
Definition plot_linearity (o : robj) : res (list (curve Q (option Q))) :=
  let X := r_up (o_t o) in
  Y <- signal o ;;
  data <- xy X (map Some Y) ;;
  l <- linearity o ;;
  fit <- xy X (map (fun x => match lin_fit l with
                             | Some (a, b) => Some (a * x + b)%Q
                             | None => None
                             end) X) ;;
  lo <- index_linearity_min o ;;
  hi <- index_linearity_max o ;;
  xi <- get X lo ;;
  xf <- get X hi ;;
  yi <- get Y lo ;;
  yf <- get Y hi ;;
  Ok [mkCurve (lit "Data") true data; mkCurve (lit "Fit") true fit;
      mkCurve (lit "Fit range") false [(xi, Some yi); (xf, Some yf)]].

(** plotting.py:348-367 PlotDeviationLinearity.plot *)
Definition plot_deviation (o : robj) : res (list (curve Q (option Q))) :=
  lo <- index_linearity_min o ;;
  hi <- index_linearity_max o ;;
  let X := slice lo (hi + 1) (r_up (o_t o)) in
  l <- linearity o ;;
  let Y := slice lo (hi + 1) (lin_dev l) in
  data <- xy X Y ;;
  x0 <- py_get X 0 ;;
  x1 <- py_get X (-1) ;;
  y0 <- py_get Y 0 ;;
  y1 <- py_get Y (-1) ;;
  Ok [mkCurve (lit "Data") true data; mkCurve (lit "Fit range") false [(x0, y0); (x1, y1)]].

(** ** Mean gray value in dark *)

(** np.mean, exact; NaN of an empty array. *)
Definition np_mean (l : list Q) : option Q :=
  match l with [] => None | _ => Some (lsumq l / qn (length l))%Q end.

(** plotting.py:178-194 PlotUyDark.plot, exact arithmetic. *)
Definition plot_uydark (o : robj) : res (list (curve Q Q)) :=
  let texp := r_texp (o_t o) in
  t0 <- get texp 0 ;;
  let joined := match np_mean texp with Some m => negb (Qeq_bool m t0) | None => true end in
  data <- xy texp (r_uydark (o_t o)) ;;
  Ok [mkCurve (lit "Data") joined data].

(** np.mean in binary64 of fewer than eight numbers: added one after the other. *)
Definition np_mean_f (l : list pyfloat) : pyfloat :=
  fdiv (fold_left fadd l fzero) (f_int (Z.of_nat (length l))).
(** plotting.py:181: the condition, in binary64, up to seven exposures; [true] when the
    points are joined. *)
Definition joined_f (texp : list pyfloat) : res bool :=
  t0 <- get texp 0 ;; Ok (negb (feq (np_mean_f texp) t0)).

(** ** Signal to noise ratio *)

(** np.nonzero (plotting.py:257) *)
Definition nonzero (l : list Q) : list nat := argwhere (fun v => negb (Qeq_bool v 0)) l.
(** indexing with an array of indices *)
Definition take {A} (l : list A) (idx : list nat) : res (list A) :=
  mapM (get l) idx.

(** plotting.py:257-264: the curve 'Data'. *)
Definition snr_data (o : robj) : res (list (Q * xr)) :=
  let s2 := r_s2y (o_t o) in
  let nz := nonzero s2 in
  xs <- take (r_up (o_t o)) nz ;;
  Y <- signal o ;;
  ys <- take Y nz ;;
  v <- take s2 nz ;;
  if (length ys =? length v)%nat
  then xy xs (map (fun p => xdiv (xq (fst p)) (xsqrt (xq (snd p)))) (combine ys v))
  else Err ValueError.

Open Scope R_scope.

(** Smallest integer not below x. *)
Definition ceil (x : R) : Z := (- Int_part (- x))%Z.

(** np.arange of numpy scalars: [ceil((stop - start) / step)] numbers start + i * step;
    ValueError when the length is not a number. *)
Definition arange (start stop step : xr) : res (list R) :=
  match xdiv (xsub stop start) step, start, step with
  | XR v, XR s, XR d => Ok (map (fun i => s + INR i * d) (seq 0 (Z.to_nat (ceil v))))
  | _, _, _ => Err ValueError
  end.

(** plotting.py:252-253 *)
Definition snr_samples (o : robj) : res (list R) :=
  lo <- u_p_min o ;;
  hi <- u_p_sat o ;;
  arange lo (xq hi) (xdiv (xsub (xq hi) lo) (xq 100)).

(** Python's [a > b] and [max] of a list that is not empty. *)
Definition xgt (a b : xr) : bool :=
  match a, b with
  | XR x, XR y => if Rlt_dec y x then true else false
  | XInf n, XR _ => negb n
  | XR _, XInf n => n
  | XInf n, XInf m => andb (negb n) m
  | _, _ => false
  end.
Definition py_max (l : list xr) : res xr :=
  match l with
  | [] => Err ValueError
  | x :: l' => Ok (fold_left (fun m y => if xgt y m then y else m) l' x)
  end.

(** plotting.py:249-304 PlotSNR.plot: the curves 'Data', 'Theoretical', 'Ideal' and
    'Total SNR', the vertical lines, max_ideal afterwards and the upper limit of the
    axis.  matplotlib refuses a limit that is not finite. *)
Record snr_plot := mkSNR {
  n_data : list (Q * xr);
  n_theoretical : list (R * xr);
  n_ideal : list (R * xr);
  n_total : list (R * xr);
  n_lines : xr * Q
}.
Definition plot_snr (max_ideal : list xr) (o : robj) : res (snr_plot * list xr * R) :=
  X <- snr_samples o ;;
  data <- snr_data o ;;
  th <- mapM (snr_theoretical o) X ;;
  let ideal := map snr_ideal X in
  last_ <- py_get ideal (-1) ;;
  let max_ideal' := (max_ideal ++ [last_])%list in
  lo <- u_p_min o ;;
  hi <- u_p_sat o ;;
  tot <- mapM (snr_total o) X ;;
  top <- py_max max_ideal' ;;
  match top with
  | XR t => Ok (mkSNR data (combine X th) (combine X ideal) (combine X tot) (lo, hi), max_ideal', t)
  | _ => Err ValueError
  end.

(** plotting.py:869-870: the tests of a figure one after the other; the limit set last
    stays. *)
Fixpoint plot_snrs (max_ideal : list xr) (tests : list robj) : res (list (snr_plot * R)) :=
  match tests with
  | [] => Ok []
  | o :: tests' =>
      '(p, mi, top) <- plot_snr max_ideal o ;;
      rest <- plot_snrs mi tests' ;;
      Ok ((p, top) :: rest)
  end.

Close Scope R_scope.

(** plotting.py:252-253 in binary64.  numpy stores the first two numbers and continues
    with their difference; [ceil] of the rounded quotient.  [None]: quotient not
    finite. *)
Definition arange_f (start stop step : pyfloat) : res (list pyfloat) :=
  match fdiv (fsub stop start) step with
  | FFin v =>
      let n := Z.to_nat (Qround.Qceiling v) in
      let delta := fsub (fadd start step) start in
      Ok (map (fun i => match i with
                        | 0 => start
                        | 1 => fadd start step
                        | _ => fadd start (fmul (f_int (Z.of_nat i)) delta)
                        end) (seq 0 n))
  | _ => Err ValueError
  end.
Definition snr_samples_f (lo hi : pyfloat) : res (list pyfloat) :=
  arange_f lo hi (fdiv (fsub hi lo) (f_int 100)).

(** ** Axis limits *)

(** plotting.py:532 and 555: limits of the logarithmic histograms, [ymin] 1 (DSNU) or
    1/2 (PRNU); np.max refuses an empty array. *)
Definition hist_limits (ymin : Q) (h : hist) : res (Q * Q) :=
  match h_values h with
  | [] => Err ValueError
  | _ => Ok (ymin, (inject_Z (zmax (h_values h)) * 2)%Q)
  end.

(** self.axis_limits (plotting.py:603-604): the lists 'min' and 'max' of the bright and
    of the dark axis.  'length' is not used. *)
Record limits := mkLimits { m_bmin : list Q; m_bmax : list Q; m_dmin : list Q; m_dmax : list Q }.
Definition no_limits : limits := mkLimits [] [] [] [].

(** plotting.py:672-678: np.mean of the values of a curve; NaN (not modelled: [None]) of
    a curve without points. *)
Definition curve_mean (p : list (nat * Q)) : option Q := np_mean (map snd p).

(** plotting.py:669-679 get_profiles and 694-697; decimal constants exact.  [Ok None]:
    some curve has no points. *)
Definition add_limits (vertical : bool) (s : spatial) (a : limits) : res (option (profiles * profiles * limits)) :=
  '(b, d) <- plot_profiles vertical s ;;
  Ok (match curve_mean (f_mean b), curve_mean (f_min d), curve_mean (f_max d) with
      | Some bm, Some dn, Some dx =>
          Some (b, d, mkLimits (m_bmin a ++ [(9 # 10) * bm]) (m_bmax a ++ [(11 # 10) * bm])
                               (m_dmin a ++ [(9 # 10) * dn]) (m_dmax a ++ [(11 # 10) * dx]))%Q
      | _, _, _ => None
      end).

(** Python's min and max of a list (plotting.py:752-755 and 782-785). *)
Definition py_minq (l : list Q) : res Q :=
  match l with [] => Err ValueError | x :: l' => Ok (qmin x l') end.
Definition py_maxq (l : list Q) : res Q :=
  match l with [] => Err ValueError | x :: l' => Ok (qmax x l') end.

(** plotting.py:750-755 and 780-785 rearrange: lower and upper end of the value axis of
    the bright and of the dark panel. *)
Definition rearrange (a : limits) : res ((Q * Q) * (Q * Q)) :=
  bl <- py_minq (m_bmin a) ;;
  bh <- py_maxq (m_bmax a) ;;
  dl <- py_minq (m_dmin a) ;;
  dh <- py_maxq (m_dmax a) ;;
  Ok ((bl, bh), (dl, dh)).

(** plotting.py:868-871: all tests of a figure, then the limits. *)
Fixpoint plot_tests (vertical : bool) (ts : list spatial) (a : limits)
    : res (option (list (profiles * profiles) * limits)) :=
  match ts with
  | [] => Ok (Some ([], a))
  | s :: ts' =>
      r <- add_limits vertical s a ;;
      match r with
      | None => Ok None
      | Some (b, d, a') =>
          r' <- plot_tests vertical ts' a' ;;
          Ok (match r' with Some (l, a'') => Some ((b, d) :: l, a'') | None => None end)
      end
  end.

(** plotting.py:868-870 with the histogram plots: the limits set last stay. *)
Definition hist_figure (ymin : Q) (hs : list hist) : res (option (Q * Q)) :=
  l <- mapM (hist_limits ymin) hs ;; Ok (last (map Some l) None).
