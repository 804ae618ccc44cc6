(** Model of src/emva1288/process/data.py (class Data1288).

    The input is the dictionary made by the loader ([loaded]).  Means, variances
    and squares are exact rationals (floating-point rounding is not modelled); a
    value that numpy makes NaN by 0/0 is [None].  Docstrings and logging dropped. *)
From Coq Require Import List Bool Arith ZArith QArith.
From Verif Require Import Base_Prelude Base_Num Base_Order Base_Sum Model_Images Model_Loader.
Import ListNotations.
Open Scope Q_scope.

(** data.py:157-188 _get_temporal_data: mean, var, dmean.  [pixels] is positive
    (no image reader returns an empty image). *)
Definition td_mean (pixels : nat) (d : tdata) : Q := inject_Z (t_sum d) / (2 * qn pixels).
Definition td_var (pixels : nat) (d : tdata) : Q := inject_Z (t_pvar d) / (4 * qn pixels).
Definition td_dmean (d : tdata) : Q := t_dmean d * t_dmean d / 2.

(** The corrected variance, d['var'] - d['dmean'] (data.py:123 and 130). *)
Definition td_s2 (pixels : nat) (d : tdata) : Q := td_var pixels d - td_dmean d.

Record temporal := mkTemporal {
  tp_texp : list pyfloat;
  tp_up : list pyfloat;
  tp_uy : list Q;
  tp_s2y : list Q;
  tp_uydark : list Q;
  tp_s2ydark : list Q
}.

(** data.py:107-130, one round of the loop: dark mean, dark variance, and
    (photons, mean, variance) of the bright points. *)
Definition temporal_exposure (pixels : nat) (data : dict pyfloat (dict pyfloat tdata))
    (t : pyfloat) : res (Q * Q * list (pyfloat * Q * Q)) :=
  inner <- of_option KeyError (dget feq t data) ;;
  let photons := py_sorted (dkeys inner) in
  if negb (existsb (feq fzero) photons) then Err ValueError
  else if (length photons <? 2)%nat then Err ValueError
  else
    d <- of_option KeyError (dget feq fzero inner) ;;
    bright <- mapM (fun p => d' <- of_option KeyError (dget feq p inner) ;;
                             Ok (p, td_mean pixels d', td_s2 pixels d')) (tl photons) ;;
    Ok (td_mean pixels d, td_s2 pixels d, bright).

(** data.py:142-153: an array of length [l] filled with the first element. *)
Definition spread {A} (l : nat) (xs : list A) : list A :=
  match xs with v :: _ => repeat v l | [] => [] end.

(** data.py:58-155 _get_temporal.  The appends of the loop are a concatenation. *)
Definition get_temporal (pixels : nat) (data : dict pyfloat (dict pyfloat tdata)) : res temporal :=
  let exposures := py_sorted (dkeys data) in
  rows <- mapM (temporal_exposure pixels data) exposures ;;
  let points := flat_map (fun r => snd r) rows in
  let up := map (fun x => fst (fst x)) points in
  let uy := map (fun x => snd (fst x)) points in
  let s2y := map (fun x => snd x) points in
  let ud := map (fun r => fst (fst r)) rows in
  let s2d := map (fun r => snd (fst r)) rows in
  if (length exposures =? 1)%nat then
    let l := length up in
    Ok (mkTemporal (spread l exposures) up uy s2y (spread l ud) (spread l s2d))
  else Ok (mkTemporal exposures up uy s2y ud s2d).

(** Result of _get_spatial_data. *)
Record sdata := mkS {
  sd_sum : image;
  sd_L : nat;
  sd_M : nat;
  sd_N : nat;
  sd_var_mean : option Q;
  sd_avg_var : option Q;
  sd_avg_mean : Q;
  sd_avg_var_cav : option Q;
  sd_avg_var_rav : option Q
}.

Definition omap {A B} (f : A -> B) (o : option A) : option B :=
  match o with Some a => Some (f a) | None => None end.

(** data.py:264-328 _get_spatial_data; [M], [N] are self.rows, self.cols.
    No image: d['sum'] is the integer 0, which has no astype.  [1 / N] and [1 / M]
    are Python integer divisions.  L = 1: pvar is 0 and is divided by 0.0 (NaN).
    One pixel: np.var with ddof=1 is 0/0 (NaN). *)
Definition get_spatial_data (M N : nat) (d : int_imgs) : res sdata :=
  let h := ih (ii_sum d) in
  let w := iw (ii_sum d) in
  let L := ii_L d in
  if (L =? 0)%nat then Err AttributeError
  else if (N =? 0)%nat then Err ZeroDivisionError
  else if (M =? 0)%nat then Err ZeroDivisionError
  else
    let avg_ := fun r c => inject_Z (px (ii_sum d) r c) / qn L in
    let avg := sumq2 h w avg_ / qn (h * w) in
    let avg_row := fun c => sumq h (fun r => avg_ r c) / qn h in
    let avg_col := fun r => sumq w (fun c => avg_ r c) / qn w in
    let var_ := fun r c => inject_Z (px (ii_pvar d) r c) / (qn L * qn L * qn (L - 1)) in
    let var_mean := if (L =? 1)%nat then None else Some (sumq2 h w var_ / qn (h * w)) in
    let avg_var :=
      if (h * w =? 1)%nat then None
      else Some (sumq2 h w (fun r c => (avg_ r c - avg) * (avg_ r c - avg)) / qn (h * w - 1)) in
    let cav := omap (fun v =>
      1 / qn N * sumq w (fun c => (avg_row c - avg) * (avg_row c - avg)) - v / qn (L * M)) var_mean in
    let rav := omap (fun v =>
      1 / qn M * sumq h (fun r => (avg_col r - avg) * (avg_col r - avg)) - v / qn (L * N)) var_mean in
    Ok (mkS (ii_sum d) L M N var_mean avg_var avg cav rav).

Record spatial := mkSpatial {
  sp_texp : pyfloat;
  sp_up : pyfloat;
  sp_dark : sdata;
  sp_bright : sdata
}.

(** data.py:190-262 _get_spatial; the '_dark' postfix is the field [sp_dark]. *)
Definition get_spatial (M N : nat) (data : dict pyfloat (dict pyfloat int_imgs)) : res spatial :=
  match data with
  | [(exposure, inner)] =>
      let photons := py_sorted (dkeys inner) in
      if negb (existsb (feq fzero) photons) then Err ValueError
      else if negb (length photons =? 2)%nat then Err ValueError
      else
        d <- of_option KeyError (dget feq fzero inner) ;;
        dark <- get_spatial_data M N d ;;
        bphoton <- of_option IndexError (nth_error photons 1) ;;
        d' <- of_option KeyError (dget feq bphoton inner) ;;
        bright <- get_spatial_data M N d' ;;
        Ok (mkSpatial exposure bphoton dark bright)
  | _ => Err ValueError
  end.

(** data.py:27-56; [pixels]: None and 0 mean width*height. *)
Record data1288 := mkData {
  d_pixels : nat; d_rows : nat; d_cols : nat;
  d_temporal : temporal; d_spatial : spatial
}.

Definition make_data (pixels : option nat) (l : loaded) : res data1288 :=
  let n := match pixels with
           | Some (S k) => S k
           | _ => (l_width l * l_height l)%nat
           end in
  t <- get_temporal n (l_temporal l) ;;
  s <- get_spatial (l_height l) (l_width l) (l_spatial l) ;;
  Ok (mkData n (l_height l) (l_width l) t s).
