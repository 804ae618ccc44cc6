(** The temporal branch of routines.py, loader.py and data.py with the binary64
    roundings that NumPy makes.  [Model_Images], [Model_Loader] and [Model_Data] have
    the same functions over exact numbers.

    NumPy may add the elements of an array in any order and grouping; a summation is
    given the tree of its additions.  An int64 array is converted element by element
    before np.mean adds it (its accumulator is float64). *)
From Coq Require Import List Bool Arith ZArith QArith Permutation.
From Verif Require Import Base_Prelude Base_Num Base_Order Base_Sum Base_Float Model_Images
  Model_Loader Model_Data Model_Hist.
Import ListNotations.
Open Scope Z_scope.

(** An order of additions: which element, or the sum of two partial sums. *)
Inductive stree := SLeaf (i : nat) | SNode (a b : stree).

Fixpoint leaves (t : stree) : list nat :=
  match t with SLeaf i => [i] | SNode a b => leaves a ++ leaves b end.

(** Every one of the [n] elements once. *)
Definition adds_all (n : nat) (t : stree) : Prop := Permutation (leaves t) (seq 0 n).

(** The additions of [t] over the elements [l]. *)
Fixpoint run (l : list pyfloat) (t : stree) : pyfloat :=
  match t with
  | SLeaf i => nth i l (FFin 0)
  | SNode a b => fadd (run l a) (run l b)
  end.

(** np.mean of an int64 image (routines.py:61); pixels row by row. *)
Definition np_mean (t : stree) (im : image) : pyfloat :=
  fdiv (run (map f_int (pixels_of im)) t) (f_int (Z.of_nat (ih im * iw im))).

(** routines.py:53-62, the part of the loop that makes dmean_; [order] is the order of
    the additions in the mean of an image.  Images are int64 here (astype). *)
Fixpoint dmean_f (order : image -> stree) (acc : pyfloat) (old : option image)
    (imgs : list image) : pyfloat :=
  match imgs with
  | [] => acc
  | im :: rest =>
      let i := mkImg (ih im) (iw im) (fun r c => wrap64 (px im r c)) in
      let acc' := match old with
                  | None => acc
                  | Some oi => fadd acc (fsub (np_mean (order i) i) (np_mean (order oi) oi))
                  end in
      dmean_f order acc' (Some i) rest
  end.

(** loader.py:119-123: sum and pvar are int64 numbers, dmean a float64. *)
Record ftdata := mkFT { ft_sum : Z; ft_pvar : Z; ft_dmean : pyfloat }.

(** routines.py:32-69 and loader.py:119-123 for a temporal series. *)
Definition temporal_entry (order : image -> stree) (imgs : list image) : res ftdata :=
  r <- get_int_imgs imgs ;;
  Ok (mkFT (img_sum (ii_sum r)) (img_sum (ii_pvar r)) (dmean_f order (FFin 0) None imgs)).

(** data.py:157-188 _get_temporal_data. *)
Definition mean_f (pixels : nat) (d : ftdata) : pyfloat :=
  fdiv (f_int (ft_sum d)) (fmul (f_int 2) (f_int (Z.of_nat pixels))).
Definition var_f (pixels : nat) (d : ftdata) : pyfloat :=
  fdiv (f_int (ft_pvar d)) (fmul (f_int 4) (f_int (Z.of_nat pixels))).
Definition half_sq_f (d : ftdata) : pyfloat :=
  fdiv (fmul (ft_dmean d) (ft_dmean d)) (f_int 2).

(** data.py:123 and 130: d['var'] - d['dmean']. *)
Definition s2_f (pixels : nat) (d : ftdata) : pyfloat := fsub (var_f pixels d) (half_sq_f d).

Record ftemporal := mkFTemporal {
  ftp_texp : list pyfloat;
  ftp_up : list pyfloat;
  ftp_uy : list pyfloat;
  ftp_s2y : list pyfloat;
  ftp_uydark : list pyfloat;
  ftp_s2ydark : list pyfloat
}.

(** data.py:107-130, one round of the loop. *)
Definition temporal_exposure_f (pixels : nat) (data : dict pyfloat (dict pyfloat ftdata))
    (t : pyfloat) : res (pyfloat * pyfloat * list (pyfloat * pyfloat * pyfloat)) :=
  inner <- of_option KeyError (dget feq t data) ;;
  let photons := py_sorted (dkeys inner) in
  if negb (existsb (feq fzero) photons) then Err ValueError
  else if (length photons <? 2)%nat then Err ValueError
  else
    d <- of_option KeyError (dget feq fzero inner) ;;
    bright <- mapM (fun p => d' <- of_option KeyError (dget feq p inner) ;;
                             Ok (p, mean_f pixels d', s2_f pixels d')) (tl photons) ;;
    Ok (mean_f pixels d, s2_f pixels d, bright).

(** data.py:58-155 _get_temporal. *)
Definition get_temporal_f (pixels : nat) (data : dict pyfloat (dict pyfloat ftdata))
  : res ftemporal :=
  let exposures := py_sorted (dkeys data) in
  rows <- mapM (temporal_exposure_f pixels data) exposures ;;
  let points := flat_map (fun r => snd r) rows in
  let up := map (fun x => fst (fst x)) points in
  let uy := map (fun x => snd (fst x)) points in
  let s2y := map (fun x => snd x) points in
  let ud := map (fun r => fst (fst r)) rows in
  let s2d := map (fun r => snd (fst r)) rows in
  if (length exposures =? 1)%nat then
    let l := length up in
    Ok (mkFTemporal (spread l exposures) up uy s2y (spread l ud) (spread l s2d))
  else Ok (mkFTemporal exposures up uy s2y ud s2d).
