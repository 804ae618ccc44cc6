(** The indices of results.py and the responsivity with the binary64 roundings that NumPy
    makes.  [Model_Results] has the same functions over exact numbers. *)
From Coq Require Import List Bool Arith ZArith QArith.
From Verif Require Import Base_Prelude Base_Num Base_Order Base_Float Model_Rounded Model_Results.
Import ListNotations.
Open Scope Z_scope.

(** self.temporal as float64 arrays, and the attribute _index_u_ysat. *)
Record fobj := mkFObj { fo_t : ftemporal; fo_sat : option Z }.

(** [a >= b] on floats; false with a NaN. *)
Definition fge (a b : pyfloat) : bool := flt b a || feq a b.

(** numpy [a - b] with broadcasting, as [np_sub]. *)
Definition fnp_pairs (a b : list pyfloat) : res (list (pyfloat * pyfloat)) :=
  if (length a =? length b)%nat then Ok (combine a b)
  else match a, b with
       | [x], _ => Ok (map (fun y => (x, y)) b)
       | _, [y] => Ok (map (fun x => (x, y)) a)
       | _, _ => Err ValueError
       end.
Definition fnp_sub (a b : list pyfloat) : res (list pyfloat) :=
  P <- fnp_pairs a b ;; Ok (map (fun p => fsub (fst p) (snd p)) P).

(** results.py:98-112.  With a NaN neither branch is taken and the loop goes on. *)
Fixpoint fsat_loop (s2 : list pyfloat) (k : nat) (max_ : pyfloat) (max_i : nat) : res nat :=
  match k with
  | O => Ok max_i
  | S i =>
      a <- of_option IndexError (nth_error s2 i) ;;
      if fge a max_ then fsat_loop s2 i a i
      else
        b <- of_option IndexError (nth_error s2 (if (i =? 0)%nat then 1%nat else (i - 1)%nat)) ;;
        if fge b max_ then fsat_loop s2 i a i
        else if flt a max_ && flt b max_ then Ok max_i
        else fsat_loop s2 i max_ max_i
  end.

(** results.py:86-114 index_u_ysat, the value. *)
Definition findex_u_ysat (o : fobj) : res Z :=
  match fo_sat o with
  | Some z =>
      if negb (z =? 0) then Ok z
      else i <- fsat_loop (ftp_s2y (fo_t o)) (length (ftp_s2y (fo_t o))) fzero 0 ;; Ok (Z.of_nat i)
  | None => i <- fsat_loop (ftp_s2y (fo_t o)) (length (ftp_s2y (fo_t o))) fzero 0 ;; Ok (Z.of_nat i)
  end.

Definition fsignal (o : fobj) : res (list pyfloat) := fnp_sub (ftp_uy (fo_t o)) (ftp_uydark (fo_t o)).

Definition fargwhere (f : pyfloat -> bool) (l : list pyfloat) : list nat :=
  map fst (filter (fun p => f (snd p)) (combine (seq 0 (length l)) l)).

(** results.py:116-129; the literal 0.7 is the double nearest to 7/10. *)
Definition findex_sensitivity_max (o : fobj) : res nat :=
  Y <- fsignal o ;;
  i <- findex_u_ysat o ;;
  y <- py_get Y i ;;
  max_index (fargwhere (fun v => fge (fmul (rnd64 (7 # 10)) y) v) Y).

(** results.py:484-497. *)
Definition findex_linearity_min (o : fobj) : res nat :=
  Y <- fsignal o ;;
  i <- findex_u_ysat o ;;
  y <- py_get Y i ;;
  min_index (fargwhere (fun v => fge v (fmul (rnd64 (5 # 100)) y)) Y).

(** results.py:499-512. *)
Definition findex_linearity_max (o : fobj) : res nat :=
  Y <- fsignal o ;;
  i <- findex_u_ysat o ;;
  y <- py_get Y i ;;
  max_index (fargwhere (fun v => fge (fmul (rnd64 (95 # 100)) y) v) Y).

(** The number a finite float stands for (an infinity or a NaN does not occur in the temporal
    arrays of a data set of pairs). *)
Definition finite_number (x : pyfloat) : res Q :=
  match x with FFin q => Ok q | _ => Err ValueError end.

(** results.py:143-166 R; as in [Model_Results], scipy's leastsq is taken to return the exact
    minimiser of the squared residuals of the float64 arrays. *)
Definition fresponsivity (o : fobj) : res Q :=
  Y <- fsignal o ;;
  m <- findex_sensitivity_max o ;;
  X <- mapM finite_number (ftp_up (fo_t o)) ;;
  Y' <- mapM finite_number Y ;;
  linear_b0 (slice index_sensitivity_min (m + 1) X) (slice index_sensitivity_min (m + 1) Y').
