(** Patterns: [get_tile], [array_tile] and the tiling of [get_bayer_filter] in
    src/emva1288/camera/routines.py.  Definitions only.

    A 2-D array is a list of rows together with its number of columns. *)
From Coq Require Import List Bool Arith.
From Verif Require Import Base_Prelude.
Import ListNotations.

(** Array arguments and results by number of dimensions. *)
Inductive array (A : Type) : Type :=
| Arr1 (l : list A)
| Arr2 (cols : nat) (rows : list (list A))
| ArrN.
Arguments Arr1 {A} l.
Arguments Arr2 {A} cols rows.
Arguments ArrN {A}.

(** [np.tile] of rows *)
Definition tile {A} (rows : list (list A)) (v h : nat) : list (list A) :=
  concat (repeat (map (fun r => concat (repeat r h)) rows) v).

(** Number of repetitions: [int(np.floor(size / n) + 1)]; Python refuses n = 0.
    (The rounding of the quotient can only add a repetition, which the slice
    removes.) *)
Definition repetitions (size n : nat) : res nat :=
  if (n =? 0) then Err ZeroDivisionError else Ok (size / n + 1).

(** camera/routines.py:97-149 [get_tile].  More than two dimensions leave [h_r]
    unbound. *)
Definition get_tile {A} (arr : array A) (height width : nat) : res (array A) :=
  t <- match arr with
       | Arr1 l =>
           w_r <- repetitions width (length l) ;;
           Ok (tile [l] height w_r)
       | Arr2 c rows =>
           h_r <- repetitions height (length rows) ;;
           w_r <- repetitions width c ;;
           Ok (tile rows h_r w_r)
       | ArrN => Err NameError
       end ;;
  let t := map (firstn width) (firstn height t) in
  if height =? 1
  then match t with r :: _ => Ok (Arr1 r) | [] => Err IndexError end
  else Ok (Arr2 width t).

(** camera/routines.py:195-204: [array_tile] of the 2 x 2 pattern of
    [get_bayer_filter]; the cells are the transmission curves. *)
Definition bayer_tile {A} (p00 p01 p10 p11 : A) (width height : nat) : list (list A) :=
  tile [[p00; p01]; [p10; p11]] (height / 2) (width / 2).
