(** Images with rows and columns in another order, and turned images. *)
From Coq Require Import List Bool Arith ZArith QArith Permutation.
From Verif Require Import Base_Prelude Model_Images Spec_Results.
Import ListNotations.

(** [p] puts 0 .. n-1 into another order. *)
Definition shuffles (n : nat) (p : nat -> nat) : Prop := Permutation (map p (seq 0 n)) (seq 0 n).

(** Row i of [b] is row [p i] of [a], column j is column [q j]: the image mirrored,
    turned by 180 degrees, or with rows and columns read out in another order. *)
Definition rearranged (h w : nat) (p q : nat -> nat) (a b : image) : Prop :=
  ih b = ih a /\ iw b = iw a /\
  forall i j, (i < h)%nat -> (j < w)%nat -> px b i j = px a (p i) (q j).

(** The same with rows and columns exchanged: the image transposed or turned by 90
    degrees.  [h] and [w] are the size before. *)
Definition turned (h w : nat) (p q : nat -> nat) (a b : image) : Prop :=
  ih b = iw a /\ iw b = ih a /\
  forall i j, (i < w)%nat -> (j < h)%nat -> px b i j = px a (p j) (q i).

(** Mirroring. *)
Definition mirror (n i : nat) : nat := (n - 1 - i)%nat.

(** The figure of the columns for that of the rows and back. *)
Definition other_direction (f : figure) : figure :=
  match f with
  | F_s_2_y_row => F_s_2_y_col | F_s_2_y_col => F_s_2_y_row
  | F_s_2_y_row_dark => F_s_2_y_col_dark | F_s_2_y_col_dark => F_s_2_y_row_dark
  | F_DSNU1288_row => F_DSNU1288_col | F_DSNU1288_col => F_DSNU1288_row
  | F_PRNU1288_row => F_PRNU1288_col | F_PRNU1288_col => F_PRNU1288_row
  | _ => f
  end.
