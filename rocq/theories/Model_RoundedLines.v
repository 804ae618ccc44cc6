(** The row, column and pixel variances of results.py with the binary64 roundings that Python
    makes.  [Model_Results] has the same functions over exact numbers. *)
From Coq Require Import List Bool Arith ZArith QArith.
From Verif Require Import Base_Prelude Base_Num Base_Order Base_Sum Base_Float Model_Images
  Model_Loader Model_Data Model_Rounded Model_RoundedSpatial.
Import ListNotations.
Open Scope Z_scope.

(** results.py:748-772 s_2_y, s_2_y_dark: one function for the bright and the dark series. *)
Definition s_2_y_f (f : fsdata) : pyfloat :=
  fsub (fs_avg_var f) (fdiv (fs_var_mean f) (f_int (Z.of_nat (fs_L f)))).

(** [a / b] of Python integers below 2^53: the nearest double to the quotient. *)
Definition int_ratio (a b : Z) : res pyfloat :=
  if b =? 0 then Err ZeroDivisionError else Ok (fdiv (f_int a) (f_int b)).

(** results.py:822-854 s_2_y_col(_dark). *)
Definition s_2_y_col_f (f : fsdata) : res pyfloat :=
  let M := Z.of_nat (fs_M f) in let N := Z.of_nat (fs_N f) in
  para_1 <- int_ratio (M * N - M) (M * N - M - N) ;;
  para_2 <- int_ratio N (M * N - M - N) ;;
  Ok (fsub (fmul para_1 (fs_avg_var_cav f)) (fmul para_2 (fsub (s_2_y_f f) (fs_avg_var_rav f)))).

(** results.py:856-888 s_2_y_row(_dark). *)
Definition s_2_y_row_f (f : fsdata) : res pyfloat :=
  let M := Z.of_nat (fs_M f) in let N := Z.of_nat (fs_N f) in
  para_1 <- int_ratio (M * N - N) (M * N - M - N) ;;
  para_2 <- int_ratio M (M * N - M - N) ;;
  Ok (fsub (fmul para_1 (fs_avg_var_rav f)) (fmul para_2 (fsub (s_2_y_f f) (fs_avg_var_cav f)))).

(** results.py:890-920 s_2_y_pixel(_dark). *)
Definition s_2_y_pixel_f (f : fsdata) : res pyfloat :=
  let M := Z.of_nat (fs_M f) in let N := Z.of_nat (fs_N f) in
  para <- int_ratio (M * N) (M * N - M - N) ;;
  Ok (fmul para (fsub (fsub (s_2_y_f f) (fs_avg_var_cav f)) (fs_avg_var_rav f))).
