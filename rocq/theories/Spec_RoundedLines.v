(** What the property C127 speaks about: the parts of the spatial variance in binary64 numbers. *)
From Coq Require Import List Bool Arith ZArith QArith.
From Verif Require Import Base_Prelude Base_Num Base_Order Base_Sum Model_Images Model_Loader
  Model_Data Model_Rounded Model_RoundedSpatial Model_RoundedLines Model_Results Spec_Images Spec_Data Spec_Rounded Spec_RoundedSpatial.
Import ListNotations.
Open Scope Q_scope.

(** Spatial variance without the share of the temporal noise. *)
Definition true_spatial (h w : nat) (imgs : list image) : Q :=
  spatial_noise h w imgs - temporal_noise h w imgs / qn (length imgs).

(** Number of pixels less numbers of rows and columns. *)
Definition inner_pixels (h w : nat) : Z := (Z.of_nat (h * w) - Z.of_nat h - Z.of_nat w)%Z.

(** The variances of the columns, of the rows and of the single pixels, by the formulas of the
    standard. *)
Definition column_part (h w : nat) (imgs : list image) : Q :=
  (qn (h * w - h) * column_noise h w imgs - qn w * (true_spatial h w imgs - row_noise h w imgs)) / inject_Z (inner_pixels h w).
Definition row_part (h w : nat) (imgs : list image) : Q :=
  (qn (h * w - w) * row_noise h w imgs - qn h * (true_spatial h w imgs - column_noise h w imgs)) / inject_Z (inner_pixels h w).
Definition pixel_part (h w : nat) (imgs : list image) : Q :=
  qn (h * w) * (true_spatial h w imgs - column_noise h w imgs - row_noise h w imgs) / inject_Z (inner_pixels h w).

(** 4 hw / (hw - h - w) times the bound of the spatial figures. *)
Definition part_bound (b : Z) (d h w : nat) : Q :=
  4 * (qn (h * w) / inject_Z (inner_pixels h w)) * spatial_bound b d.

(** The figures [t], [c], [r], [p] computed with exact numbers are the spatial variance and its
    parts. *)
Definition exact_parts (h w : nat) (imgs : list image) (t : option Q) (c r p : res (option Q)) : Prop :=
  exists t' c' r' p', t = Some t' /\ c = Ok (Some c') /\ r = Ok (Some r') /\ p = Ok (Some p') /\
    t' == true_spatial h w imgs /\ c' == column_part h w imgs /\ r' == row_part h w imgs /\ p' == pixel_part h w imgs.

(** The figures of a series computed with exact numbers, and the double precision ones beside
    them. *)
Definition parts_near (e : Q) (t : option Q) (c r p : res (option Q)) (f : fsdata) : Prop :=
  exists t' c' r' p' x y z, t = Some t' /\ c = Ok (Some c') /\ r = Ok (Some r') /\ p = Ok (Some p') /\
    s_2_y_col_f f = Ok x /\ s_2_y_row_f f = Ok y /\ s_2_y_pixel_f f = Ok z /\
    within e t' (s_2_y_f f) /\ within e c' x /\ within e r' y /\ within e p' z.
Definition lines_near (e : Q) (o : robj) (f : fspatial) : Prop :=
  parts_near e (s_2_y o) (s_2_y_col o) (s_2_y_row o) (s_2_y_pixel o) (fsp_bright f) /\
  parts_near e (s_2_y_dark o) (s_2_y_col_dark o) (s_2_y_row_dark o) (s_2_y_pixel_dark o) (fsp_dark f).
