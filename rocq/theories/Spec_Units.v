(** What rescaling a measurement means: grey values times [g] plus an offset [c], photon
    counts times [p], exposure times times [t]. *)
From Coq Require Import List Bool Arith ZArith QArith Reals Qreals.
From Verif Require Import Base_Prelude Base_Sum Base_Num Base_Xreal Model_Images Model_Loader
  Model_Data Model_Parser Model_Results Spec_Parser Spec_Images Spec_Data Spec_Results Spec_Emva.
Import ListNotations.
Open Scope Q_scope.

(** ** Images and entries *)
(** Every grey value y of the image becomes g y + c. *)
Definition regraded (g c : Z) (a b : image) : Prop :=
  ih b = ih a /\ iw b = iw a /\
  forall i j, (i < ih a)%nat -> (j < iw a)%nat -> px b i j = (g * px a i j + c)%Z.

(** The entry [e'] of the second descriptor stands for [e]: the same kind, exposure time
    times [t], photon count times [p], and images changed by [T]. *)
Definition restated (fs fs' : fsys) (T : image -> image -> Prop) (t p : Q) (e e' : entry) : Prop :=
  e_kind e' = e_kind e /\
  number (e_exposure e') == t * number (e_exposure e) /\
  number (e_photons e') == p * number (e_photons e) /\
  forall ims, images fs (e_files e) ims ->
    exists ims', images fs' (e_files e') ims' /\ Forall2 T ims ims'.

(** ** Figures *)
(** A figure with the exponents of the units grey value, photon and exposure time. *)
Record dimension := mkDim { d_grey : Z; d_photon : Z; d_time : Z }.

Definition dimension_of (f : figure) : dimension :=
  match f with
  | F_R => mkDim 1 (-1) 0
  | F_K => mkDim 1 0 0
  | F_inverse_K => mkDim (-1) 0 0
  | F_QE => mkDim 0 (-1) 0
  | F_sigma_y_dark => mkDim 1 0 0
  | F_u_p_min | F_u_p_min_area | F_u_p_sat | F_u_p_sat_area => mkDim 0 1 0
  | F_u_I_var_DN | F_u_I_mean_DN => mkDim 1 0 (-1)
  | F_u_I_var | F_u_I_mean => mkDim 0 0 (-1)
  | F_s_2_y | F_s_2_y_dark | F_s_2_y_row | F_s_2_y_row_dark | F_s_2_y_col | F_s_2_y_col_dark
  | F_s_2_y_pixel | F_s_2_y_pixel_dark => mkDim 2 0 0
  | F_DSNU1288_DN => mkDim 1 0 0
  | _ => mkDim 0 0 0
  end.

(** The factor of a dimension. *)
Definition factor (g p t : Q) (d : dimension) : Q :=
  g ^ d_grey d * p ^ d_photon d * t ^ d_time d.

(** [y] is [x] times k; infinities and NaN stay. *)
Definition times_q (k x y : Q) : Prop := y == k * x.
Definition times_x (k : Q) (x y : xr) : Prop :=
  match x with
  | XR r => y = XR (Q2R k * r)
  | _ => y = x
  end.

(** The line of the linearity fit in the new units; the deviations are percentages. *)
Definition times_lin (g p : Q) (a b : lin) : Prop :=
  same_opt (fun u v => fst v == g / p * fst u /\ snd v == g * snd u) (lin_fit a) (lin_fit b) /\
  Forall2 (same_opt Qeq) (lin_dev a) (lin_dev b) /\
  same_opt Qeq (lin_min a) (lin_min b) /\ same_opt Qeq (lin_max a) (lin_max b).

(** [b] is the figure [a] in the new units: same exceptions, same indices. *)
Definition times_value (g p k : Q) (a b : fvalue) : Prop :=
  match a, b with
  | VZ x, VZ y => x = y
  | VN x, VN y => x = y
  | VQ x, VQ y => same_res (times_q k) x y
  | VX x, VX y => same_res (times_x k) x y
  | VOX x, VOX y => same_res (same_opt (times_x k)) x y
  | VOQ x, VOQ y => same_res (same_opt (times_q k)) x y
  | VL x, VL y => same_res (times_lin g p) x y
  | _, _ => False
  end.
Definition follows (g p t : Q) (f : figure) (o o' : robj) : Prop :=
  times_value g p (factor g p t (dimension_of f)) (value_of f o) (value_of f o').

(** The figures that involve the dark noise. *)
Definition uses_dark_noise (f : figure) : bool :=
  match f with
  | F_sigma_y_dark | F_sigma_d | F_u_p_min | F_u_p_min_area | F_u_e_min | F_u_e_min_area
  | F_DR | F_DR_dB => true
  | _ => false
  end.
Definition is_sigma_d (f : figure) : bool := match f with F_sigma_d => true | _ => false end.

(** ** Arrays and stacks of Results1288 *)
Definition times_list (k : Q) : list Q -> list Q -> Prop := Forall2 (times_q k).
Definition graded_list (g c : Q) : list Q -> list Q -> Prop := Forall2 (fun x y => y == g * x + c).

Definition graded_series (g c : Q) (a b : sdata) : Prop :=
  sd_L b = sd_L a /\ sd_M b = sd_M a /\ sd_N b = sd_N a /\
  sd_avg_mean b == g * sd_avg_mean a + c /\
  same_opt (times_q (g * g)) (sd_var_mean a) (sd_var_mean b) /\
  same_opt (times_q (g * g)) (sd_avg_var a) (sd_avg_var b) /\
  same_opt (times_q (g * g)) (sd_avg_var_cav a) (sd_avg_var_cav b) /\
  same_opt (times_q (g * g)) (sd_avg_var_rav a) (sd_avg_var_rav b).

(** The data of [o'] are those of [o] in the new units. *)
Record rescaled (g c p t : Q) (o o' : robj) : Prop := {
  rs_texp : times_list t (r_texp (o_t o)) (r_texp (o_t o'));
  rs_up : times_list p (r_up (o_t o)) (r_up (o_t o'));
  rs_uy : graded_list g c (r_uy (o_t o)) (r_uy (o_t o'));
  rs_s2y : times_list (g * g) (r_s2y (o_t o)) (r_s2y (o_t o'));
  rs_uydark : graded_list g c (r_uydark (o_t o)) (r_uydark (o_t o'));
  rs_s2ydark : times_list (g * g) (r_s2ydark (o_t o)) (r_s2ydark (o_t o'));
  rs_dark : graded_series g c (sp_dark (o_s o)) (sp_dark (o_s o'));
  rs_bright : graded_series g c (sp_bright (o_s o)) (sp_bright (o_s o'));
  rs_area : o_area o' = o_area o;
  rs_sat : o_sat o' = o_sat o
}.

(** Some point used for the fits has a signal, some has light. *)
Definition has_signal (o : robj) : Prop :=
  forall m, value_of F_index_sensitivity_max o = VN (Ok m) ->
    exists j, (j <= m)%nat /\ ~ sig o j == 0.
Definition has_light (o : robj) : Prop :=
  forall m, value_of F_index_sensitivity_max o = VN (Ok m) ->
    exists j, (j <= m)%nat /\ ~ photons o j == 0.

(** The dark variance is not replaced by 0.24, before and after. *)
Definition above_floor (g : Q) (o : robj) (n : nat) : Prop :=
  forall v, dark_value o n v -> 24 # 100 <= v /\ 24 # 100 <= g * g * v.
