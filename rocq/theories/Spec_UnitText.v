(** What the property C128 speaks about: the units shown with the results. *)
From Coq Require Import Ascii String List Bool Arith ZArith QArith.
From Verif Require Import Base_Prelude Base_Str Base_Num Base_Xreal Model_Info Model_Data Model_Results Spec_Results Spec_Units.
Import ListNotations.
Open Scope Q_scope.

(** Exponents of grey value, photon, second and square micrometre.  Electrons, percentages,
    decibels and bits have none: they are not changed by the units of the measurement. *)
Record exponents := mkExp { x_grey : Z; x_photon : Z; x_time : Z; x_area : Z }.

(** A part of a unit, and a unit "part" or "part/part", with or without the dollar signs of
    LaTeX. *)
Definition part_exponents (t : str) : option exponents :=
  if str_eqb t (lit "DN") then Some (mkExp 1 0 0 0)
  else if str_eqb t (lit "DN2") then Some (mkExp 2 0 0 0)
  else if str_eqb t (lit "p") then Some (mkExp 0 1 0 0)
  else if str_eqb t (lit "s") then Some (mkExp 0 0 1 0)
  else if str_eqb t (lit "\mu m^2") then Some (mkExp 0 0 0 1)
  else if existsb (str_eqb t) [lit "e^-"; lit "\%"; lit "dB"; lit "bit"] then Some (mkExp 0 0 0 0)
  else None.
Definition read_unit (u : str) : option exponents :=
  match map part_exponents (split_on "/" (filter (fun c => negb (chr_eqb c "$")) u)) with
  | [a] => a
  | [Some a; Some b] =>
      Some (mkExp (x_grey a - x_grey b) (x_photon a - x_photon b) (x_time a - x_time b) (x_area a - x_area b))
  | _ => None
  end.

(** The exponents of an entry of the results; an entry without a unit is a plain number. *)
Definition shown_exponents (r : list (str * pobj)) : option exponents :=
  match oget (lit "unit") r with
  | Some (OStr u) => read_unit u
  | None => Some (mkExp 0 0 0 0)
  | _ => None
  end.

(** The factor of a change of units: grey values times g, photons times p, times times t, pixel
    area times a. *)
Definition unit_factor (g p t a : Q) (x : exponents) : Q :=
  g ^ x_grey x * p ^ x_photon x * t ^ x_time x * a ^ x_area x.

(** The names of the figures in the results. *)
Definition figure_name (f : figure) : str :=
  match f with
  | F_index_u_ysat => lit "index_u_ysat" | F_index_sensitivity_max => lit "index_sensitivity_max"
  | F_R => lit "R" | F_K => lit "K" | F_inverse_K => lit "inverse_K" | F_QE => lit "QE"
  | F_sigma_y_dark => lit "sigma_y_dark" | F_sigma_d => lit "sigma_d"
  | F_u_p_min => lit "u_p_min" | F_u_p_min_area => lit "u_p_min_area"
  | F_u_e_min => lit "u_e_min" | F_u_e_min_area => lit "u_e_min_area"
  | F_u_p_sat => lit "u_p_sat" | F_u_p_sat_area => lit "u_p_sat_area"
  | F_u_e_sat => lit "u_e_sat" | F_u_e_sat_area => lit "u_e_sat_area"
  | F_SNR_max => lit "SNR_max" | F_SNR_max_dB => lit "SNR_max_dB" | F_SNR_max_bit => lit "SNR_max_bit"
  | F_inverse_SNR_max => lit "inverse_SNR_max" | F_DR => lit "DR" | F_DR_dB => lit "DR_dB"
  | F_index_linearity_min => lit "index_linearity_min" | F_index_linearity_max => lit "index_linearity_max"
  | F_linearity => lit "linearity" | F_LE_min => lit "LE_min" | F_LE_max => lit "LE_max"
  | F_u_I_var_DN => lit "u_I_var_DN" | F_u_I_var => lit "u_I_var"
  | F_u_I_mean_DN => lit "u_I_mean_DN" | F_u_I_mean => lit "u_I_mean"
  | F_s_2_y => lit "s_2_y" | F_s_2_y_dark => lit "s_2_y_dark"
  | F_s_2_y_row => lit "s_2_y_row" | F_s_2_y_row_dark => lit "s_2_y_row_dark"
  | F_s_2_y_col => lit "s_2_y_col" | F_s_2_y_col_dark => lit "s_2_y_col_dark"
  | F_s_2_y_pixel => lit "s_2_y_pixel" | F_s_2_y_pixel_dark => lit "s_2_y_pixel_dark"
  | F_DSNU1288 => lit "DSNU1288" | F_DSNU1288_DN => lit "DSNU1288_DN"
  | F_DSNU1288_row => lit "DSNU1288_row" | F_DSNU1288_col => lit "DSNU1288_col"
  | F_DSNU1288_pixel => lit "DSNU1288_pixel"
  | F_PRNU1288 => lit "PRNU1288" | F_PRNU1288_row => lit "PRNU1288_row"
  | F_PRNU1288_col => lit "PRNU1288_col" | F_PRNU1288_pixel => lit "PRNU1288_pixel"
  end.

(** The variances shown as they were measured. *)
Definition measured_variances : list (str * (robj -> option Q)) :=
  [(lit "sigma_2_y_stack", sigma_2_y_stack); (lit "sigma_2_y_stack_dark", sigma_2_y_stack_dark);
   (lit "s_2_y_measured", s_2_y_measured); (lit "s_2_y_measured_dark", s_2_y_measured_dark);
   (lit "s_2_y_cav", s_2_y_cav); (lit "s_2_y_cav_dark", s_2_y_cav_dark);
   (lit "s_2_y_rav", s_2_y_rav); (lit "s_2_y_rav_dark", s_2_y_rav_dark)].

(** The same measurement with the pixel area [a]. *)
Definition with_area (a : option Q) (o : robj) : robj := mkObj (o_t o) (o_s o) a (o_sat o).
