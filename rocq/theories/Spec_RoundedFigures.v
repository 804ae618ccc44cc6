(** What the property C118 speaks about: derived figures computed with rounding. *)
From Coq Require Import QArith Qreals Reals.
From Verif Require Import Base_Prelude Base_Xreal Model_Data Model_Results Model_RoundedFigures.
Open Scope R_scope.

(** a is right up to m times the part 2^-53. *)
Definition right_to (m : nat) (a A : R) : Prop := Rabs (a - A) <= INR m * / 2 ^ 53 * Rabs A.
(** Neither tiny nor huge. *)
Definition ordinary (x : R) : Prop := / 2 ^ 100 <= Rabs x <= 2 ^ 100.
(** The rounded figure f is a number, right up to c times 2^-53 of the exact figure g. *)
Definition shows (c : nat) (f : option R) (g : res xr) : Prop :=
  exists v y, f = Some v /\ g = Ok (XR y) /\ right_to c v y.

(** The library's square is wrong by at most one unit in the last place. *)
Definition good_square (pw : R -> R) : Prop := forall y, ordinary y -> right_to 2 (pw y) (y * y).

(** The derived figures from the computed responsivity R0, gain K, dark variance s and photons x. *)
Record figures_kept (o : robj) (pw : R -> R) (R0 K s x : R) (m : nat) : Prop := {
  fk_inverse : shows (m + 3) (r_inverse_K K) (inverse_K o);
  fk_efficiency : shows (2 * m + 5) (r_QE R0 K) (QE o);
  fk_noise : shows (m + 5) (r_sigma_y_dark s) (sigma_y_dark o);
  fk_electrons : shows (5 * m + 30) (r_sigma_d pw K s) (sigma_d o);
  fk_least_photons : shows (4 * m + 14) (r_u_p_min R0 K s) (u_p_min o);
  fk_least_electrons : shows (6 * m + 20) (r_u_e_min R0 K s) (u_e_min o);
  fk_most_electrons : shows (3 * m + 8) (r_u_e_sat R0 K x) (u_e_sat o);
  fk_ratio : shows (3 * m + 9) (r_SNR_max R0 K x) (SNR_max o);
  fk_inverse_ratio : shows (3 * m + 10) (r_inverse_SNR_max R0 K x) (inverse_SNR_max o);
  fk_range : shows (5 * m + 16) (r_DR R0 K s x) (DR o)
}.

(** The dark current from the computed gain and slopes. *)
Record current_kept (o : robj) (K fm fv : R) (m : nat) : Prop := {
  ck_mean_dn : shows (m + 3) (r_u_I_mean_DN fm) (u_I_mean_DN o);
  ck_mean : shows (2 * m + 5) (r_u_I_mean K fm) (u_I_mean o);
  ck_var_dn : shows (2 * m + 5) (r_u_I_var_DN K fv) (u_I_var_DN o);
  ck_var : shows (3 * m + 7) (r_u_I_var K fv) (u_I_var o)
}.

(** A spatial non-uniformity from the exact dark variance v (as a number in [d]), and one from
    the exact variances v, v_dark and means. *)
Definition dark_kept (d : res (option Q)) (f : res xr) (K : R) (m : nat) : Prop :=
  forall v V, d = Ok (Some v) -> 0 < Q2R v -> ordinary (Q2R v) -> right_to m V (Q2R v) ->
  shows (2 * m + 5) (r_DSNU K V) f.
Definition light_kept (o : robj) (b d : res (option Q)) (f : res xr) (m : nat) : Prop :=
  let mean := Q2R (sd_avg_mean (bright o)) - Q2R (sd_avg_mean (dark o)) in
  forall v w V E, b = Ok (Some v) -> d = Ok (Some w) ->
  0 < Q2R v - Q2R w -> ordinary (Q2R v - Q2R w) -> ordinary mean ->
  right_to m V (Q2R v - Q2R w) -> right_to m E mean ->
  shows (2 * m + 8) (r_PRNU V E) f.

(** The library's logarithm to the base b is right up to two units of [1 + |log x|]. *)
Definition good_log (b : R) (lg : R -> R) : Prop :=
  forall x, 0 < x -> Rabs (lg x - ln x / ln b) <= 2 * / 2 ^ 53 * (1 + Rabs (ln x / ln b)).
(** The rounded figure f is the number of g up to c times 2^-53. *)
Definition shows_abs (c : R) (f : option R) (g : res xr) : Prop :=
  exists v y, f = Some v /\ g = Ok (XR y) /\ Rabs (v - y) <= c * / 2 ^ 53.
