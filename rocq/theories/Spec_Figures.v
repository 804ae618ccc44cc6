(** What the property C116 speaks about: how wrong the figures derived from gain, responsivity
    and dark noise can be. *)
From Coq Require Import List Arith ZArith QArith Qreals Reals.
From Verif Require Import Base_Prelude Base_SumR Base_Xreal Model_Parser Model_Data Model_Results Spec_Parser Spec_Results Spec_Linear Spec_Near
  Spec_Emva.
Import ListNotations.
Open Scope R_scope.

(** The figure f is a number at most d from t. *)
Definition reports (f : res xr) (t d : R) : Prop := exists y, f = Ok (XR y) /\ Rabs (y - t) <= d.

(** How wrong A / B is when A is wrong by da and B by db. *)
Definition quotient_error (A da B db : R) : R := (da + Rabs (A / B) * db) / (B - db).

(** The figures of a sensor of quantum efficiency eta, gain K and dark variance v that saturates
    at x photons, when the responsivity K eta is wrong by at most dr, the gain by dk and the dark
    variance by dv. *)
Record derived_right (o : robj) (eta K v x dr dk dv : R) : Prop := {
  de_inverse : reports (inverse_K o) (1 / K) (quotient_error 1 0 K dk);
  de_efficiency : reports (QE o) (100 * eta) (100 * quotient_error (K * eta) dr K dk);
  de_noise : reports (sigma_y_dark o) (sqrt v) (dv / sqrt v);
  de_electrons : reports (sigma_d o) (sqrt (v - 1 / 12) / K)
    (quotient_error (sqrt (v - 1 / 12)) (dv / sqrt (v - 1 / 12)) K dk);
  de_least_photons : reports (u_p_min o) ((sqrt v + K / 2) / (K * eta))
    (quotient_error (sqrt v + K / 2) (dv / sqrt v + dk / 2) (K * eta) dr);
  de_least_electrons : reports (u_e_min o) (sqrt v / K + 1 / 2) (quotient_error (sqrt v) (dv / sqrt v) K dk);
  de_most_photons : exists y, u_p_sat o = Ok y /\ Q2R y = x;
  de_most_electrons : reports (u_e_sat o) (eta * x) (x * quotient_error (K * eta) dr K dk);
  de_ratio : reports (SNR_max o) (sqrt (eta * x)) (x * quotient_error (K * eta) dr K dk / sqrt (eta * x));
  de_range : reports (DR o) (x * (K * eta) / (sqrt v + K / 2))
    (quotient_error (x * (K * eta)) (x * dr) (sqrt v + K / 2) (dv / sqrt v + dk / 2))
}.

(** ** Exposure times *)
(** The exposure time of point i. *)
Definition time (ts : list Q) (i : nat) : R := Q2R (at_ ts i).
Definition times (o : robj) : list Q := r_texp (o_t o).

(** How much an error of the n values grows in the slope and the offset of the line through them. *)
Definition spread (n : nat) (t : nat -> R) : R := INR n * sumR n (fun i => t i * t i) - sumR n t * sumR n t.
Definition slope_factor (n : nat) (t : nat -> R) : R := 2 * INR n * sumR n t / spread n t.
Definition offset_factor (n : nat) (t : nat -> R) : R :=
  (INR n * sumR n (fun i => t i * t i) + sumR n t * sumR n t) / spread n t.

(** The true dark variance v0 that the dark noise stands for, and how wrong it is when every dark
    variance is wrong by at most e: that of the first point with at most two exposure times,
    otherwise that without exposure, when it rises in proportion to the time. *)
Definition dark_truth (ts : list Q) (T : truth) (n : nat) (e v0 d : R) : Prop :=
  (at_most_two ts /\ v0 = tr_dark_var T 0%nat /\ d = e) \/
  (~ at_most_two ts /\ (forall i, (i < n)%nat -> 0 <= time ts i) /\
   (exists a, forall i, (i < n)%nat -> tr_dark_var T i = v0 + a * time ts i) /\
   d = offset_factor n (time ts) * e).

(** Errors of responsivity and gain in the light x0 of the first point. *)
Definition responsivity_error (x0 e : R) : R := 2 * e / x0.
Definition gain_error (x0 eta K q e : R) : R := (2 * e * (1 + K) + q) / (K * (eta * x0) - 2 * e).

(** All figures are right up to errors e of the means and variances. *)
Definition figures_right (o : robj) (p : nat) (eta K q e v0 d : R) : Prop :=
  derived_right o eta K (Rmax (24 / 100) v0) (photonsR o p)
    (responsivity_error (photonsR o 0) e) (gain_error (photonsR o 0) eta K q e) d.

(** The dark current in grey values and in electrons per second, times in nanoseconds: the dark
    mean rises by a per nanosecond, the dark variance by b. *)
Definition current_right (o : robj) (n : nat) (K dk e a b : R) : Prop :=
  let s := slope_factor n (time (times o)) * e in
  reports (u_I_mean_DN o) (10 ^ 9 * a) (10 ^ 9 * s) /\
  reports (u_I_mean o) (10 ^ 9 * a / K) (quotient_error (10 ^ 9 * a) (10 ^ 9 * s) K dk) /\
  (s <= b ->
   reports (u_I_var_DN o) (10 ^ 9 * b / K) (quotient_error (10 ^ 9 * b) (10 ^ 9 * s) K dk) /\
   reports (u_I_var o) (10 ^ 9 * b / K / K)
     (quotient_error (10 ^ 9 * b / K) (quotient_error (10 ^ 9 * b) (10 ^ 9 * s) K dk) K dk)).

(** The true dark mean rises by a per nanosecond, the true dark variance by b; there are more than
    two exposure times, none negative. *)
Definition dark_rises (ts : list Q) (T : truth) (n : nat) (a b : R) : Prop :=
  ~ at_most_two ts /\ (forall i, (i < n)%nat -> 0 <= time ts i) /\
  exists a0 b0, forall i, (i < n)%nat -> tr_dark_mean T i = a0 + a * time ts i /\ tr_dark_var T i = b0 + b * time ts i.

(** The exposure times of the points of a descriptor. *)
Definition stated_times (ps : list (entry * entry)) : list Q := map (fun p => number (e_exposure (fst p))) ps.
