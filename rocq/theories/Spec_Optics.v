(** Optics: the textbook formulas. *)
From Coq Require Import Arith ZArith Reals.
From Verif Require Import Base_SumR Model_Optics.
Open Scope R_scope.

(** Energy (J) of a photon of wavelength [w] (m). *)
Definition photon_energy (w : R) : R := (663 / 10 ^ 36) * 300000000 / w.

(** Irradiance (per bandwidth [w]) of a source of given radiance behind a lens. *)
Definition irradiance (radiance f w : R) : R := radiance * (PI / (1 + (2 * f) ^ 2) * w).

(** Photons on an area [a] (m2) within a time [t] (s). *)
Definition photons_on (irr a t w : R) : R := irr * a * t / photon_energy w.

(** Average over the pixels. *)
Definition average (h w : nat) (f : nat -> nat -> R) : R := sumR2 h w f / (INR h * INR w).

(** Efficiency summed over pixels and wavelengths, without and with the unevenness
    of the response. *)
Definition qe_total (o : optics) : R :=
  sumR (o_h o) (fun i => sumR (o_w o) (fun j => sumR (o_n o) (fun l => o_qe o i j l))).
Definition prnu_total (o : optics) : R :=
  sumR (o_h o) (fun i => sumR (o_w o) (fun j => sumR (o_n o) (fun l => o_qe o i j l) * o_prnu o i j)).

(** A camera that can measure: no empty sensor, some efficiency, no zero settings. *)
Definition works (o : optics) : Prop :=
  (0 < o_h o)%nat /\ (0 < o_w o)%nat /\ (0 < o_n o)%nat /\
  o_gain o <> 0 /\ o_exposure o <> 0 /\ o_pixel_area o <> 0 /\ o_temperature_doubling o <> 0 /\
  (forall l, (l < o_n o)%nat -> o_wave o l <> 0) /\ qe_total o <> 0.
