(** Textbook formulas for the dark signal and the light of a simulated camera. *)
From Coq Require Import Arith ZArith Reals.
From Verif Require Import Base_SumR Base_Xreal Model_Optics.
Open Scope R_scope.

(** EMVA 1288: photons on a pixel from the irradiance [e] (W/m2), the area (um2), the
    exposure (ns) and the wavelength (nm); irradiance behind a lens from a radiance
    in W/sr/cm2. *)
Definition standard_irradiance (radiance f : R) : R := PI * (radiance * 10 ^ 4) / (1 + (2 * f) ^ 2).
Definition standard_photons (e area t w : R) : R :=
  e * (area / 10 ^ 12) * (t / 10 ^ 9) * (w / 10 ^ 9) / ((663 / 10 ^ 36) * 300000000).

(** Electrons on average in one pixel: photons times efficiency, over the wavelengths,
    times the response of the pixel. *)
Definition electrons (o : optics) (photons : nat -> nat -> nat -> R) (i j : nat) : R :=
  o_prnu o i j * sumR (o_n o) (fun l => photons i j l * o_qe o i j l).
