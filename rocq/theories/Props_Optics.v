(** Properties C49, C50, C57, C86-C89: photons, radiance, efficiencies, dark current. *)
From Coq Require Import List Bool Arith ZArith Reals.
From Flocq Require Import Raux.
From Verif Require Import Base_Prelude Base_SumR Base_Xreal Model_Optics Spec_Optics Spec_Optics2
  Proofs_Optics Proofs_Optics2 Proofs_Qe.
Import ListNotations.
Open Scope R_scope.

(** C49: photons and radiance are converted back and forth without loss. *)
Theorem C49_inverse t r area f w : t <> 0 -> area <> 0 -> w <> 0 ->
  get_radiance t (get_photons t (XR r) area w f) area f w = Ok (XR r).
Proof. exact (radiance_of_photons t r area f w). Qed.
Print Assumptions C49_inverse.

Theorem C49_inverse_photons t p area f w : t <> 0 -> area <> 0 -> w <> 0 ->
  exists r, get_radiance t (XR p) area f w = Ok r /\ get_photons t r area w f = XR p.
Proof. exact (photons_of_radiance t p area f w). Qed.
Print Assumptions C49_inverse_photons.

(** The number of photons is the energy on the pixel over the energy of a photon
    (exposure in ns, area in um2, wavelength in nm). *)
Theorem C49_formula t r area w f : w <> 0 ->
  get_photons t (XR r) area w f
  = XR (photons_on (irradiance r f (w / 10 ^ 9)) (area / 10 ^ 12) (t / 10 ^ 9) (w / 10 ^ 9)).
Proof. exact (photons_formula t r area w f). Qed.
Print Assumptions C49_formula.

(** Proportional to exposure, radiance and area; four times with twice the
    wavelength. *)
Theorem C49_proportional k t r area w f :
  get_photons (k * t) (XR r) area w f = xmul (XR k) (get_photons t (XR r) area w f) /\
  get_photons t (XR (k * r)) area w f = xmul (XR k) (get_photons t (XR r) area w f) /\
  get_photons t (XR r) (k * area) w f = xmul (XR k) (get_photons t (XR r) area w f) /\
  get_photons t (XR r) area (2 * w) f = xmul (XR 4) (get_photons t (XR r) area w f).
Proof. exact (photons_scale k t r area w f). Qed.
Print Assumptions C49_proportional.

(** Without exposure or area there is no radiance: an error. *)
Theorem C49_no_exposure t p area f w : t = 0 \/ area = 0 ->
  get_radiance t p area f w = Err ZeroDivisionError.
Proof. exact (get_radiance_needs_light t p area f w). Qed.
Print Assumptions C49_no_exposure.

(** C50: the radiance for a mean gives, with the thermal signal, this mean on
    average over the pixels. *)
Theorem C50_mean o m ud :
  works o -> prnu_total o = qe_total o -> u_therm o None = Ok ud -> m <> 0 ->
  exists rad u, get_radiance_for o (Some m) (Some (o_exposure o)) = Ok rad /\
    (forall i j, u_e o rad None i j = XR (u i j)) /\
    average (o_h o) (o_w o) (fun i j => o_gain o * (u i j + ud)) = m.
Proof. exact (mean_reached o m ud). Qed.
Print Assumptions C50_mean.

Example C50_case : works (dark_camera 10) /\ prnu_total (dark_camera 10) = qe_total (dark_camera 10) /\
  u_therm (dark_camera 10) None = Ok 10.
Proof.
  split; [apply dark_works; apply not_0_IZR; discriminate|].
  split; [apply uniform_prnu; reflexivity|apply dark_therm].
Qed.

(** A camera of even response meets the second hypothesis. *)
Theorem C50_even_response o : (forall i j, o_prnu o i j = 1) -> prnu_total o = qe_total o.
Proof. exact (uniform_prnu o). Qed.
Print Assumptions C50_even_response.

(** The mean 0 is taken as no mean: the answer saturates the camera. *)
Theorem C50_zero_refuted : exists o rad u, works o /\ prnu_total o = qe_total o /\
  get_radiance_for o (Some 0) (Some (o_exposure o)) = Ok rad /\
  u_therm o None = Ok u /\ exists e, u_e o rad None 0%nat 0%nat = XR e /\ o_gain o * (e + u) = o_max o.
Proof. exact zero_mean_saturates. Qed.
Print Assumptions C50_zero_refuted.

(** The radiance for another exposure than the camera's misses the mean at that
    exposure: the thermal signal is that of the camera's exposure. *)
Theorem C50_other_exposure_refuted : exists o t m rad u, works o /\ works (at_exposure o t) /\ m <> 0 /\
  get_radiance_for o (Some m) (Some t) = Ok rad /\
  u_therm (at_exposure o t) None = Ok u /\
  exists e, u_e (at_exposure o t) rad None 0%nat 0%nat = XR e /\ o_gain o * (e + u) <> m.
Proof. exact other_exposure_misses. Qed.
Print Assumptions C50_other_exposure_refuted.

(** A mean below the thermal signal is answered by a negative radiance. *)
Theorem C50_negative_refuted : exists o m rad r, works o /\ 0 < m /\
  get_radiance_for o (Some m) (Some (o_exposure o)) = Ok rad /\
  rad 0%nat 0%nat 0%nat = XR r /\ r < 0.
Proof. exact negative_light. Qed.
Print Assumptions C50_negative_refuted.

(** C57: simulated efficiencies are between 0 and 0.9. *)
Theorem C57_efficiency wave i j l : 0 <= gen_qe wave i j l <= 9 / 10.
Proof. exact (gauss_qe_range (wave l)). Qed.
Print Assumptions C57_efficiency.

(** Transmissions are positive and at most 1, are 1 at the nominal wavelength if it
    is among the wavelengths, and 1 somewhere in any case. *)
Theorem C57_transmission n wave loc l : (l < n)%nat -> 0 < bayer_entry n wave loc l <= 1.
Proof. exact (bayer_range n wave loc l). Qed.
Print Assumptions C57_transmission.

Theorem C57_nominal n wave loc l : (l < n)%nat -> Ztrunc (wave l) = loc -> bayer_entry n wave loc l = 1.
Proof. exact (bayer_nominal n wave loc l). Qed.
Print Assumptions C57_nominal.

Theorem C57_normalised n wave loc : (0 < n)%nat ->
  exists l, (l < n)%nat /\ bayer_entry n wave loc l = 1.
Proof. exact (bayer_normalised n wave loc). Qed.
Print Assumptions C57_normalised.

Example C57_case : (1 < 3)%nat /\ Ztrunc ((fun l => IZR (540 + 10 * Z.of_nat l)) 1%nat) = 550%Z.
Proof. split; [auto|apply Ztrunc_IZR]. Qed.

(** Only efficiencies of the right shape are accepted ... *)
Theorem C57_shape s h w n : qe_init (Some s) h w n = Ok tt <-> s = [h; w; n].
Proof. exact (qe_accepts s h w n). Qed.
Print Assumptions C57_shape.

(** ... but a three dimensional array of another shape gives a TypeError. *)
Theorem C57_shape_error_refuted : exists s h w n, s <> [h; w; n] /\ qe_init (Some s) h w n = Err TypeError.
Proof. exact qe_shape_error. Qed.
Print Assumptions C57_shape_error_refuted.

(** C86: the thermal signal of an exposure.  At the reference temperature it is the
    reference current times the exposure (in s); it doubles with every doubling
    interval, grows by the n-th root of 2 with an n-th of it, and is proportional to
    the exposure. *)
Theorem C86_reference o : o_temperature_doubling o <> 0 ->
  u_therm o (Some (o_temperature_ref o)) = Ok (o_dark_current_ref o * (o_exposure o / 10 ^ 9)).
Proof. exact (therm_reference o). Qed.
Print Assumptions C86_reference.

Theorem C86_doubles o T u : u_therm o (Some T) = Ok u ->
  u_therm o (Some (T + o_temperature_doubling o)) = Ok (2 * u).
Proof. exact (therm_doubles o T u). Qed.
Print Assumptions C86_doubles.

Theorem C86_fraction o n T u v : (0 < n)%nat -> u_therm o (Some T) = Ok u ->
  u_therm o (Some (T + o_temperature_doubling o / INR n)) = Ok v -> v ^ n = 2 * u ^ n.
Proof. exact (therm_fraction o n T u v). Qed.
Print Assumptions C86_fraction.

Theorem C86_increases o T T' u v : 0 < o_temperature_doubling o -> 0 < u -> T < T' ->
  u_therm o (Some T) = Ok u -> u_therm o (Some T') = Ok v -> u < v.
Proof. exact (therm_increases o T T' u v). Qed.
Print Assumptions C86_increases.

Theorem C86_exposure o k T u : u_therm o (Some T) = Ok u ->
  u_therm (at_exposure o (k * o_exposure o)) (Some T) = Ok (k * u).
Proof. exact (therm_exposure o k T u). Qed.
Print Assumptions C86_exposure.

(** Without a temperature it is that of the environment; an interval of 0 is an error. *)
Theorem C86_environment o : u_therm o None = u_therm o (Some (o_temperature o)).
Proof. exact (therm_none o). Qed.
Print Assumptions C86_environment.
Theorem C86_no_interval o T : o_temperature_doubling o = 0 -> u_therm o T = Err ZeroDivisionError.
Proof. exact (therm_zero o T). Qed.
Print Assumptions C86_no_interval.

(** The default settings: 30 electrons per second at 30 degrees, for 1 ms. *)
Example C86_case : 0 < o_temperature_doubling default_camera /\
  u_therm default_camera (Some 30) = Ok (30 * (1000000 / 10 ^ 9)) /\
  u_therm default_camera (Some (30 + 8)) = Ok (2 * (30 * (1000000 / 10 ^ 9))).
Proof.
  assert (N : o_temperature_doubling default_camera <> 0) by (cbn; Lra.lra).
  split; [cbn; Lra.lra|]. split; [exact (therm_reference default_camera N)|].
  exact (therm_doubles default_camera 30 _ (therm_reference default_camera N)).
Qed.

(** C87: at the temperature called temperature_doubling the current is not twice the
    reference; by default it is less than a quarter. *)
Theorem C87_documented_refuted : exists o u, works o /\
  u_therm o (Some (o_temperature_doubling o)) = Ok u /\
  0 < o_dark_current_ref o /\ u < o_dark_current_ref o * (o_exposure o / 10 ^ 9) / 4.
Proof. exact documented_temperature. Qed.
Print Assumptions C87_documented_refuted.

(** C88: with the radiance in W/sr/cm2 the number of photons is not that of the
    standard.  The factor is the wavelength (in nm) over 10^13. *)
Theorem C88_factor t r area w f :
  get_photons t (XR r) area w f
  = XR (standard_photons (standard_irradiance r f) area t w * (w / 10 ^ 13)).
Proof. exact (photons_units t r area w f). Qed.
Print Assumptions C88_factor.
Theorem C88_units_refuted : exists t r area w f p, 0 < t /\ 0 < r /\ 0 < area /\ 0 < w /\ 0 < f /\
  get_photons t (XR r) area w f = XR p /\ p < standard_photons (standard_irradiance r f) area t w / 10 ^ 10.
Proof. exact photons_not_standard. Qed.
Print Assumptions C88_units_refuted.

(** C89: the light signal of a pixel is the sum over the wavelengths of photons times
    efficiency, times the response of the pixel; it is linear in the radiance and in
    the exposure. *)
Theorem C89_electrons o r f : (forall l, (l < o_n o)%nat -> o_wave o l <> 0) -> forall i j,
  u_e o (fun i j l => XR (r i j l)) f i j
  = XR (electrons o (fun i j l => photons_on (irradiance (r i j l) (or_default f (o_f_number o)) (o_wave o l / 10 ^ 9))
                                    (o_pixel_area o / 10 ^ 12) (o_exposure o / 10 ^ 9) (o_wave o l / 10 ^ 9)) i j).
Proof. exact (light_electrons o r f). Qed.
Print Assumptions C89_electrons.

Theorem C89_linear o r1 r2 k f : (forall l, (l < o_n o)%nat -> o_wave o l <> 0) -> forall i j,
  u_e o (fun i j l => XR (r1 i j l + k * r2 i j l)) f i j
  = xadd (u_e o (fun i j l => XR (r1 i j l)) f i j) (xmul (XR k) (u_e o (fun i j l => XR (r2 i j l)) f i j)).
Proof. exact (light_linear o r1 r2 k f). Qed.
Print Assumptions C89_linear.

Theorem C89_exposure o r k f : (forall l, (l < o_n o)%nat -> o_wave o l <> 0) -> forall i j,
  u_e (at_exposure o (k * o_exposure o)) (fun i j l => XR (r i j l)) f i j
  = xmul (XR k) (u_e o (fun i j l => XR (r i j l)) f i j).
Proof. exact (light_exposure o r k f). Qed.
Print Assumptions C89_exposure.

(** Three wavelengths with different efficiencies, two pixels. *)
Example C89_case : (forall l, (l < o_n band_camera)%nat -> o_wave band_camera l <> 0) /\
  o_qe band_camera 0%nat 0%nat 2%nat <> o_qe band_camera 0%nat 1%nat 2%nat /\
  o_prnu band_camera 0%nat 0%nat <> o_prnu band_camera 0%nat 1%nat.
Proof. split; [intros l _; apply band_waves|]. cbn. split; Lra.lra. Qed.
