(** The optical and thermal part of the simulated camera:
    src/emva1288/camera/routines.py ([get_photons], [get_radiance], [poisson], [Qe])
    and src/emva1288/camera/camera.py ([_u_e], [_u_therm], [_u_i],
    [get_radiance_for], [get_photons]).  Definitions only.

    Numbers are exact reals; array entries are [xr], because NumPy divides by zero.
    Scalars are Python numbers, whose division by zero is an error.  Arrays are
    functions of their indices. *)
From Coq Require Import List Bool Arith ZArith Reals.
From Flocq Require Import Raux.
From Verif Require Import Base_Prelude Base_SumR Base_Xreal.
Import ListNotations.
Open Scope R_scope.

Definition planck : R := 663 / 10 ^ 36.
Definition light_speed : R := 300000000.
Definition nano : R := / 10 ^ 9.
Definition pico : R := / 10 ^ 12.

(** camera/routines.py:23-54 [get_photons], one entry *)
Definition get_photons (exposure : R) (radiance : xr) (pixel_area wavelength f_number : R) : xr :=
  let w := wavelength * nano in
  let t := exposure * nano in
  let a := pixel_area * pico in
  let scalar := (a * t) * PI / ((planck * light_speed) * (1 + (2 * f_number) ^ 2)) in
  xmul radiance (XR (scalar * (w * w))).

(** camera/routines.py:57-94 [get_radiance], one entry *)
Definition get_radiance (exposure : R) (photons : xr) (pixel_area f_number wavelength : R) : res xr :=
  let w := wavelength * nano in
  let t := exposure * nano in
  let a := pixel_area * pico in
  if Req_EM_T (PI * a * t) 0 then Err ZeroDivisionError
  else
    let scalar := (planck * light_speed) * (1 + (2 * f_number) ^ 2) / (PI * a * t) in
    Ok (xmul photons (xdiv (XR scalar) (XR (w * w)))).

(** The optical settings of a camera. *)
Record optics := mkOpt
  { o_h : nat;
    o_w : nat;
    o_n : nat;                          (** number of wavelengths *)
    o_wave : nat -> R;                  (** [qe.w] *)
    o_qe : nat -> nat -> nat -> R;      (** [qe.qe] *)
    o_prnu : nat -> nat -> R;
    o_gain : R;                         (** [K] *)
    o_exposure : R;
    o_pixel_area : R;
    o_f_number : R;                     (** [environment['f_number']] *)
    o_temperature : R;                  (** [environment['temperature']] *)
    o_temperature_ref : R;
    o_temperature_doubling : R;
    o_dark_current_ref : R;
    o_max : R }.                        (** [img_max] *)

Definition or_default {A} (o : option A) (d : A) : A := match o with Some a => a | None => d end.

(** camera.py:405-431 [get_photons], one entry *)
Definition cam_photons (o : optics) (radiance : nat -> nat -> nat -> xr) (exposure f_number : option R)
    (i j l : nat) : xr :=
  get_photons (or_default exposure (o_exposure o)) (radiance i j l) (o_pixel_area o) (o_wave o l)
    (or_default f_number (o_f_number o)).

(** [np.sum] over the wavelengths *)
Fixpoint sumX (n : nat) (f : nat -> xr) : xr :=
  match n with O => XR 0 | S k => xadd (sumX k f) (f k) end.

(** camera.py:338-347 [_u_e] *)
Definition u_e (o : optics) (radiance : nat -> nat -> nat -> xr) (f_number : option R) (i j : nat) : xr :=
  xmul (sumX (o_n o) (fun l => xmul (cam_photons o radiance None f_number i j l) (XR (o_qe o i j l))))
    (XR (o_prnu o i j)).

(** camera.py:356-364 [_u_i] *)
Definition u_i (o : optics) (temperature : option R) : res R :=
  let temperature := or_default temperature (o_temperature o) in
  if Req_EM_T (o_temperature_doubling o) 0 then Err ZeroDivisionError
  else Ok (o_dark_current_ref o
           * Rpower 2 ((temperature - o_temperature_ref o) / o_temperature_doubling o)).

(** camera.py:349-354 [_u_therm] *)
Definition u_therm (o : optics) (temperature : option R) : res R :=
  u <- u_i o temperature ;; Ok (u * o_exposure o / 10 ^ 9).

(** [not x] for an optional number, replaced by a default *)
Definition falsy_default (o : option R) (d : R) : R :=
  match o with Some x => if Req_EM_T x 0 then d else x | None => d end.

(** [qe.qe.mean()] *)
Definition qe_mean (o : optics) : xr :=
  xdiv (XR (sumR (o_h o) (fun i => sumR (o_w o) (fun j => sumR (o_n o) (fun l => o_qe o i j l)))))
    (XR (INR (o_h o) * INR (o_w o) * INR (o_n o))).

(** camera.py:366-403 [get_radiance_for]; the gain is a NumPy number *)
Definition get_radiance_for (o : optics) (mean exposure : option R) : res (nat -> nat -> nat -> xr) :=
  let mean := falsy_default mean (o_max o) in
  let exposure := falsy_default exposure (o_exposure o) in
  ud <- u_therm o None ;;
  let ue := xdiv (xsub (xdiv (XR mean) (XR (o_gain o))) (XR ud)) (XR (INR (o_n o))) in
  let up := xdiv ue (qe_mean o) in
  if Req_EM_T (PI * (o_pixel_area o * pico) * (exposure * nano)) 0 then Err ZeroDivisionError
  else Ok (fun _ _ l =>
    match get_radiance exposure up (o_pixel_area o) (o_f_number o) (o_wave o l) with
    | Ok x => x | Err _ => XNan end).

(** The camera at another exposure (camera.py:200-202). *)
Definition at_exposure (o : optics) (t : R) : optics :=
  mkOpt (o_h o) (o_w o) (o_n o) (o_wave o) (o_qe o) (o_prnu o) (o_gain o) t (o_pixel_area o)
    (o_f_number o) (o_temperature o) (o_temperature_ref o) (o_temperature_doubling o)
    (o_dark_current_ref o) (o_max o).

(** ** Efficiencies and filters *)

(** camera/routines.py:261-265 [gauss] within [Qe.gen_qe]; s = 0.5, u = 0 *)
Definition gauss_qe (wavelength : R) : R :=
  let s := / 2 in
  let w := - 1 + wavelength / (800 - 350) in
  let qe := - (1 / 10) + exp (- (w - 0) ^ 2 / (2 * s ^ 2)) / sqrt (PI * 2 * s ^ 2) in
  Rmax qe 0.

(** camera/routines.py:247-269 [gen_qe] *)
Definition gen_qe (wave : nat -> R) : nat -> nat -> nat -> R := fun _ _ l => gauss_qe (wave l).

(** camera/routines.py:216-237 [Qe.__init__]: the shape of the given array is
    compared with (height, width, wavelengths).  The message of the error is built
    by ['... %s != %s' % shape, (...)], where the shape alone is the argument of the
    formatting: it has two placeholders, so every shape that is not a pair is a
    TypeError. *)
Definition qe_init (shape : option (list nat)) (h w n : nat) : res unit :=
  match shape with
  | None => Ok tt
  | Some s =>
      if list_eq_dec Nat.eq_dec s [h; w; n] then Ok tt
      else if (length s =? 2)%nat then Err ValueError else Err TypeError
  end.

(** [np.sum([np.log(i) for i in range(1, v)])] *)
Definition log_sum (v : Z) : R := sumR (Z.to_nat (v - 1)) (fun i => ln (INR (S i))).

(** camera/routines.py:207-211 [poisson], one entry; [astype(int)] truncates *)
Definition poisson (wavelength : R) (loc mu : Z) : R :=
  let v := (Ztrunc wavelength + (mu - loc))%Z in
  exp (IZR v * ln (IZR mu) - IZR mu - log_sum v).

(** [np.max] *)
Fixpoint maxR (n : nat) (f : nat -> R) : R :=
  match n with O => 0 | S O => f O | S k => Rmax (maxR k f) (f k) end.

(** camera/routines.py:191-196: one entry of the pattern of [get_bayer_filter] *)
Definition bayer_entry (n : nat) (wave : nat -> R) (loc : Z) (l : nat) : R :=
  poisson (wave l) loc 1000 / maxR n (fun k => poisson (wave k) loc 1000).
