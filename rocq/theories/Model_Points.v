(** Operation points: src/emva1288/camera/points_generator.py.  Definitions only.

    A radiance is the array of its values (height x width x wavelengths) in row
    order.  What the camera computes for radiances (Model_Optics, Model_Camera) is
    asked through [cam_env]. *)
From Coq Require Import List Bool Arith ZArith QArith.
From Verif Require Import Base_Prelude Base_Num Base_Order Base_Float Model_Camera.
Import ListNotations.
Open Scope nat_scope.

Definition radiance := list pyfloat.

(** Answers of the camera: exposure limits, number of values of a radiance,
    [get_radiance_for(mean=...)], [grab(0).mean()], and the mean of an array. *)
Record cam_env := mkEnv
  { e_min : pyfloat;
    e_max : pyfloat;
    e_size : nat;
    e_radiance_for : camera -> option pyfloat -> res radiance;
    e_grab_mean : camera -> res pyfloat;
    e_mean : radiance -> pyfloat }.

(** [a or b] *)
Definition or_default (a : option pyfloat) (b : pyfloat) : pyfloat :=
  match a with Some x => if feq x fzero then b else x | None => b end.

(** [np.round(x, 1)] and [np.round(x, 3)]: scaled by 10 or 1000, rounded to an
    integer, scaled back. *)
Definition np_round (digits : nat) (x : pyfloat) : pyfloat :=
  let t := f_int (10 ^ Z.of_nat digits) in fdiv (frint (fmul x t)) t.

(** [round(x)] *)
Definition py_round (x : pyfloat) : res pyfloat :=
  match x with
  | FFin q => Ok (FFin (inject_Z (q_rint q)))
  | FInf _ => Err OverflowError
  | FNan => Err ValueError
  end.

(** Exposure -> radiances. *)
Definition points_dict := dict pyfloat (list radiance).
Record points := mkPoints { p_spatial : points_dict; p_temporal : points_dict }.

(** points_generator.py:124-132 [_is_point_spatial] *)
Definition is_point_spatial (steps n : nat) : bool :=
  let middle := steps / 2 in (n =? middle) || (n =? steps + middle).

Definition zeros (n : nat) : radiance := repeat fzero n.

(** points_generator.py:97-100: the loop over the exposures. *)
Fixpoint exposure_points (steps : nat) (rads : list radiance) (n : nat)
    (exposures : list pyfloat) (p : points) : points :=
  match exposures with
  | [] => p
  | t :: rest =>
      let s := if is_point_spatial steps n then dset feq t rads (p_spatial p) else p_spatial p in
      exposure_points steps rads (S n) rest (mkPoints s (dset feq t rads (p_temporal p)))
  end.

(** points_generator.py:83-100: exposure time variation. *)
Definition exposure_series (size : nat) (exp_min exp_max : pyfloat) (rad : radiance) (steps : nat)
  : points :=
  let exposures := map (np_round 1) (linspace exp_min exp_max steps) in
  exposure_points steps [rad; zeros size] 0 exposures (mkPoints [] []).

(** points_generator.py:102-117: variation of the light. *)
Definition light_series (size : nat) (exposure : pyfloat) (min_mean max_mean : pyfloat) (steps : nat)
  : res points :=
  let factors := linspace min_mean max_mean steps in
  let radiances := map (fun f => repeat (fmul (f_int 1) f) size) factors in
  e <- py_round exposure ;;
  let radiances := radiances ++ [zeros size] in
  mid <- of_option IndexError (nth_error radiances (steps / 2)) ;;
  Ok (mkPoints [(e, [mid; zeros size])] [(e, radiances)]).

(** The arguments of [PointsGenerator] besides the camera. *)
Record points_args := mkArgs
  { a_exposure_min : option pyfloat;
    a_exposure_max : option pyfloat;
    a_exposure_fixed : option pyfloat;
    a_radiance_min : option radiance;
    a_radiance_max : option radiance;
    a_gain : option pyfloat;
    a_blackref : option pyfloat;
    a_steps : nat }.

(** points_generator.py:14-81 [__init__]; also returns the camera, whose settings
    are changed on the way. *)
Definition make_points (env : cam_env) (c : camera) (a : points_args) : camera * res points :=
  let exp_min := or_default (a_exposure_min a) (e_min env) in
  let exp_max := or_default (a_exposure_max a) (e_max env) in
  let gain := or_default (a_gain a) (c_K c) in
  let blackref := or_default (a_blackref a) (c_blackoffset c) in
  match a_exposure_fixed a with
  | None =>
      let c := set_exposure c exp_max in
      (c, rad <- e_radiance_for env c None ;;
          Ok (exposure_series (e_size env) exp_min exp_max rad (a_steps a)))
  | Some t =>
      let c := set_exposure c t in
      match set_K c gain with
      | Err e => (c, Err e)
      | Ok c =>
          match set_blackoffset c blackref with
          | Err e => (c, Err e)
          | Ok c =>
              (c, m <- e_grab_mean env c ;;
                  let target := fadd (fdiv (fsub (f_int (img_max (c_bits c))) m)
                                       (f_int (Z.of_nat (a_steps a)))) m in
                  rmin <- e_radiance_for env c (Some target) ;;
                  rmax <- e_radiance_for env c None ;;
                  light_series (e_size env) t (e_mean env rmin) (e_mean env rmax) (a_steps a))
          end
      end
  end.
