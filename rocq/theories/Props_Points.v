(** Property C53 of the operation points. *)
From Coq Require Import Ascii String List Bool Arith ZArith QArith Qabs.
From Verif Require Import Base_Prelude Base_Num Base_Order Base_Float Model_Camera Model_Points
  Spec_Dataset Spec_Points Spec_Camera Proofs_Camera2 Proofs_Points3 Proofs_Dataset3.
Import ListNotations.
Open Scope nat_scope.

(** C53, exposure variation: one spatial exposure; every exposure has the light
    that saturates the longest exposure, and darkness; exposures differ. *)
Theorem C53_exposures env c a c' p :
  make_points env c a = (c', Ok p) -> a_exposure_fixed a = None -> 0 < a_steps a ->
  exists top bright,
    limit (a_exposure_max a) (e_max env) top /\
    e_radiance_for env (set_exposure c top) None = Ok bright /\
    (exists t, p_spatial p = [(t, [bright; repeat (FFin 0) (e_size env)])]) /\
    Forall (fun kv => snd kv = [bright; repeat (FFin 0) (e_size env)]) (p_temporal p) /\
    all_different (map fst (p_temporal p)) /\
    length (p_temporal p) <= a_steps a.
Proof. exact (exposure_mode env c a c' p). Qed.
Print Assumptions C53_exposures.

(** With limits at least 0.2 (steps - 1) apart there are exactly [steps] temporal
    exposures, increasing, evenly spaced to one decimal; the spatial one is the
    middle one. *)
Theorem C53_exposure_count env c a c' p lo hi :
  make_points env c a = (c', Ok p) -> a_exposure_fixed a = None ->
  limit (a_exposure_min a) (e_min env) (FFin lo) -> limit (a_exposure_max a) (e_max env) (FFin hi) ->
  apart lo hi (a_steps a) ->
  length (p_temporal p) = a_steps a /\
  (forall i, i < a_steps a -> exists x rs, nth_error (p_temporal p) i = Some (FFin x, rs) /\
     as_printed 1 (FFin x) = FFin x /\ (Qabs (x - even lo hi (a_steps a) i) <= 6 # 100)%Q) /\
  (forall i j x y rs rs', i < j -> nth_error (p_temporal p) i = Some (FFin x, rs) ->
     nth_error (p_temporal p) j = Some (FFin y, rs') -> (x < y)%Q) /\
  (exists x rs, nth_error (p_temporal p) (a_steps a / 2) = Some (x, rs) /\ p_spatial p = [(x, rs)]).
Proof. exact (exposure_mode_count env c a c' p lo hi). Qed.
Print Assumptions C53_exposure_count.

Example C53_exposures_case :
  snd (make_points demo_env demo_cam (demo_args None 3)) = Ok demo_points /\
  limit (a_exposure_min (demo_args None 3)) (e_min demo_env) (fi 500) /\
  limit (a_exposure_max (demo_args None 3)) (e_max demo_env) (fi 10500) /\
  apart (inject_Z 500) (inject_Z 10500) 3.
Proof. exact (conj demo_exposures demo_limits). Qed.

(** ... but equal limits give a single point. *)
Theorem C53_count_refuted : exists env c a c' p, make_points env c a = (c', Ok p) /\
  a_exposure_fixed a = None /\ a_steps a = 3 /\ length (p_temporal p) = 1.
Proof. exact few_points. Qed.
Print Assumptions C53_count_refuted.

(** C53, variation of the light: one exposure, the given one rounded, with [steps]
    uniform lights and darkness; the spatial point has one of them and darkness.
    The lights go from the one for a chosen mean to the saturating one. *)
Theorem C53_lights env c a c' p t :
  make_points env c a = (c', Ok p) -> a_exposure_fixed a = Some t -> 0 < a_steps a ->
  exists e strengths mid m rmin rmax,
    rounded t e /\ length strengths = a_steps a /\ In mid strengths /\
    p_temporal p = [(e, map (fun v => repeat v (e_size env)) strengths ++ [repeat (FFin 0) (e_size env)])] /\
    p_spatial p = [(e, [repeat mid (e_size env); repeat (FFin 0) (e_size env)])] /\
    e_radiance_for env c' (Some m) = Ok rmin /\ e_radiance_for env c' None = Ok rmax /\
    (2 <= a_steps a -> machine_float (e_mean env rmin) -> machine_float (e_mean env rmax) ->
     feq (hd FNan strengths) (e_mean env rmin) = true /\ feq (last strengths FNan) (e_mean env rmax) = true).
Proof. exact (light_mode env c a c' p t). Qed.
Print Assumptions C53_lights.

Example C53_lights_case : exists p,
  snd (make_points demo_env demo_cam (demo_args (Some (FFin (2001 # 2))) 3)) = Ok p /\
  map fst (p_temporal p) = [fi 1000] /\
  map snd (p_temporal p) = [[[fi 2; fi 2]; [fi 6; fi 6]; [fi 10; fi 10]; [fi 0; fi 0]]] /\
  p_spatial p = [(fi 1000, [[fi 6; fi 6]; [fi 0; fi 0]])].
Proof. exact demo_lights. Qed.

(** The radiance limits are never used ... *)
Theorem C53_radiances_ignored env c emin emax fixed rmin rmax rmin' rmax' gain black steps :
  make_points env c (mkArgs emin emax fixed rmin rmax gain black steps)
  = make_points env c (mkArgs emin emax fixed rmin' rmax' gain black steps).
Proof. exact (radiances_ignored env c emin emax fixed rmin rmax rmin' rmax' gain black steps). Qed.
Print Assumptions C53_radiances_ignored.

(** ... so the requested limits are not the ones used. *)
Theorem C53_radiance_limits_refuted : exists env c a c' p rmin rmax,
  make_points env c a = (c', Ok p) /\ a_exposure_fixed a = Some (fi 1000) /\
  a_radiance_min a = Some rmin /\ a_radiance_max a = Some rmax /\
  Forall (fun kv => ~ In rmin (snd kv) /\ ~ In rmax (snd kv)) (p_temporal p ++ p_spatial p).
Proof. exact radiances_wrong. Qed.
Print Assumptions C53_radiance_limits_refuted.

(** Nor are gain and black offset when the exposure varies. *)
Theorem C53_gain_ignored env c emin emax rmin rmax gain black gain' black' steps :
  make_points env c (mkArgs emin emax None rmin rmax gain black steps)
  = make_points env c (mkArgs emin emax None rmin rmax gain' black' steps).
Proof. exact (gain_ignored env c emin emax rmin rmax gain black gain' black' steps). Qed.
Print Assumptions C53_gain_ignored.
