(** The analog to digital conversion of the simulated camera in real numbers. *)
From Coq Require Import ZArith Reals.
From Flocq Require Import Core.
From Verif Require Import Model_Camera.
Open Scope R_scope.

(** camera.py:299, 324-336 for one pixel holding [e] electrons when the generator delivers
    [u] for the quantization noise: [img = K * img_e], [img += img_q],
    [img += blackoffset], [np.rint], [np.clip], [astype].  Simplification: the products and
    sums are real numbers, not binary64 (C93_same ties this to the binary64 model where those
    are exact). *)
Definition digitise (bits : nat) (K e offset u : R) : Z :=
  Z.max 0 (Z.min (ZnearestE (K * e + u + offset)) (img_max bits)).

(** camera.py:304-322 for one pixel: the electrons in it when the generator delivers [therm],
    [light] and [normal]; [np.clip] at 0 and at the full well.  Real numbers instead of
    binary64, the sum of the two counts does not wrap around (C47 has both). *)
Definition well_electrons (u_esat dsnu : R) (therm light : Z) (normal : R) : R :=
  Rmax 0 (Rmin (IZR (therm + light) + (dsnu + normal)) u_esat).

(** camera.py:278-336 [grab] for one pixel. *)
Definition grab_value (bits : nat) (K offset u_esat dsnu : R) (therm light : Z) (normal u : R) : Z :=
  digitise bits K (well_electrons u_esat dsnu therm light normal) offset u.
