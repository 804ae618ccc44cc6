(** What a user expects of the camera's settings and images. *)
From Coq Require Import List Bool Arith ZArith QArith Qabs Qreals Reals.
From Verif Require Import Base_Prelude Base_Num Base_Float Spec_Num Model_Camera.
Import ListNotations.
Open Scope Z_scope.

(** The number in a float cell. *)
Definition is_number (x : pyfloat) (q : Q) : Prop := x = FFin q.
Definition a_number (x : pyfloat) : Prop := exists q, x = FFin q.

(** A float far from overflow. *)
Definition machine_float (x : pyfloat) : Prop :=
  exists q, x = FFin q /\ binary64 (Q2R q) /\ (Qabs q < inject_Z (2 ^ 1022))%Q.

(** [p - q] needs no rounding. *)
Definition exact_difference (x y : pyfloat) : Prop :=
  exists p q, x = FFin p /\ y = FFin q /\ binary64 (Q2R (p - q)).

(** [|x - v| <= f * |y - v|] *)
Definition nearer (f : Q) (v x y : pyfloat) : Prop :=
  exists p q r, v = FFin p /\ x = FFin q /\ y = FFin r /\
  (Qabs (q - p) <= f * Qabs (r - p))%Q.

Definition below (x y : pyfloat) : Prop :=
  exists p q, x = FFin p /\ y = FFin q /\ (p < q)%Q.
Definition at_most (x y : pyfloat) : Prop :=
  exists p q, x = FFin p /\ y = FFin q /\ (p <= q)%Q.

(** Strictly increasing list. *)
Inductive increasing : list pyfloat -> Prop :=
| inc_nil : increasing []
| inc_cons x l : Forall (below x) l -> increasing l -> increasing (x :: l).

(** Numbers the random generator can deliver. *)
Definition half_open (x : pyfloat) : Prop :=
  exists q, x = FFin q /\ (- (1 # 2) <= q <= 1 # 2)%Q.

(** The draws of one image: any numbers, one per pixel. *)
Definition good_draws (c : camera) (d : draws) : Prop :=
  let n := (c_height c * c_width c)%nat in
  exists ts ls ns, d_therm d = Ok ts /\ d_light d = Ok ls /\ d_normal d = Ok ns /\
  length ts = n /\ length ls = n /\ length ns = n /\ length (d_uniform d) = n /\
  Forall a_number ns /\ Forall half_open (d_uniform d).

(** A camera whose settings are numbers and whose DSNU image fits. *)
Definition good_camera (c : camera) : Prop :=
  a_number (c_K c) /\ a_number (c_blackoffset c) /\
  (exists u, c_u_esat c = FFin u /\ (0 <= u)%Q) /\
  length (c_dsnu c) = (c_height c * c_width c)%nat /\ Forall a_number (c_dsnu c).
