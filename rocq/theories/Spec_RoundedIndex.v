(** When rounding cannot change which points are used. *)
From Coq Require Import List Bool Arith ZArith QArith Qabs.
From Verif Require Import Base_Prelude Base_Num Base_Order Model_Images Model_Loader Model_Data Model_Rounded Model_Results
  Model_RoundedIndex Spec_Num Spec_Rounded.
Import ListNotations.
Open Scope Q_scope.

(** 2^(b-49) grey values. *)
Definition signal_error (b : Z) : Q := inject_Z (2 ^ b) / inject_Z (2 ^ 49).

(** The object with the exact arrays T, the one with the computed arrays F. *)
Definition exact_arrays (T : temporal) (o : robj) : Prop :=
  r_uy (o_t o) = tp_uy T /\ r_uydark (o_t o) = tp_uydark T /\ r_s2y (o_t o) = tp_s2y T.

(** Variances (computed x, exact q) of two points: further apart than twice e, or equal in both. *)
Definition told_apart (e : Q) (p p' : pyfloat * Q) : Prop :=
  2 * e < Qabs (snd p - snd p') \/ (feq (fst p) (fst p') = true /\ snd p == snd p').
(** A variance above e, or 0 in both. *)
Definition told_from_zero (e : Q) (p : pyfloat * Q) : Prop :=
  e < snd p \/ (feq (fst p) fzero = true /\ snd p == 0).
Definition clear_variances (e : Q) (xs : list pyfloat) (qs : list Q) : Prop :=
  forall p, In p (combine xs qs) -> told_from_zero e p /\ forall p', In p' (combine xs qs) -> told_apart e p p'.

(** No signal within e of the fraction c of the saturation signal. *)
Definition clear_limit (e c : Q) (o : robj) : Prop :=
  forall Y i y v, signal o = Ok Y -> fst (index_u_ysat o) = Ok i -> py_get Y i = Ok y -> In v Y ->
  e < Qabs (v - c * y).
