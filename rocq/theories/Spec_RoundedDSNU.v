(** What the property C131 speaks about: the non-uniformities computed from images. *)
From Coq Require Import QArith Qreals Reals.
From Verif Require Import Base_Prelude Base_Num Base_Xreal Model_Data Model_Results Model_RoundedFigures Spec_RoundedFigures.
Open Scope R_scope.

(** The exact dark variance is a number v and the computed one a number V.  If v is at least four
    times the error bound e, the figure computed from V and the computed gain K is right up to the
    part e/v + (2m+8) 2^-53 of the exact figure; if v is below -e, both are NaN. *)
Definition dark_accurate (e : R) (d : res (option Q)) (c : res pyfloat) (f : res xr) (K : R) (m : nat) : Prop :=
  exists v V, d = Ok (Some v) /\ c = Ok (FFin V) /\
    (4 * e <= Q2R v -> ordinary (Q2R v) ->
       exists x y, r_DSNU K (Q2R V) = Some x /\ f = Ok (XR y) /\
         Rabs (x - y) <= (e / Q2R v + (2 * INR m + 8) * / 2 ^ 53) * Rabs y) /\
    (Q2R v < - e -> r_DSNU K (Q2R V) = None /\ f = Ok XNan).

(** The exact bright and dark variances are v and w, the computed ones V and W; the exact means of
    the bright and dark images differ by M, the computed ones are A and B, each right up to g.  If
    v - w is at least 8e and M at least 8g, the figure is right up to the part
    2e/(v-w) + 4g/M + 12 * 2^-53; if w - v is at least 8e, both are NaN. *)
Definition light_accurate (e g M : R) (b d : res (option Q)) (c c_dark : res pyfloat) (A B : Q) (f : res xr) : Prop :=
  exists v w V W, b = Ok (Some v) /\ d = Ok (Some w) /\ c = Ok (FFin V) /\ c_dark = Ok (FFin W) /\
    let r := r_PRNU (Q2R V - Q2R W) (Q2R A - Q2R B) in
    (8 * e <= Q2R v - Q2R w -> ordinary (Q2R v - Q2R w) -> 8 * g <= Rabs M -> ordinary M ->
       exists x y, r = Some x /\ f = Ok (XR y) /\
         Rabs (x - y) <= (2 * e / (Q2R v - Q2R w) + 4 * g / Rabs M + 12 * / 2 ^ 53) * Rabs y) /\
    (8 * e <= Q2R w - Q2R v -> ordinary (Q2R w - Q2R v) -> r = None /\ f = Ok XNan).
