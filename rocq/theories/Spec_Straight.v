(** What the property C117 speaks about: how large the linearity error can be. *)
From Coq Require Import List Arith ZArith QArith Qreals Reals.
From Verif Require Import Base_Prelude Model_Data Model_Results Spec_Results Spec_Linear Spec_Near.
Import ListNotations.
Open Scope R_scope.

(** The smallest reported linearity error is in [-low, 0], the largest one in [0, high]. *)
Definition straight_within (o : robj) (low high : R) : Prop :=
  exists mn mx, LE_min o = Ok (Some mn) /\ LE_max o = Ok (Some mx) /\
    - low <= Q2R mn <= 0 /\ 0 <= Q2R mx <= high.

(** The linearity errors in percent, when some line misses each of N points by at most the part d
    of its signal. *)
Definition low_error (N : nat) (d : R) : R := 100 * (sqrt (INR N) * d) / (1 + sqrt (INR N) * d).
Definition high_error (N : nat) (d : R) : R := 100 * (sqrt (INR N) * d) / (1 - sqrt (INR N) * d).

(** Errors e blur neither end of the range of 5 % to 95 % of the saturation, and two points with
    different light are in it. *)
Definition clear_range (T : truth) (x : nat -> R) (p : nat) (e : R) : Prop :=
  let s i := tr_mean T i - tr_dark_mean T i in
  4 * e < 5 / 100 * s p /\
  exists i j, (i <= j < p)%nat /\ x i <> x j /\
    5 / 100 * s p + 3 * e <= s i /\ s j <= 95 / 100 * s p - 4 * e.

(** The part of the smallest signal that errors e of the means make up. *)
Definition signal_part (x0 eta K e : R) : R := 2 * e / (K * (eta * x0) - 2 * e).
