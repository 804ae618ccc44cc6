(** What the property C125 speaks about: fixed pattern figures computed in binary64 numbers. *)
From Coq Require Import Arith ZArith QArith Qreals Reals.
From Verif Require Import Base_Prelude Spec_RoundedSpatial.
Open Scope R_scope.

(** (n + 3) 2^(2b-48) for b bits and chains of n additions: what rounding adds to the error of a
    spatial variance or of a mean. *)
Definition rounding_part (b : Z) (n : nat) : R := 2 * Q2R (spatial_bound b n).
