(** The reported linearity errors. *)
From Coq Require Import List Bool Arith ZArith QArith Qabs.
From Verif Require Import Base_Prelude Base_Num Base_Order Base_Sum Base_Float Model_Rounded Model_Results Model_RoundedIndex Model_RoundedLinearity Spec_Results.
Import ListNotations.
Open Scope Q_scope.

(** [a <= b] of two floats. *)
Definition at_most (a b : pyfloat) : Prop := flt a b = true \/ feq a b = true.

(** mn and mx are the smallest and the largest of the numbers l; a NaN among them makes both NaN. *)
Definition extremes (l : list pyfloat) (mn mx : pyfloat) : Prop :=
  (In FNan l /\ mn = FNan /\ mx = FNan) \/
  (~ In FNan l /\ In mn l /\ In mx l /\ forall d, In d l -> at_most mn d /\ at_most d mx).

(** The numbers of points lo .. hi of a list. *)
Definition between (lo hi : nat) {A} (l : list A) : list A := firstn (hi + 1 - lo) (skipn lo l).

(** An order of additions for every number of elements. *)
Definition sound_sums (order : nat -> stree) : Prop := forall n, (0 < n)%nat -> adds_all n (order n).

(** The float x stands for the number q. *)
Definition stands_for (x : pyfloat) (q : Q) : Prop := exists v, x = FFin v /\ (v == q)%Q.
(** Neither tiny nor huge: between 2^-30 and 2^30. *)
Definition moderate (q : Q) : Prop := (/ inject_Z (2 ^ 30) <= q <= inject_Z (2 ^ 30))%Q.

(** How far the points (x, y) are from having a single photon level: kappa is at least one over
    the squared sine of the angle between the vectors (x/y) and (1/y) of the weighted fit. *)
Definition levels_spread (kappa : Q) (P : list (Q * Q)) : Prop :=
  let xx := lsumq (map (fun p => (fst p / snd p) * (fst p / snd p)) P) in
  let yy := lsumq (map (fun p => 1 / (snd p * snd p)) P) in
  let xy := lsumq (map (fun p => fst p / (snd p * snd p)) P) in
  (xx * yy <= kappa * (xx * yy - xy * xy))%Q.

(** A finite number whose relative error is at most j times 2^-53. *)
Definition signal_close (j : nat) (x : pyfloat) (q : Q) : Prop :=
  exists v, x = FFin v /\ Qabs (v - q) <= qn j / inject_Z (2 ^ 53) * q.

(** 20000 (2n+4j+13) n kappa^2 2^-53 per cent. *)
Definition linearity_bound (kappa : Q) (n j : nat) : Q :=
  (inject_Z 20000 * (inject_Z 2 * qn n + inject_Z 4 * qn j + inject_Z 13) * qn n * (kappa * kappa) / inject_Z (2 ^ 53))%Q.

(** Photons and signal of the points lo .. hi. *)
Definition range_points (o : robj) (lo hi : nat) : list (Q * Q) :=
  map (fun i => (photons o i, sig o i)) (seq lo (S (hi - lo))).
