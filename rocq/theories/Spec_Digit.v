(** What the property C93 speaks about. *)
From Coq Require Import ZArith Reals.
From Coquelicot Require Import Coquelicot.
From Flocq Require Import Core.
Open Scope R_scope.

(** Mean of a quantity that depends on a number drawn uniformly between -1/2 and 1/2. *)
Definition mean_over_draw (X : R -> R) (m : R) : Prop := is_RInt X (- (1 / 2)) (1 / 2) m.
(** Variance around the mean m. *)
Definition variance_over_draw (X : R -> R) (m v : R) : Prop :=
  mean_over_draw (fun u => (X u - m) * (X u - m)) v.

(** Fractional part. *)
Definition frac (y : R) : R := y - IZR (Zfloor y).
