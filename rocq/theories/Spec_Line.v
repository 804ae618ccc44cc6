(** What property C124 speaks about: series of images of a single row. *)
From Coq Require Import List Arith ZArith QArith Qreals Reals.
From Verif Require Import Base_SumR Model_Images Spec_Any.
Open Scope R_scope.

(** Average image, variance over its pixels, and average over the pixels of the variance from
    image to image. *)
Definition average_image (s : list image) (r c : nat) : R := averageR (length s) (fun l => grey l r c s).
Definition pattern_of (h w : nat) (s : list image) : R := spatial_varianceR h w (average_image s).
Definition noise_of (h w : nat) (s : list image) : R :=
  pixel_meanR h w (fun r c => varianceR (length s) (fun l => grey l r c s)).

(** Some two values of the first row differ. *)
Definition not_constant (w : nat) (s : list image) : Prop :=
  exists l c l' c', (l < length s)%nat /\ (c < w)%nat /\ (l' < length s)%nat /\ (c' < w)%nat /\
    grey l 0 c s <> grey l' 0 c' s.
