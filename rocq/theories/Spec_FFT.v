(** The average over the rows of the power spectrum of a mean-free image. *)
From Coq Require Import Arith Reals List.
From Verif Require Import Base_SumR.
Import ListNotations.
Open Scope R_scope.

Definition mean_of (h w : nat) (f : nat -> nat -> R) : R := sumR2 h w f / (INR h * INR w).

(** Squared modulus of sum_j x_j exp(-2 pi i k j / w). *)
Definition modulus2 (w : nat) (x : nat -> R) (k : nat) : R :=
  (sumR w (fun j => x j * cos (2 * PI * INR k * INR j / INR w))) ^ 2
  + (sumR w (fun j => x j * sin (2 * PI * INR k * INR j / INR w))) ^ 2.

(** Mean over the rows, normalised by the number of columns. *)
Definition spectrum (h w : nat) (f : nat -> nat -> R) (k : nat) : R :=
  sumR h (fun r => modulus2 w (fun j => f r j - mean_of h w f) k / INR w) / INR h.

(** Sum over the columns of the mean (over the rows) squared deviation. *)
Definition energy (h w : nat) (f : nat -> nat -> R) : R :=
  sumR w (fun c => sumR h (fun r => (f r c - mean_of h w f) ^ 2) / INR h).
