(** What property C123 speaks about: random images whose pixels vary with their row, with their
    column, on their own, and from image to image. *)
From Coq Require Import List Arith ZArith QArith Qreals Reals.
From Verif Require Import Base_SumR Model_Images Spec_Chance Spec_Linear Spec_Any.
Open Scope R_scope.

(** x if both numbers are the same, otherwise nothing. *)
Definition same (i j : nat) (x : R) : R := if (i =? j)%nat then x else 0.

(** The series S, random on the probability space C: L images; pixel (r, c) has mean mu r c.
    Pixels of one row share a random part of variance vr, pixels of one column one of variance
    vc, the images of one pixel one of variance vp, and every value has noise of variance
    s2 l r c of its own; nothing else is correlated. *)
Record layered_series {W} (C : chance W) (S : W -> list image) (L h w : nat)
    (mu : nat -> nat -> R) (vr vc vp : R) (s2 : nat -> nat -> nat -> R) : Prop := {
  ls_length : forall o, length (S o) = L;
  ls_int : forall l r c, (l < L)%nat -> (r < h)%nat -> (c < w)%nat -> integrable C (fun o => grey l r c (S o));
  ls_prod : forall l r c l' r' c',
    (l < L)%nat -> (r < h)%nat -> (c < w)%nat -> (l' < L)%nat -> (r' < h)%nat -> (c' < w)%nat ->
    integrable C (fun o => grey l r c (S o) * grey l' r' c' (S o));
  ls_mean : forall l r c, (l < L)%nat -> (r < h)%nat -> (c < w)%nat ->
    expect C (fun o => grey l r c (S o)) = mu r c;
  ls_covar : forall l r c l' r' c',
    (l < L)%nat -> (r < h)%nat -> (c < w)%nat -> (l' < L)%nat -> (r' < h)%nat -> (c' < w)%nat ->
    covar C (fun o => grey l r c (S o)) (fun o => grey l' r' c' (S o)) =
    same r r' vr + same c c' vc + same r r' (same c c' (vp + same l l' (s2 l r c)))
}.

(** Variance of the column means and of the row means of an array. *)
Definition spreadR (n : nat) (f : nat -> R) : R :=
  averageR n (fun i => (f i - averageR n f) * (f i - averageR n f)).
Definition column_spreadR (h w : nat) (f : nat -> nat -> R) : R :=
  spreadR w (fun c => averageR h (fun r => f r c)).
Definition row_spreadR (h w : nat) (f : nat -> nat -> R) : R :=
  spreadR h (fun r => averageR w (fun c => f r c)).

(** Average noise of the images. *)
Definition image_noise (L h w : nat) (s2 : nat -> nat -> nat -> R) : R :=
  pixel_meanR h w (fun r c => averageR L (fun l => s2 l r c)).

(** Row, column and pixel variance that make up a total variance and the variances of the column
    and of the row means (M rows, N columns). *)
Definition made_of (M N total columns rows row col pixel : R) : Prop :=
  row + col + pixel = total /\ col + pixel / M = columns /\ row + pixel / N = rows.

(** The figure F comes out as a number in every outcome, with the expected value m. *)
Definition figure_averages {W} (C : chance W) (F : W -> Base_Prelude.res (option Q)) (m : R) : Prop :=
  exists f : W -> Q, (forall o, F o = Base_Prelude.Ok (Some (f o))) /\ averages C (fun o => Q2R (f o)) m.
