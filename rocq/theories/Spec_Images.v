(** Textbook statistics of an image series. *)
From Coq Require Import List Bool Arith ZArith QArith.
From Verif Require Import Base_Sum Model_Images.
Import ListNotations.
Open Scope Z_scope.

(** Values of one pixel over the series. *)
Definition history (imgs : list image) (r c : nat) : list Z :=
  map (fun im => px im r c) imgs.

(** All images have the same shape. *)
Definition same_shape (h w : nat) (imgs : list image) : Prop :=
  Forall (fun im => ih im = h /\ iw im = w) imgs.

(** Pixel values that fit [b] bits. *)
Definition bits (b : Z) (h w : nat) (imgs : list image) : Prop :=
  Forall (fun im => forall r c, (r < h)%nat -> (c < w)%nat -> 0 <= px im r c < 2 ^ b) imgs.

(** A series as documented: equal shapes, at most 16 bits, at most 1000 images. *)
Definition documented (h w : nat) (imgs : list image) : Prop :=
  imgs <> [] /\ (length imgs <= 1000)%nat /\ same_shape h w imgs /\ bits 16 h w imgs.

(** Exact sum and sum of squares. *)
Definition exact_sum (ys : list Z) : Z := lsumz ys.
Definition exact_sq (ys : list Z) : Z := lsumz (map (fun y => y * y) ys).

(** Mean and unbiased sample variance of a list of numbers. *)
Definition mean (ys : list Q) : Q := (lsumq ys / qn (length ys))%Q.
Definition unbiased_var (ys : list Q) : Q :=
  (lsumq (map (fun y => (y - mean ys) * (y - mean ys)) ys) / qn (length ys - 1))%Q.

(** The image with a constant added. *)
Definition shift (k : Z) (im : image) : image :=
  mkImg (ih im) (iw im) (fun r c => px im r c + k).

(** Mean of all pixels. *)
Definition pixel_mean (h w : nat) (f : nat -> nat -> Q) : Q := (sumq2 h w f / qn (h * w))%Q.

(** Pixel values that fit a signed 64-bit cell. *)
Definition int64_pixels (h w : nat) (imgs : list image) : Prop :=
  Forall (fun im => forall r c, (r < h)%nat -> (c < w)%nat -> - 2 ^ 63 <= px im r c < 2 ^ 63) imgs.

(** Mean grey value of an image. *)
Definition grey_mean (im : image) : Q :=
  pixel_mean (ih im) (iw im) (fun r c => inject_Z (px im r c)).
