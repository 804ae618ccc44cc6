(** Profiles of an image and the averaged dark image, in elementary terms. *)
From Coq Require Import List Bool Arith ZArith QArith Sorted Reals.
From Verif Require Import Base_Prelude Base_Num Base_Sum Model_Images Model_Data Model_Profile.
Import ListNotations.
Open Scope nat_scope.

(** An image with [h] rows and [w] columns; only some pixels are visible. *)
Record picture := mkPic { rows : nat; cols : nat; visible : nat -> nat -> bool; value : nat -> nat -> Q }.

(** Rows and columns exchanged. *)
Definition flipped (p : picture) : picture :=
  mkPic (cols p) (rows p) (fun i j => visible p j i) (fun i j => value p j i).

(** Number and sum of the visible pixels of column [j]. *)
Definition seen_count (p : picture) (j : nat) : Q :=
  sumq (rows p) (fun i => if visible p i j then 1%Q else 0%Q).
Definition seen_sum (p : picture) (j : nat) : Q :=
  sumq (rows p) (fun i => if visible p i j then value p i j else 0%Q).

Definition appears (p : picture) (j : nat) (v : Q) : Prop :=
  j < cols p /\ exists i, i < rows p /\ visible p i j = true /\ (value p i j == v)%Q.

Definition average (p : picture) (j : nat) (v : Q) : Prop :=
  j < cols p /\ (exists i, i < rows p /\ visible p i j = true) /\ (v * seen_count p j == seen_sum p j)%Q.

Definition least (p : picture) (j : nat) (v : Q) : Prop :=
  appears p j v /\ forall i, i < rows p -> visible p i j = true -> (v <= value p i j)%Q.

Definition greatest (p : picture) (j : nat) (v : Q) : Prop :=
  appears p j v /\ forall i, i < rows p -> visible p i j = true -> (value p i j <= v)%Q.

Definition pixel_of_row (p : picture) (i j : nat) (v : Q) : Prop :=
  j < cols p /\ visible p i j = true /\ (v == value p i j)%Q.

(** A curve with the points [P], drawn from left to right, one value per position. *)
Definition curve (P : nat -> Q -> Prop) (l : list (nat * Q)) : Prop :=
  StronglySorted lt (map fst l) /\
  (forall j v, In (j, v) l -> P j v) /\
  (forall j v, P j v -> exists v', In (j, v') l).

(** The row shown as middle: row [h/2], or the next one if that is not visible at all. *)
Definition middle (p : picture) (m : nat) : Prop :=
  (m = rows p / 2 /\ exists j, j < cols p /\ visible p (rows p / 2) j = true) \/
  (m = rows p / 2 + 1 /\ forall j, j < cols p -> visible p (rows p / 2) j = false).

(** Pictures with all pixels visible, and with a mask. *)
Definition plain_pic (h w : nat) (f : nat -> nat -> Q) : picture := mkPic h w (fun _ _ => true) f.
Definition masked_pic (h w : nat) (m : nat -> nat -> bool) (f : nat -> nat -> Q) : picture :=
  mkPic h w (fun i j => negb (m i j)) f.

(** The four curves of a picture with all pixels visible. *)
Definition shows (vertical : bool) (h w : nat) (f : nat -> nat -> Q) (c : profiles) : Prop :=
  let p := if vertical then flipped (plain_pic h w f) else plain_pic h w f in
  map fst (f_mean c) = seq 0 (cols p) /\
  curve (average p) (f_mean c) /\ curve (least p) (f_min c) /\ curve (greatest p) (f_max c) /\
  curve (pixel_of_row p (rows p / 2)) (f_mid c).

(** ** Sums of images *)

(** Pixel sums of non-negative pixel values that fit int64. *)
Definition sums (im : image) (h w : nat) : Prop :=
  ih im = h /\ iw im = w /\ forall i j, (0 <= px im i j < 2 ^ 63)%Z.

(** The averaged image. *)
Definition avg_of (s : sdata) (i j : nat) : Q := (inject_Z (px (sd_sum s) i j) / qn (sd_L s))%Q.

(** ** Percentages *)

Open Scope R_scope.

(** Standard deviation [s] as a percentage of [mean]. *)
Definition percent_of (s mean : R) : R := 100 * s / mean.

(** Brightness above dark, per pixel. *)
Definition net (s : spatial) (i j : nat) : R :=
  (IZR (px (sd_sum (sp_bright s)) i j) - IZR (px (sd_sum (sp_dark s)) i j)) / INR (sd_L (sp_bright s)).

(** Rows and columns exchanged if [rotate]. *)
Definition turned {A} (rotate : bool) (f : nat -> nat -> A) : nat -> nat -> A :=
  fun r c => if rotate then f c r else f r c.
