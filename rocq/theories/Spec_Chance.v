(** What the properties C91 and C92 speak about: series of images whose pixels are random. *)
From Coq Require Import List Bool Arith ZArith QArith.
From Verif Require Import Base_Prelude Base_Sum Model_Images Model_Loader Model_Data Spec_Images Spec_Data.
Import ListNotations.
Open Scope Q_scope.

(** A random series of images: finitely many possible series with their probabilities. *)
Definition law := list (Q * list image).
Definition possible (P : law) (s : list image) : Prop := exists p, In (p, s) P.
Definition probabilities (P : law) : Prop :=
  Forall (fun e => 0 <= fst e) P /\ lsumq (map fst P) == 1.

(** Expected value, covariance. *)
Definition expected (P : law) (X : list image -> Q) : Q :=
  lsumq (map (fun e => fst e * X (snd e)) P).
Definition covariance (P : law) (X Y : list image -> Q) : Q :=
  expected P (fun s => (X s - expected P X) * (Y s - expected P Y)).

(** Value of pixel (r, c) of image l of a series. *)
Definition pixel (l r c : nat) (s : list image) : Q :=
  inject_Z (px (nth l s (mkImg 0 0 (fun _ _ => 0%Z))) r c).

(** Series of L images h x w.  Pixel (r, c) of image l has mean mu r c + drift l and
    variance s2 r c; different pixels, and the same pixel in different images, are
    uncorrelated. *)
Record noisy (P : law) (L h w : nat) (mu s2 : nat -> nat -> Q) (drift : nat -> Q) : Prop := {
  ny_law : probabilities P;
  ny_length : forall s, possible P s -> length s = L;
  ny_mean : forall l r c, (l < L)%nat -> (r < h)%nat -> (c < w)%nat ->
    expected P (pixel l r c) == mu r c + drift l;
  ny_var : forall l r c, (l < L)%nat -> (r < h)%nat -> (c < w)%nat ->
    covariance P (pixel l r c) (pixel l r c) == s2 r c;
  ny_uncorrelated : forall l r c l' r' c',
    (l < L)%nat -> (r < h)%nat -> (c < w)%nat -> (l' < L)%nat -> (r' < h)%nat -> (c' < w)%nat ->
    (l, r, c) <> (l', r', c') -> covariance P (pixel l r c) (pixel l' r' c') == 0
}.

(** Mean and unbiased variance of n numbers. *)
Definition mean_n (n : nat) (f : nat -> Q) : Q := sumq n f / qn n.
Definition var_n (n : nat) (f : nat -> Q) : Q :=
  sumq n (fun i => (f i - mean_n n f) * (f i - mean_n n f)) / qn (n - 1).

(** Unbiased variance of the pixels of an h x w array. *)
Definition spatial_variance (h w : nat) (f : nat -> nat -> Q) : Q :=
  sumq2 h w (fun r c => (f r c - pixel_mean h w f) * (f r c - pixel_mean h w f)) / qn (h * w - 1).

(** The number of an optional value. *)
Definition number (v : option Q) : Q := match v with Some x => x | None => 0 end.

(** d is the temporal data, s the spatial data of a series. *)
Definition temporal_data_of (s : list image) (d : tdata) : Prop :=
  exists r, get_int_imgs s = Ok r /\ d = temporal_summary r.
Definition spatial_data_of (h w : nat) (s : list image) (d : sdata) : Prop :=
  exists r, get_int_imgs s = Ok r /\ get_spatial_data h w r = Ok d.
Definition number_r (v : res (option Q)) : Q := match v with Ok (Some x) => x | _ => 0 end.
