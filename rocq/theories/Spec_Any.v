(** What the properties C97 and C98 speak about: random images on any probability space, and
    the images of the simulated camera. *)
From Coq Require Import List Arith ZArith QArith Qreals Reals.
From Verif Require Import Base_Prelude Base_SumR Model_Images Model_Loader Model_Data Model_Camera Model_Digit
  Spec_Images Spec_Data Spec_Chance Spec_Linear.
Import ListNotations.
Open Scope R_scope.

(** Value of pixel (r, c) of image l of a series. *)
Definition grey (l r c : nat) (s : list image) : R :=
  IZR (px (nth l s (mkImg 0 0 (fun _ _ => 0%Z))) r c).

(** The series S, random on the probability space C: L images; pixel (r, c) of image l has mean
    mu r c + drift l and variance s2 l r c; different pixels, and the same pixel in different
    images, are uncorrelated. *)
Record random_series {W} (C : chance W) (S : W -> list image) (L h w : nat)
    (mu : nat -> nat -> R) (drift : nat -> R) (s2 : nat -> nat -> nat -> R) : Prop := {
  rs_length : forall o, length (S o) = L;
  rs_int : forall l r c, (l < L)%nat -> (r < h)%nat -> (c < w)%nat -> integrable C (fun o => grey l r c (S o));
  rs_prod : forall l r c l' r' c',
    (l < L)%nat -> (r < h)%nat -> (c < w)%nat -> (l' < L)%nat -> (r' < h)%nat -> (c' < w)%nat ->
    integrable C (fun o => grey l r c (S o) * grey l' r' c' (S o));
  rs_mean : forall l r c, (l < L)%nat -> (r < h)%nat -> (c < w)%nat ->
    expect C (fun o => grey l r c (S o)) = mu r c + drift l;
  rs_var : forall l r c, (l < L)%nat -> (r < h)%nat -> (c < w)%nat ->
    covar C (fun o => grey l r c (S o)) (fun o => grey l r c (S o)) = s2 l r c;
  rs_uncorrelated : forall l r c l' r' c',
    (l < L)%nat -> (r < h)%nat -> (c < w)%nat -> (l' < L)%nat -> (r' < h)%nat -> (c' < w)%nat ->
    (l, r, c) <> (l', r', c') ->
    covar C (fun o => grey l r c (S o)) (fun o => grey l' r' c' (S o)) = 0
}.

(** The quantity X has the expected value m. *)
Definition averages {W} (C : chance W) (X : W -> R) (m : R) : Prop := integrable C X /\ expect C X = m.

(** Mean of n numbers, of the pixels of an array; unbiased variances. *)
Definition averageR (n : nat) (f : nat -> R) : R := sumR n f / INR n.
Definition varianceR (n : nat) (f : nat -> R) : R :=
  sumR n (fun i => (f i - averageR n f) * (f i - averageR n f)) / INR (n - 1).
Definition pixel_meanR (h w : nat) (f : nat -> nat -> R) : R := sumR2 h w f / INR (h * w).
Definition spatial_varianceR (h w : nat) (f : nat -> nat -> R) : R :=
  sumR2 h w (fun r c => (f r c - pixel_meanR h w f) * (f r c - pixel_meanR h w f)) / INR (h * w - 1).

(** The uniform draw u decides independently of the other draws: averages over all outcomes of
    any function of the value X may be taken over the draw first. *)
Definition fair_draw {W} (C : chance W) (X : W -> R -> R) (u : W -> R) : Prop :=
  forall (g : R -> R) m, mean_is C (fun o x => g (X o x)) m ->
  integrable C (fun o => g (X o (u o))) /\ expect C (fun o => g (X o (u o))) = m.

(** A series of L images of the simulated camera: gain, offset, full well; per pixel the dark
    electrons, light electrons and DSNU; electronics noise of mean mu and variance s2. *)
Record setting := mkSetting {
  st_bits : nat; st_K : R; st_offset : R; st_full : R;
  st_dark : R; st_light : nat -> nat -> R; st_dsnu : nat -> nat -> R; st_mu : R; st_s2 : R }.

Definition shown (s : setting) (r c : nat) (t l : Z) (n u : R) : R :=
  IZR (grab_value (st_bits s) (st_K s) (st_offset s) (st_full s) (st_dsnu s r c) t l n u).

Record simulated {W} (C : chance W) (s : setting) (S : W -> list image) (L h w : nat) : Prop := {
  sm_length : forall o, length (S o) = L;
  sm_pixel : forall l r c, (l < L)%nat -> (r < h)%nat -> (c < w)%nat ->
    exists (t i : W -> Z) (n u : W -> R),
      deliveries C t i n (st_dark s) (st_light s r c) (st_mu s) (st_s2 s) /\
      unclipped (IZR (img_max (st_bits s))) (st_K s) (st_offset s) (st_full s) (st_dsnu s r c) t i n /\
      fair_draw C (fun o x => shown s r c (t o) (i o) (n o) x) u /\
      (exists v, variance_is C (fun o x => shown s r c (t o) (i o) (n o) x) v) /\
      forall o, grey l r c (S o) = shown s r c (t o) (i o) (n o) (u o);
  sm_uncorrelated : forall l r c l' r' c',
    (l < L)%nat -> (r < h)%nat -> (c < w)%nat -> (l' < L)%nat -> (r' < h)%nat -> (c' < w)%nat ->
    (l, r, c) <> (l', r', c') ->
    integrable C (fun o => grey l r c (S o) * grey l' r' c' (S o)) /\
    covar C (fun o => grey l r c (S o)) (fun o => grey l' r' c' (S o)) = 0
}.

(** Mean grey value and shot and electronics noise of a pixel by the linear model. *)
Definition model_mean (s : setting) (r c : nat) : R :=
  st_offset s + st_K s * (st_dark s + st_light s r c + st_dsnu s r c + st_mu s).
Definition model_noise (s : setting) (r c : nat) : R :=
  st_K s * st_K s * (st_dark s + st_light s r c + st_s2 s).

(** The two settings differ by the light only. *)
Definition same_but_light (a b : setting) : Prop :=
  st_K a = st_K b /\ st_offset a = st_offset b /\ st_dark a = st_dark b /\
  (forall r c, st_dsnu a r c = st_dsnu b r c) /\ st_mu a = st_mu b /\ st_s2 a = st_s2 b.
