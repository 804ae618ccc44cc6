(** What the property C115 speaks about: spatial series whose pixels are independent, and the
    figures of the fixed pattern. *)
From Coq Require Import List Arith ZArith QArith Qreals Reals.
From Verif Require Import Base_Prelude Base_SumR Base_Xreal Model_Images Model_Loader Model_Data Model_Results Spec_Images Spec_Data
  Spec_Results Spec_Chance Spec_Linear Spec_Any Spec_Near.
Import ListNotations.
Open Scope R_scope.

(** Image l, row r, column c; its grey value, and how far that is from the mean of the pixel. *)
Definition place := (nat * nat * nat)%type.
Definition placed (L h w : nat) (p : place) : Prop :=
  (fst (fst p) < L)%nat /\ (snd (fst p) < h)%nat /\ (snd p < w)%nat.
Definition value (p : place) (s : list image) : R := grey (fst (fst p)) (snd (fst p)) (snd p) s.
Definition off_mean (mu : nat -> nat -> R) (p : place) (s : list image) : R :=
  value p s - mu (snd (fst p)) (snd p).

(** The noise of the pixels of the series S of L images with the fixed pattern mu: what happens
    in one pixel tells nothing about another pixel; variances are at most V, fourth moments at
    most M; the pattern deviates from its mean by at most D. *)
Record pixel_noise {W} (C : chance W) (S : W -> list image) (L h w : nat) (mu : nat -> nat -> R) (V M D : R) : Prop := {
  pn_three : forall p q t, placed L h w p -> placed L h w q -> placed L h w t ->
    integrable C (fun o => value p (S o) * (value q (S o) * value t (S o)));
  pn_four : forall p q t u, placed L h w p -> placed L h w q -> placed L h w t -> placed L h w u ->
    integrable C (fun o => (value p (S o) * value q (S o)) * (value t (S o) * value u (S o)));
  pn_independent : forall r c r' c' (f g : list Z -> R),
    (r < h)%nat -> (c < w)%nat -> (r' < h)%nat -> (c' < w)%nat -> (r, c) <> (r', c') ->
    integrable C (fun o => f (history (S o) r c)) -> integrable C (fun o => g (history (S o) r' c')) ->
    integrable C (fun o => f (history (S o) r c) * g (history (S o) r' c')) ->
    covar C (fun o => f (history (S o) r c)) (fun o => g (history (S o) r' c')) = 0;
  pn_var : forall p, placed L h w p -> covar C (fun o => value p (S o)) (fun o => value p (S o)) <= V;
  pn_moment : forall p, placed L h w p ->
    expect C (fun o => (off_mean mu p (S o) * off_mean mu p (S o)) * (off_mean mu p (S o) * off_mean mu p (S o))) <= M;
  pn_pattern : forall r c, (r < h)%nat -> (c < w)%nat -> Rabs (mu r c - pixel_meanR h w mu) <= D
}.

(** The series S is steady, documented and has the noise above. *)
Definition patterned {W} (C : chance W) (S : W -> list image) (L h w : nat) (mu : nat -> nat -> R) (V M D : R) : Prop :=
  (exists s2, random_series C S L h w mu (fun _ => 0) s2) /\ (forall o, documented h w (S o)) /\
  pixel_noise C S L h w mu V M D.

(** Probability that the spatial variance of N pixels in L images is off by more than e; that
    the mean is. *)
Definition pattern_odds (L N : nat) (V M D e : R) : R :=
  (128 * (D * D) * V / INR L + 32 * M) / (INR N * (e * e)) + 8 * V / (INR L * (INR N * e)).
Definition level_odds (L N : nat) (V e : R) : R := V / (INR L * (INR N * (e * e))).

(** One of the four figures of a bright series of L and a dark series of L' images is off. *)
Definition total_odds (L L' h w : nat) (V M D V' M' D' e : R) : R :=
  (pattern_odds L (h * w) V M D e + level_odds L (h * w) V e) +
  (pattern_odds L' (h * w) V' M' D' e + level_odds L' (h * w) V' e).

(** DSNU and PRNU of the data o are right up to errors e of means and spatial variances: the true
    values are vd for the spatial variance of the dark series, vb of the bright one, u for the
    difference of their means. *)
Definition pattern_right (o : robj) (vd vb u e : R) : Prop :=
  exists d p,
  DSNU1288_DN o = Ok (XR d) /\ Rabs (d - sqrt vd) <= e / sqrt vd /\
  PRNU1288 o = Ok (XR p) /\
  Rabs (p - 100 * (sqrt (vb - vd) / u)) <=
    100 * (2 * e / sqrt (vb - vd) + 2 * e * (sqrt (vb - vd) / u)) / (u - 2 * e) /\
  forall k, gain o = Ok k -> 0 < Q2R k -> DSNU1288 o = Ok (XR (d / Q2R k)).
