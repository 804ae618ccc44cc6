(** What the properties C101 and C102 speak about: data that follow the linear camera model up
    to errors, and measurements that are unlikely to be wrong. *)
From Coq Require Import List Arith ZArith QArith Qreals Reals.
From Verif Require Import Base_Prelude Base_SumR Model_Images Model_Loader Model_Data Model_Results Spec_Images Spec_Data Spec_Results Spec_Chance
  Spec_Linear Spec_Any.
Import ListNotations.
Open Scope R_scope.

(** Photons, signal and noise above dark at point i, as real numbers. *)
Definition photonsR (o : robj) (i : nat) : R := Q2R (photons o i).
Definition sigR (o : robj) (i : nat) : R := Q2R (sig o i).
Definition noiseR (o : robj) (i : nat) : R := Q2R (noise o i).

(** The n points of the data o deviate from a sensor of quantum efficiency eta and gain K that
    saturates at point p by at most e (signal) and f (noise). *)
Record near_linear (o : robj) (n p : nat) (eta K e f : R) : Prop := {
  nl_shape : shaped o n;
  nl_saturates : sat_point o n p;
  nl_eta : 0 <= eta;
  nl_gain : 0 < K;
  nl_light : forall i, (i <= p)%nat -> 0 < photonsR o i;
  nl_seen : forall i, (i <= p)%nat -> 0 < sigR o i;
  nl_signal : forall i, (i <= p)%nat -> Rabs (sigR o i - K * (eta * photonsR o i)) <= e;
  nl_noise : forall i, (i <= p)%nat -> Rabs (noiseR o i - K * sigR o i) <= f;
  (** The first point is below 70 % of saturation, no point after saturation is. *)
  nl_first : (sig o 0 <= (7 # 10) * sig o p)%Q;
  nl_clipped : forall i, (p <= i < n)%nat -> ((7 # 10) * sig o p < sig o i)%Q
}.

(** The true means and variances of the grey values at every point, bright and dark. *)
Record truth := mkTruth { tr_mean : nat -> R; tr_var : nat -> R; tr_dark_mean : nat -> R; tr_dark_var : nat -> R }.

(** Each mean and variance of the n points of the data is at most e from the truth. *)
Record measured_within (o : robj) (T : truth) (n : nat) (e : R) : Prop := {
  mw_mean : forall i, (i < n)%nat -> Rabs (Q2R (at_ (r_uy (o_t o)) i) - tr_mean T i) <= e;
  mw_var : forall i, (i < n)%nat -> Rabs (Q2R (at_ (r_s2y (o_t o)) i) - tr_var T i) <= e;
  mw_dark_mean : forall i, (i < n)%nat -> Rabs (Q2R (at_ (r_uydark (o_t o)) i) - tr_dark_mean T i) <= e;
  mw_dark_var : forall i, (i < n)%nat -> Rabs (Q2R (at_ (r_s2ydark (o_t o)) i) - tr_dark_var T i) <= e
}.

(** A sensor of quantum efficiency eta and gain K in the light x 0, ..., x p; the noise deviates
    from the shot noise by at most q (quantisation). *)
Record linear_law (T : truth) (x : nat -> R) (p : nat) (eta K q : R) : Prop := {
  ll_eta : 0 < eta;
  ll_gain : 0 < K;
  ll_signal : forall i, (i <= p)%nat -> tr_mean T i - tr_dark_mean T i = K * (eta * x i);
  ll_noise : forall i, (i <= p)%nat ->
    Rabs ((tr_var T i - tr_dark_var T i) - K * (tr_mean T i - tr_dark_mean T i)) <= q
}.

(** Saturation at point p of n; the points are so far apart that errors e do not blur the
    saturation or the 70 % range. *)
Record clear_points (T : truth) (n p : nat) (e : R) : Prop := {
  cl_points : (2 <= p < n)%nat;
  cl_error : 0 <= e;
  cl_more : forall i, (0 < i <= p)%nat -> tr_mean T 0%nat - tr_dark_mean T 0%nat <= tr_mean T i - tr_dark_mean T i;
  cl_rise : forall i, (i < p)%nat -> tr_var T i + 2 * e < tr_var T p;
  cl_fall : forall i, (p <= i)%nat -> (S i < n)%nat -> tr_var T (S i) + 2 * e <= tr_var T i \/ tr_var T (S i) = 0;
  cl_seen : 2 * e < tr_mean T 0%nat - tr_dark_mean T 0%nat;
  cl_first : tr_mean T 0%nat - tr_dark_mean T 0%nat + 4 * e <= 7 / 10 * (tr_mean T p - tr_dark_mean T p);
  cl_clipped : forall i, (p <= i < n)%nat ->
    tr_mean T p - tr_dark_mean T p <= tr_mean T i - tr_dark_mean T i;
  cl_gap : 4 * e < 3 / 10 * (tr_mean T p - tr_dark_mean T p)
}.

(** Gain and responsivity of the data o are right up to errors e of the means and variances. *)
Definition right_within (o : robj) (p : nat) (eta K q e : R) : Prop :=
  exists m r k,
  index_sensitivity_max o = Ok m /\ (m < p)%nat /\ responsivity o = Ok r /\ gain o = Ok k /\
  let x := averageR (S m) (photonsR o) in
  0 < x /\ 0 < K * (eta * x) - 2 * e /\
  Rabs (Q2R r - K * eta) <= 2 * e / x /\
  Rabs (Q2R k - K) <= (2 * e * (1 + K) + q) / (K * (eta * x) - 2 * e).

(** ** Probability *)
(** The event A has at most probability d: some quantity that is never negative, and at least
    one when A happens, has at most the expected value d. *)
Definition unlikely {W} (C : chance W) (A : W -> Prop) (d : R) : Prop :=
  exists g, integrable C g /\ (forall o, 0 <= g o) /\ (forall o, A o -> 1 <= g o) /\ expect C g <= d.

(** Difference of the two images of a pair at pixel (r, c). *)
Definition change (r c : nat) (s : list image) : R := grey 0 r c s - grey 1 r c s.

(** Pairs of images: pixel (r, c) has the mean mu r c in both images and the variance s2 l r c,
    at most V, in image l; pixels are uncorrelated, also the squares of their differences, whose
    own squares average at most M. *)
Record noisy_pair {W} (C : chance W) (S : W -> list image) (h w : nat)
    (mu : nat -> nat -> R) (s2 : nat -> nat -> nat -> R) (V M : R) : Prop := {
  np_series : random_series C S 2 h w mu (fun _ => 0) s2;
  np_var : forall l r c, (l < 2)%nat -> (r < h)%nat -> (c < w)%nat -> s2 l r c <= V;
  np_square : forall r c, (r < h)%nat -> (c < w)%nat ->
    integrable C (fun o => change r c (S o) * change r c (S o));
  np_four_int : forall r c r' c', (r < h)%nat -> (c < w)%nat -> (r' < h)%nat -> (c' < w)%nat ->
    integrable C (fun o => (change r c (S o) * change r c (S o)) * (change r' c' (S o) * change r' c' (S o)));
  np_four : forall r c, (r < h)%nat -> (c < w)%nat ->
    expect C (fun o => (change r c (S o) * change r c (S o)) * (change r c (S o) * change r c (S o))) <= M;
  np_squares : forall r c r' c', (r < h)%nat -> (c < w)%nat -> (r' < h)%nat -> (c' < w)%nat -> (r, c) <> (r', c') ->
    covar C (fun o => change r c (S o) * change r c (S o)) (fun o => change r' c' (S o) * change r' c' (S o)) = 0
}.
Definition both (s2 : nat -> nat -> nat -> R) (r c : nat) : R := (s2 0%nat r c + s2 1%nat r c) / 2.

(** The pair S is as above, its true mean is m and its true variance v. *)
Definition true_pair {W} (C : chance W) (S : W -> list image) (h w : nat) (V M m v : R) : Prop :=
  (forall o A B, S o = [A; B] -> pair_ok h w A B) /\
  exists mu s2, noisy_pair C S h w mu s2 V M /\ m = pixel_meanR h w mu /\ v = pixel_meanR h w (both s2).

(** u and s2 are the mean and the variance that are computed from the pair of images s. *)
Definition computed (h w : nat) (s : list image) (u s2 : Q) : Prop :=
  exists d, temporal_data_of s d /\ (u == td_mean (h * w) d)%Q /\ (s2 == td_s2 (h * w) d)%Q.

(** The random data O of n points, computed from a bright pair B i and a dark pair D i of h x w
    pixels at every point; T is the truth and x the light. *)
Record measurement {W} (C : chance W) (O : W -> robj) (B D : nat -> W -> list image) (n h w : nat)
    (T : truth) (x : nat -> R) (V M : R) : Prop := {
  me_shape : forall o, shaped (O o) n;
  me_unforced : forall o, unforced (O o);
  me_light : forall o i, (i < n)%nat -> photonsR (O o) i = x i;
  me_bright : forall i, (i < n)%nat -> true_pair C (B i) h w V M (tr_mean T i) (tr_var T i);
  me_dark : forall i, (i < n)%nat -> true_pair C (D i) h w V M (tr_dark_mean T i) (tr_dark_var T i);
  me_computed : forall o i, (i < n)%nat ->
    computed h w (B i o) (at_ (r_uy (o_t (O o))) i) (at_ (r_s2y (o_t (O o))) i) /\
    computed h w (D i o) (at_ (r_uydark (o_t (O o))) i) (at_ (r_s2ydark (o_t (O o))) i);
  (** Without any noise (all pixels clipped) the two images are equal. *)
  me_clipped : forall o i, (i < n)%nat -> tr_var T i = 0 -> (at_ (r_s2y (o_t (O o))) i == 0)%Q
}.
