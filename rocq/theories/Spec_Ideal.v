(** What the property C90 speaks about: data measured from a sensor that obeys the linear
    camera model of the standard. *)
From Coq Require Import List Bool Arith ZArith QArith.
From Verif Require Import Base_Prelude Base_Sum Model_Images Model_Data Model_Results Spec_Results.
Open Scope Q_scope.

(** The data of n points were measured from a sensor of quantum efficiency eta and gain K
    that saturates at point p. *)
Record linear_sensor (o : robj) (n p : nat) (eta K : Q) : Prop := {
  ls_shape : shaped o n;
  ls_unforced : unforced o;
  ls_eta : 0 < eta;
  ls_gain : 0 < K;
  (** There is light at the first point, and more at every following one. *)
  ls_light : 0 < photons o 0;
  ls_more : forall i j, (i < j < n)%nat -> photons o i < photons o j;
  (** Up to saturation: mean signal K eta photons, shot noise K times the signal. *)
  ls_signal : forall i, (i <= p)%nat -> sig o i == K * (eta * photons o i);
  ls_noise : forall i, (i <= p)%nat -> noise o i == K * sig o i;
  (** The dark noise does not decrease with the exposure. *)
  ls_dark : forall i j, (i <= j < n)%nat ->
    0 <= at_ (r_s2ydark (o_t o)) i <= at_ (r_s2ydark (o_t o)) j;
  (** Beyond saturation the signal does not fall back and the noise does not increase. *)
  ls_clipped : forall i, (p <= i < n)%nat -> sig o p <= sig o i;
  ls_quiet : forall i j, (p <= i < j)%nat -> (j < n)%nat ->
    0 <= at_ (r_s2y (o_t o)) j <= at_ (r_s2y (o_t o)) i;
  (** Points enough: saturation is at the third point or later, the first point is below
      70 % of saturation, two points are between 5 % and 95 % of it. *)
  ls_saturates : (2 <= p < n)%nat;
  ls_first : photons o 0 <= (7 # 10) * photons o p;
  ls_two : exists i j, (i < j < p)%nat /\
    (5 # 100) * photons o p <= photons o i /\ photons o j <= (95 # 100) * photons o p
}.

(** The dark images: mean = offset + dark current, variance = dark noise of var electrons
    squared, shot noise of the dark current (mu electrons per ns) and the 1/12 of the
    quantisation. *)
Record dark_sensor (o : robj) (n : nat) (K offset mu var : Q) : Prop := {
  ds_mean : forall i, (i < n)%nat ->
    at_ (r_uydark (o_t o)) i == offset + K * (mu * at_ (r_texp (o_t o)) i);
  ds_var : forall i, (i < n)%nat ->
    at_ (r_s2ydark (o_t o)) i == K * K * (var + mu * at_ (r_texp (o_t o)) i) + (1 # 12);
  ds_current : 0 <= mu;
  ds_floor : (24 # 100) <= K * K * var + (1 # 12);
  ds_times : ~ at_most_two (r_texp (o_t o))
}.
