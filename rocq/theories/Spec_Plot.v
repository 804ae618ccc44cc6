(** What a plot is expected to show. *)
From Coq Require Import Ascii String List Bool Arith ZArith QArith Reals Qreals Sorting.Sorted.
From Verif Require Import Base_Prelude Base_Str Base_Sum Base_Xreal Model_Data Model_Results Model_Plot Spec_Results.
Import ListNotations.
Open Scope Q_scope.

(** The curve has this label, is a line (or single markers), and its points are those of
    the indices [is] in order. *)
Definition shows_points {A B} (c : curve A B) (label : string) (joined : bool) (is : list nat)
    (point : nat -> A * B) : Prop :=
  k_label c = lit label /\ k_joined c = joined /\ k_points c = map point is.

(** 0, 1, ..., n-1 and lo, ..., hi. *)
Definition all_points (n : nat) : list nat := seq 0 n.
Definition range_points (lo hi : nat) : list nat := seq lo (S hi - lo).

(** The photon count below 70 % of the saturation signal that is furthest along. *)
Definition sensitivity_end (o : robj) (n k m : nat) : Prop :=
  largest n (fun i => sig o i <= (7 # 10) * sig o k) m.
Definition linear_range (o : robj) (n k lo hi : nat) : Prop :=
  smallest n (fun i => (5 # 100) * sig o k <= sig o i) lo /\
  largest n (fun i => sig o i <= (95 # 100) * sig o k) hi.

(** The exposure times are ascending; they are all the same. *)
Definition ascending (l : list Q) : Prop := StronglySorted Qle l.
Definition all_same (l : list Q) : Prop := forall x y, In x l -> In y l -> x == y.

(** ** SNR *)
Open Scope R_scope.

(** An ordinary test with [n] points: positive gain and responsivity, at most 100 %
    quantum efficiency, no negative variance, threshold [lo] below saturation [hi]. *)
Record ordinary_test (o : robj) (n : nat) (lo : R) (hi : Q) : Prop := {
  ot_shaped : shaped o n;
  ot_gain : exists k, gain o = Ok k /\ (0 < k)%Q;
  ot_responsivity : exists r, responsivity o = Ok r /\ (0 < r)%Q;
  ot_efficiency : exists q, QE o = Ok (XR q) /\ q <= 100;
  ot_dark : exists s, sigma_y_dark o = Ok (XR s) /\ 0 < s /\ 24 / 100 <= s * s;
  ot_variance : forall i, (i < n)%nat -> (0 <= at_ (r_s2y (o_t o)) i)%Q;
  ot_dsnu : exists d, DSNU1288 o = Ok (XR d);
  ot_prnu : exists d, PRNU1288 o = Ok (XR d);
  ot_min : u_p_min o = Ok (XR lo);
  ot_sat : u_p_sat o = Ok hi;
  ot_below : lo < Q2R hi
}.

(** The photon counts at which the curves are drawn: 100 steps from the threshold to
    the saturation, without the latter. *)
Definition sample (lo : R) (hi : Q) (i : nat) : R := lo + INR i * ((Q2R hi - lo) / 100).

(** The curve is drawn at the samples and has the heights of [f]. *)
Definition drawn_at (samples : list R) (f : R -> res xr) (c : list (R * xr)) : Prop :=
  map fst c = samples /\ forall x y, In (x, y) c -> f x = Ok y.

(** Nothing of the curve is above [top]. *)
Definition below (top : R) (c : list (R * xr)) : Prop :=
  forall x y, In (x, y) c -> exists v, y = XR v /\ v <= top.

(** ** Axes *)
Open Scope Q_scope.

(** The value is between the ends of the axis. *)
Definition visible (axis : Q * Q) (v : Q) : Prop := fst axis <= v <= snd axis.

(** The average height of a curve. *)
Definition level {A} (c : list (A * Q)) (v : Q) : Prop :=
  c <> [] /\ v * inject_Z (Z.of_nat (length c)) == fold_right Qplus 0 (map snd c).
