(** What the temporal and spatial data of an image set should be. *)
From Coq Require Import List Bool Arith ZArith QArith Permutation Sorting.Sorted.
From Verif Require Import Base_Prelude Base_Num Base_Order Base_Sum Model_Images Model_Loader
  Spec_Images.
Import ListNotations.
Open Scope Q_scope.

(** A dictionary whose keys are pairwise different numbers (NaN excluded). *)
Definition numeric_keys {V} (d : dict pyfloat V) : Prop :=
  Forall not_nan (map fst d) /\ distinct (map fst d).
Definition well_keyed {V} (data : dict pyfloat (dict pyfloat V)) : Prop :=
  numeric_keys data /\ Forall (fun e => numeric_keys (snd e)) data.

(** No negative photon count. *)
Definition nonneg_counts {V} (inner : dict pyfloat V) : Prop :=
  Forall (fun x => flt (fst x) fzero = false) inner.
Definition nonneg_photons {V} (data : dict pyfloat (dict pyfloat V)) : Prop :=
  Forall (fun e => nonneg_counts (snd e)) data.

Definition is_dark (p : pyfloat) : Prop := feq fzero p = true.

(** An exposure with a dark entry and at least one more. *)
Definition complete {V} (inner : dict pyfloat V) : Prop :=
  Exists (fun x => is_dark (fst x)) inner /\ (2 <= length inner)%nat.

(** A bright measurement point: exposure, photons, data. *)
Record point {V : Type} := mkPt { pt_t : pyfloat; pt_p : pyfloat; pt_d : V }.
Arguments point : clear implicits.
Definition bright_of {V} (t : pyfloat) (inner : dict pyfloat V) : list (point V) :=
  map (fun x => mkPt V t (fst x) (snd x))
      (filter (fun x => negb (feq fzero (fst x))) inner).
Definition bright_points {V} (data : dict pyfloat (dict pyfloat V)) : list (point V) :=
  flat_map (fun e => bright_of (fst e) (snd e)) data.

(** By exposure, then by photons. *)
Definition point_lt {V} (a b : point V) : Prop :=
  flt (pt_t a) (pt_t b) = true \/
  (pt_t a = pt_t b /\ flt (pt_p a) (pt_p b) = true).

(** [d] is the dark data of exposure [t]. *)
Definition dark_at {V} (data : dict pyfloat (dict pyfloat V)) (t : pyfloat) (d : V) : Prop :=
  exists inner z, In (t, inner) data /\ In (z, d) inner /\ is_dark z.

(** Temporal variance of a pair: half the variance of the difference image. *)
Definition pair_variance (h w : nat) (A B : image) : Q :=
  1 / (2 * qn (h * w)) *
  sumq2 h w (fun r c =>
    ((inject_Z (px A r c) - grey_mean A) - (inject_Z (px B r c) - grey_mean B)) *
    ((inject_Z (px A r c) - grey_mean A) - (inject_Z (px B r c) - grey_mean B))).

(** Average image of a stack, mean of its columns and rows. *)
Definition avg_pixel (imgs : list image) (r c : nat) : Q :=
  mean (map inject_Z (history imgs r c)).
Definition col_mean (h : nat) (f : nat -> nat -> Q) (c : nat) : Q := sumq h (fun r => f r c) / qn h.
Definition row_mean (w : nat) (f : nat -> nat -> Q) (r : nat) : Q := sumq w (fun c => f r c) / qn w.

(** Mean of all pixels of all images. *)
Definition stack_mean (h w : nat) (imgs : list image) : Q :=
  lsumq (map (fun im => sumq2 h w (fun r c => inject_Z (px im r c))) imgs)
  / qn (length imgs * (h * w)).

(** Population variance of [f 0 .. f (n-1)]. *)
Definition pop_var (n : nat) (f : nat -> Q) : Q :=
  sumq n (fun i => (f i - sumq n f / qn n) * (f i - sumq n f / qn n)) / qn n.

(** Two equally sized 16-bit images of at most 2^29 pixels. *)
Definition pair_ok (h w : nat) (A B : image) : Prop :=
  (0 < h * w)%nat /\ (Z.of_nat (h * w) <= 2 ^ 29)%Z /\
  ih A = h /\ iw A = w /\ ih B = h /\ iw B = w /\ bits 16 h w [A; B].

(** Exactly one exposure, with two photon counts, one of them 0. *)
Definition one_dark_one_bright {V} (data : dict pyfloat (dict pyfloat V)) : Prop :=
  exists t inner, data = [(t, inner)] /\ length inner = 2%nat /\
    Exists (fun x => is_dark (fst x)) inner.
