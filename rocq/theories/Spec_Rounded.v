(** How far computed figures may be from the exact ones. *)
From Coq Require Import List Bool Arith ZArith QArith Qabs Permutation.
From Verif Require Import Base_Prelude Base_Num Base_Order Base_Sum Model_Images
  Model_Loader Model_Rounded Spec_Images Spec_Num.
Import ListNotations.
Open Scope Q_scope.

(** Two equally sized images of at most 2^29 pixels and [b] bits, [b] at most 16. *)
Definition pair_bits (b : Z) (h w : nat) (A B : image) : Prop :=
  (0 < h * w)%nat /\ (Z.of_nat (h * w) <= 2 ^ 29)%Z /\
  ih A = h /\ iw A = w /\ ih B = h /\ iw B = w /\ (0 <= b <= 16)%Z /\ bits b h w [A; B].

(** A finite number at most [e] away from [q]. *)
Definition within (e q : Q) (x : pyfloat) : Prop := exists v, x = FFin v /\ Qabs (v - q) <= e.

(** 2^(2b-50): less than a thousandth of a millionth of a squared grey value for 10 bits. *)
Definition variance_error (b : Z) : Q := inject_Z (2 ^ (2 * b)) / inject_Z (2 ^ 50).

(** Two tables with the same keys in the same order, entries related by [P]. *)
Definition table2 {A B} (P : A -> B -> Prop) (d : dict pyfloat A) (e : dict pyfloat B) : Prop :=
  Forall2 (fun x y => fst x = fst y /\ P (snd x) (snd y)) d e.

(** The mean of an image that has pixels adds each of them once, in some order and
    grouping. *)
Definition sound_order (order : image -> stree) : Prop :=
  forall im, (0 < ih im * iw im)%nat -> adds_all (ih im * iw im) (order im).


(** What is kept of a pair of images: with exact numbers, and as computed. *)
Definition exact_entry (p : image * image) (d : tdata) : Prop :=
  exists r, get_int_imgs [fst p; snd p] = Ok r /\ d = temporal_summary r.
Definition float_entry (order : image -> stree) (p : image * image) (f : ftdata) : Prop :=
  temporal_entry order [fst p; snd p] = Ok f.

(** All entries of a data set. *)
Definition every {A} (K : A -> Prop) (d : dict pyfloat (dict pyfloat A)) : Prop :=
  Forall (fun e => Forall (fun x => K (snd x)) (snd e)) d.

(** Correctly rounded; within the error bound. *)
Definition near_mean (x : pyfloat) (q : Q) : Prop := reads_as q x.
Definition near_var (b : Z) (x : pyfloat) (q : Q) : Prop := within (variance_error b) q x.

(** The same exception, or related results. *)
Definition out2 {A B} (R : A -> B -> Prop) (x : res A) (y : res B) : Prop :=
  (exists e, x = Err e /\ y = Err e) \/ (exists a b, x = Ok a /\ y = Ok b /\ R a b).
