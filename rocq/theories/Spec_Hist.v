(** Words used in the statements about histograms, filter and compression. *)
From Coq Require Import List Bool Arith ZArith QArith.
From Verif Require Import Base_Prelude Base_Sum.
Import ListNotations.
Open Scope Z_scope.

(** [m] is the smallest, or the largest, element. *)
Definition is_min (m : Z) (l : list Z) : Prop := In m l /\ forall v, In v l -> m <= v.
Definition is_max (m : Z) (l : list Z) : Prop := In m l /\ forall v, In v l -> v <= m.

(** Number of elements satisfying a condition. *)
Fixpoint how_many {A} (f : A -> bool) (l : list A) : nat :=
  match l with
  | [] => 0
  | x :: l' => if f x then S (how_many f l') else how_many f l'
  end.

(** Elements in [a, b). *)
Definition between (a b : Z) (l : list Z) : nat := how_many (fun v => (a <=? v) && (v <? b)) l.

(** The reference algorithm of the comment in Histogram1288:
    H = zeros(n); for y in the image: H[(y - ymin) / W] += 1. *)
Fixpoint bump (k : nat) (H : list Z) : list Z :=
  match H, k with
  | [], _ => []
  | x :: H', O => (x + 1) :: H'
  | x :: H', S k' => x :: bump k' H'
  end.
Definition reference_histogram (ymin W : Z) (n : nat) (y : list Z) : list Z :=
  fold_left (fun H v => bump (Z.to_nat ((v - ymin) / W)) H) y (repeat 0 n).

(** The sum of the dim x dim pixels whose top left corner is (i, j). *)
Definition block_sum (dim : nat) (f : nat -> nat -> Z) (i j : nat) : Z :=
  sumz2 dim dim (fun a b => f (i + a)%nat (j + b)%nat).

(** The unmasked entries of a row. *)
Fixpoint unmasked (data : list Z) (mask : list bool) : list Z :=
  match data, mask with
  | v :: data', b :: mask' => if b then unmasked data' mask' else v :: unmasked data' mask'
  | _, _ => []
  end.

(** The rows of unmasked entries that are not empty, in order. *)
Fixpoint kept_rows (data : list (list Z)) (masks : list (list bool)) : list (list Z) :=
  match data, masks with
  | d :: data', m :: masks' =>
      match unmasked d m with
      | [] => kept_rows data' masks'
      | r => r :: kept_rows data' masks'
      end
  | _, _ => []
  end.

(** Number of pixels of a h x w image satisfying a condition. *)
Definition pixels_with (h w : nat) (P : nat -> nat -> bool) : Z :=
  sumz2 h w (fun r c => if P r c then 1 else 0).

(** [t] is the mean of the h x w image, truncated towards zero. *)
Definition truncated_mean (t : Z) (h w : nat) (f : nat -> nat -> Z) : Prop :=
  let mean := (inject_Z (sumz2 h w f) / qn (h * w))%Q in
  ((0 <= mean)%Q -> (inject_Z t <= mean)%Q /\ (mean < inject_Z (t + 1))%Q) /\
  ((mean <= 0)%Q -> (inject_Z (t - 1) < mean)%Q /\ (mean <= inject_Z t)%Q).

(** The lists [bins], [values] are the accumulated histogram, in percent, of the
    absolute deviation of the image [f] (in units of k) from its truncated mean. *)
Definition accumulated_histogram (h w : nat) (f : nat -> nat -> Z) (k : Q)
    (bins values : list Q) : Prop :=
  exists t, truncated_mean t h w f /\
  length values = length bins /\ (1 <= length bins)%nat /\
  (forall i, (i < length bins)%nat ->
     (nth i values 0 ==
      100 * inject_Z (pixels_with h w (fun r c =>
                        Qle_bool (nth i bins 0) (inject_Z (Z.abs (f r c - t)) / k)))
      / qn (h * w))%Q /\
     (0 < nth i values 0)%Q) /\
  (nth 0 values 0 == 100)%Q /\
  (forall i j, (i < j < length bins)%nat -> (nth j values 0 <= nth i values 0)%Q /\
                                           (nth i bins 0 < nth j bins 0)%Q).

(** Mean, standard deviation and normal density of a list of integers. *)
From Coq Require Import Reals.
Fixpoint lsumR (l : list R) : R := match l with [] => 0%R | x :: l' => (x + lsumR l')%R end.
Definition mean_R (l : list Z) : R := (IZR (lsumz l) / INR (length l))%R.
Definition std_R (l : list Z) : R :=
  sqrt (lsumR (map (fun v => (IZR v - mean_R l) ^ 2) l) / INR (length l))%R.
Definition gauss (mu sigma x : R) : R :=
  (exp (- (x - mu) ^ 2 / (2 * sigma ^ 2)) / (sigma * sqrt (2 * PI)))%R.

(** The lists [bins], [values] count the pixels of a rational image [g] in consecutive
    intervals of one width, covering every pixel. *)
Definition counts_pixels (h w : nat) (g : nat -> nat -> Q) (bins : list Q) (values : list Z) : Prop :=
  exists width, (0 < width)%Q /\ length values = length bins /\ (1 <= length bins <= 256)%nat /\
  (forall i, (S i < length bins)%nat -> (nth (S i) bins 0 == nth i bins 0 + width)%Q) /\
  (forall i, (i < length bins)%nat ->
     nth i values 0 = pixels_with h w (fun r c =>
       Qle_bool (nth i bins 0%Q) (g r c) && negb (Qle_bool (nth i bins 0%Q + width)%Q (g r c)))) /\
  lsumz values = Z.of_nat (h * w).
