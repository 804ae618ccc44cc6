(** Grey-scale images and src/emva1288/process/routines.py:get_int_imgs.

    numpy int64 arithmetic is modelled with its wrap-around modulo 2^64; np.mean
    is the exact rational mean (floating-point rounding is not modelled). *)
From Coq Require Import List Bool Arith ZArith QArith.
From Verif Require Import Base_Prelude Base_Sum.
Import ListNotations.
Open Scope Z_scope.

(** A 2-D integer array: rows, columns, and the value at (row, column). *)
Record image := mkImg { ih : nat; iw : nat; px : nat -> nat -> Z }.

Definition shape (im : image) : nat * nat := (ih im, iw im).

Definition shape_eqb (a b : nat * nat) : bool :=
  ((fst a =? fst b) && (snd a =? snd b))%nat%bool.

(** Value kept by an int64 cell. *)
Definition wrap64 (z : Z) : Z := (z + 2 ^ 63) mod 2 ^ 64 - 2 ^ 63.

(** np.mean of an integer image (defined for non-empty images; on an empty image
    numpy gives NaN, the model 0). *)
Definition img_mean (h w : nat) (f : nat -> nat -> Z) : Q :=
  (inject_Z (sumz2 h w f) / qn (h * w))%Q.

(** np.sum of an int64 image. *)
Definition img_sum (im : image) : Z := wrap64 (sumz2 (ih im) (iw im) (px im)).

(** routines.py:32-69, the returned dictionary. *)
Record int_imgs := mkInt {
  ii_L : nat;
  ii_sum : image;
  ii_pvar : image;
  ii_dmean : Q
}.

(** routines.py:53-62, one round of the loop.  State: sum_, sq_, dmean_, oi. *)
Definition int_step (h w : nat)
    (st : (nat -> nat -> Z) * (nat -> nat -> Z) * Q * option (nat -> nat -> Z))
    (im : image) :=
  let '(sum, sq, dmean, old) := st in
  let i := fun r c => wrap64 (px im r c) in
  let sum' := fun r c => wrap64 (sum r c + i r c) in
  let sq' := fun r c => wrap64 (sq r c + wrap64 (i r c * i r c)) in
  let dmean' := match old with
                | None => dmean
                | Some o => (dmean + (img_mean h w i - img_mean h w o))%Q
                end in
  (sum', sq', dmean', Some i).

(** routines.py:32-69 get_int_imgs.  All images must have the shape of the first
    one (numpy would broadcast or raise ValueError: modelled as ValueError).  For an
    empty list numpy returns the integer 0 for both images: here an empty image. *)
Definition get_int_imgs (imgs : list image) : res int_imgs :=
  let h := match imgs with im :: _ => ih im | [] => 0%nat end in
  let w := match imgs with im :: _ => iw im | [] => 0%nat end in
  if negb (forallb (fun im => shape_eqb (shape im) (h, w)) imgs) then Err ValueError
  else
    let L := Z.of_nat (length imgs) in
    let '(sum, sq, dmean, _) :=
      fold_left (int_step h w) imgs (fun _ _ => 0, fun _ _ => 0, 0%Q, None) in
    let pvar := fun r c =>
      wrap64 (L * wrap64 (wrap64 (L * sq r c) - wrap64 (sum r c * sum r c))) in
    Ok (mkInt (length imgs) (mkImg h w sum) (mkImg h w pvar) dmean).
