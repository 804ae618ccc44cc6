(** Arithmetic of NumPy float64 scalars: every operation is the exact one
    followed by rounding to binary64 (signed zeros are not distinguished).
    Definitions only. *)
From Coq Require Import List Bool Arith ZArith QArith Qabs.
From Verif Require Import Base_Prelude Base_Num Base_Order.
Import ListNotations.
Open Scope Z_scope.

Definition fneg (a : pyfloat) : pyfloat :=
  match a with FFin x => FFin (- x) | FInf n => FInf (negb n) | FNan => FNan end.

Definition fadd (a b : pyfloat) : pyfloat :=
  match a, b with
  | FFin x, FFin y => rnd64 (x + y)
  | FInf n, FFin _ => FInf n
  | FFin _, FInf n => FInf n
  | FInf n, FInf m => if Bool.eqb n m then FInf n else FNan
  | _, _ => FNan
  end.

Definition fsub (a b : pyfloat) : pyfloat := fadd a (fneg b).

Definition finf_mul (n : bool) (y : Q) : pyfloat :=
  if Qnum y =? 0 then FNan else FInf (xorb n (Qnum y <? 0)).

Definition fmul (a b : pyfloat) : pyfloat :=
  match a, b with
  | FFin x, FFin y => rnd64 (x * y)
  | FInf n, FFin y => finf_mul n y
  | FFin x, FInf n => finf_mul n x
  | FInf n, FInf m => FInf (xorb n m)
  | _, _ => FNan
  end.

(** NumPy division: no exception for a zero divisor. *)
Definition fdiv (a b : pyfloat) : pyfloat :=
  match a, b with
  | FFin x, FFin y =>
      if Qnum y =? 0
      then if Qnum x =? 0 then FNan else FInf (Qnum x <? 0)
      else rnd64 (x / y)
  | FInf n, FFin y => FInf (xorb n (Qnum y <? 0))
  | FFin _, FInf _ => FFin 0
  | _, _ => FNan
  end.

Definition fabs (a : pyfloat) : pyfloat :=
  match a with FFin x => FFin (Qabs x) | FInf _ => FInf false | FNan => FNan end.

(** [np.rint] *)
Definition frint (a : pyfloat) : pyfloat :=
  match a with FFin x => FFin (inject_Z (q_rint x)) | _ => a end.

(** [np.maximum], [np.minimum]: NaN wins. *)
Definition fmaximum (a b : pyfloat) : pyfloat :=
  match a, b with FNan, _ | _, FNan => FNan | _, _ => if flt a b then b else a end.
Definition fminimum (a b : pyfloat) : pyfloat :=
  match a, b with FNan, _ | _, FNan => FNan | _, _ => if flt b a then b else a end.

(** [np.clip(x, lo, hi)] *)
Definition fclip (lo hi x : pyfloat) : pyfloat := fminimum (fmaximum x lo) hi.

(** Conversion of an integer. *)
Definition f_int (n : Z) : pyfloat := rnd64 (inject_Z n).

(** [x.astype(np.uintN)]: truncation; outside the range of the type the result is
    not specified ([None]). *)
Definition as_uint (bits : Z) (x : pyfloat) : option Z :=
  match x with
  | FFin q => let n := Z.quot (Qnum q) (Zpos (Qden q)) in
              if (0 <=? n) && (n <? 2 ^ bits) then Some n else None
  | _ => None
  end.

(** Replaces the last element. *)
Fixpoint set_last {A} (x : A) (l : list A) : list A :=
  match l with
  | [] => []
  | [_] => [x]
  | a :: l' => a :: set_last x l'
  end.

(** [np.linspace(start, stop, num)] *)
Definition linspace (start stop : pyfloat) (num : nat) : list pyfloat :=
  let idx := map (fun i => f_int (Z.of_nat i)) (seq 0 num) in
  let div := f_int (Z.of_nat (num - 1)) in
  let delta := fsub stop start in
  let step := fdiv delta div in
  let y := if (num <=? 1)%nat then map (fun i => fmul i delta) idx
           else if feq step fzero then map (fun i => fmul (fdiv i div) delta) idx
           else map (fun i => fmul i step) idx in
  let y := map (fun v => fadd v start) y in
  if (num <=? 1)%nat then y else set_last stop y.
