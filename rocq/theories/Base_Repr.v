(** Python [str(x)] of a float and of an integer.  Definitions only.
    The text of a float is the shortest decimal with at most 17 significant
    digits that [float] reads back as the same number, in fixed notation for
    decimal exponents -4..15 and in scientific notation otherwise. *)
From Coq Require Import Ascii String List Bool Arith ZArith QArith.
From Verif Require Import Base_Prelude Base_Str Base_Num.
Import ListNotations.
Open Scope Z_scope.

(** Exponent [e] with 10^(e-1) <= n/d < 10^e, for positive [n], [d]. *)
Definition mag10_q (n d : Z) : Z :=
  let e0 := Z.of_nat (length (dec n)) - Z.of_nat (length (dec d)) in
  let below := if 0 <=? e0 then n <? d * 10 ^ e0 else n * 10 ^ (- e0) <? d in
  if below then e0 else e0 + 1.

(** [n/d * 10^j], rounded to an integer. *)
Definition scaled (n d j : Z) : Z :=
  if 0 <=? j then zdiv_rne (n * 10 ^ j) d else zdiv_rne n (d * 10 ^ (- j)).

Definition zeros (n : Z) : str := repeat "0"%char (Z.to_nat n).

(** The number 0.ds * 10^e, [ds] the digits without leading zero. *)
Definition layout (ds : str) (e : Z) : str :=
  let k := Z.of_nat (length ds) in
  if (-4 <? e) && (e <=? 16)
  then if e <=? 0 then lit "0." ++ zeros (- e) ++ ds
       else if k <=? e then ds ++ zeros (e - k) ++ lit ".0"
       else firstn (Z.to_nat e) ds ++ "."%char :: skipn (Z.to_nat e) ds
  else match ds with
       | [] => []
       | d :: r =>
           d :: (if (length r =? 0)%nat then [] else "."%char :: r)
           ++ lit (if e - 1 <? 0 then "e-" else "e+")
           ++ (let x := dec (Z.abs (e - 1)) in
               if (length x <? 2)%nat then "0"%char :: x else x)
       end.

(** Texts with [k] significant digits next to [n/d]: the nearest one first. *)
Definition candidates (n d : Z) (k : nat) : list str :=
  let e := mag10_q n d in
  let D := scaled n d (Z.of_nat k - e) in
  flat_map (fun m =>
    if m =? 10 ^ Z.of_nat k then [layout (dec (10 ^ Z.of_nat (k - 1))) (e + 1)]
    else if (10 ^ Z.of_nat (k - 1) <=? m) && (m <? 10 ^ Z.of_nat k)
    then [layout (dec m) e] else []) [D; D - 1; D + 1].

Definition reads_back (q : Q) (s : str) : bool :=
  match py_float s with Some r => feq r (FFin q) | None => false end.

(** The last alternative (all digits of the exact value) is never taken: 17
    digits are enough for a binary64 number. *)
Definition repr_finite (q : Q) : str :=
  let n := Qnum q in
  let d := Zpos (Qden q) in
  if n =? 0 then lit "0.0"
  else
    let texts := flat_map (candidates (Z.abs n) d) (seq 1 17) in
    let signed := if n <? 0 then map (cons "-"%char) texts else texts in
    match find (reads_back q) signed with
    | Some s => s
    | None => fmt_fixed 1074 q
    end.

(** [str(x)] for a Python or NumPy float. *)
Definition py_repr (x : pyfloat) : str :=
  match x with
  | FFin q => repr_finite q
  | FInf neg => if neg then lit "-inf" else lit "inf"
  | FNan => lit "nan"
  end.
