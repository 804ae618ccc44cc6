(** Python numbers read from and written to text: [float(s)], [int(s)],
    ['%.kf' % x], ['%i' % n], and rounding helpers.  Definitions only. *)
From Coq Require Import Ascii String List Bool Arith ZArith QArith.
From Verif Require Import Base_Prelude Base_Str.
Import ListNotations.
Open Scope Z_scope.

(** A Python float as far as the text interface is concerned: a finite value
    (the sign of zero is not distinguished, [-0.0 == 0.0]), an infinity
    ([true] = negative) or NaN. *)
Inductive pyfloat : Type :=
| FFin (q : Q)
| FInf (neg : bool)
| FNan.

(** Python [==] on floats. *)
Definition feq (a b : pyfloat) : bool :=
  match a, b with
  | FFin x, FFin y => Qeq_bool x y
  | FInf x, FInf y => Bool.eqb x y
  | _, _ => false
  end.

Definition fzero : pyfloat := FFin 0.

(** Integer nearest to [n/d] ([d > 0]), ties to even. *)
Definition zdiv_rne (n d : Z) : Z :=
  let q := n / d in
  let r := n mod d in
  match Z.compare (2 * r) d with
  | Lt => q
  | Gt => q + 1
  | Eq => if Z.even q then q else q + 1
  end.

(** [np.rint] of an exact value. *)
Definition q_rint (q : Q) : Z := zdiv_rne (Qnum q) (Zpos (Qden q)).

(** Exponent [e] with 2^(e-1) <= n/d < 2^e, for positive [n], [d]. *)
Definition mag_q (n d : Z) : Z :=
  let e0 := Z.log2 n - Z.log2 d in
  let below := if 0 <=? e0 then n <? d * 2 ^ e0 else n * 2 ^ (- e0) <? d in
  if below then e0 else e0 + 1.

(** [m * 2^e] as a reduced fraction. *)
Definition q_of_me (m e : Z) : Q :=
  if 0 <=? e then Qmake (m * 2 ^ e) 1 else Qred (Qmake m (Z.to_pos (2 ^ (- e)))).

(** Round a rational to the nearest binary64 number, ties to even, with gradual
    underflow (precision 53, minimal exponent -1074) and overflow to infinity. *)
Definition rnd64 (q : Q) : pyfloat :=
  let n := Qnum q in
  let d := Zpos (Qden q) in
  if n =? 0 then FFin 0
  else
    let e := Z.max (mag_q (Z.abs n) d - 53) (-1074) in
    let m := if 0 <=? e then zdiv_rne n (d * 2 ^ e)
             else zdiv_rne (n * 2 ^ (- e)) d in
    if 2 ^ 1024 <=? Z.abs m * 2 ^ Z.max e 0
    then FInf (n <? 0)
    else FFin (q_of_me m e).

(** Value of a decimal digit character. *)
Definition digit_val (c : ascii) : option Z :=
  let n := nat_of_ascii c in
  if ((48 <=? n)%nat && (n <=? 57)%nat)%bool then Some (Z.of_nat n - 48) else None.

(** [digitpart ::= digit (["_"] digit)*]; returns the value accumulated on top of
    [acc] and the number of digits on top of [n].  [prev]: the previous character
    was a digit. *)
Fixpoint dpart_aux (prev : bool) (acc : Z) (n : nat) (s : str) : option (Z * nat) :=
  match s with
  | [] => if prev then Some (acc, n) else None
  | c :: s' =>
      match digit_val c with
      | Some d => dpart_aux true (10 * acc + d) (S n) s'
      | None => if (chr_eqb c "_" && prev)%bool then dpart_aux false acc n s' else None
      end
  end.
Definition dpart (acc : Z) (s : str) : option (Z * nat) := dpart_aux false acc 0 s.

Definition take_sign (s : str) : bool * str :=
  match s with
  | c :: s' => if chr_eqb c "-" then (true, s')
               else if chr_eqb c "+" then (false, s') else (false, s)
  | [] => (false, [])
  end.

(** Python [int(s)] for a token without surrounding white space. *)
Definition py_int (s : str) : option Z :=
  let '(neg, s') := take_sign s in
  match dpart 0 s' with
  | Some (v, _) => Some (if neg then - v else v)
  | None => None
  end.

(** Splits at the first character satisfying [p]. *)
Fixpoint cut (p : ascii -> bool) (s : str) : str * option str :=
  match s with
  | [] => ([], None)
  | c :: s' => if p c then ([], Some s')
               else let '(a, b) := cut p s' in (c :: a, b)
  end.

(** Mantissa: value and number of fractional digits. *)
Definition py_mantissa (s : str) : option (Z * nat) :=
  match cut (fun c => chr_eqb c ".") s with
  | (a, None) => match dpart 0 a with Some (v, _) => Some (v, 0%nat) | None => None end
  | (a, Some b) =>
      match a, b with
      | [], [] => None
      | [], _ => dpart 0 b
      | _, [] => match dpart 0 a with Some (v, _) => Some (v, 0%nat) | None => None end
      | _, _ => match dpart 0 a with Some (v, _) => dpart v b | None => None end
      end
  end.

Definition pow10_q (e : Z) : Q :=
  if 0 <=? e then Qmake (10 ^ e) 1 else Qmake 1 (Z.to_pos (10 ^ (- e))).

(** Exact decimal value of an unsigned numeral. *)
Definition py_decimal (s : str) : option Q :=
  let '(m, eo) := cut (fun c => chr_eqb c "e" || chr_eqb c "E")%bool s in
  match py_mantissa m with
  | None => None
  | Some (v, f) =>
      match eo with
      | None => Some (inject_Z v * pow10_q (- Z.of_nat f))%Q
      | Some es =>
          match py_int es with
          | Some e => Some (inject_Z v * pow10_q (e - Z.of_nat f))%Q
          | None => None
          end
      end
  end.

(** Python [float(s)] for a token without surrounding white space; [None] is
    ValueError. *)
Definition py_float (s : str) : option pyfloat :=
  let '(neg, s') := take_sign s in
  let l := lower s' in
  if (str_eqb l (lit "inf") || str_eqb l (lit "infinity"))%bool then Some (FInf neg)
  else if str_eqb l (lit "nan") then Some FNan
  else match py_decimal s' with
       | Some q => Some (rnd64 (if neg then (- q)%Q else q))
       | None => None
       end.

(** ** Printing *)

Definition digit_chr (d : Z) : ascii := ascii_of_nat (48 + Z.to_nat d).

(** Decimal digits of [n >= 0], least significant first. *)
Fixpoint dec_rev (fuel : nat) (n : Z) : str :=
  match fuel with
  | O => []
  | S f => digit_chr (n mod 10) ::
           (if n / 10 =? 0 then [] else dec_rev f (n / 10))
  end.
Definition dec (n : Z) : str := rev (dec_rev (S (Z.to_nat (Z.log2 n))) n).

(** Exactly [k] digits, zero padded, least significant first. *)
Fixpoint decpad_rev (k : nat) (n : Z) : str :=
  match k with
  | O => []
  | S k' => digit_chr (n mod 10) :: decpad_rev k' (n / 10)
  end.

(** ['%i' % n] *)
Definition fmt_int (n : Z) : str :=
  if n <? 0 then ("-"%char :: dec (- n)) else dec n.

(** ['%.kf' % q] for [k >= 1]: correctly rounded (ties to even on the exact
    value), sign kept even when the digits are all zero. *)
Definition fmt_fixed (k : nat) (q : Q) : str :=
  let t := 10 ^ Z.of_nat k in
  let m := zdiv_rne (Z.abs (Qnum q) * t) (Zpos (Qden q)) in
  let body := dec (m / t) ++ "."%char :: rev (decpad_rev k (m mod t)) in
  if Qnum q <? 0 then "-"%char :: body else body.
