(** What a decimal literal denotes, independent of how it is read. *)
From Coq Require Import Ascii String List Bool ZArith QArith Reals Qreals.
From Flocq Require Import Core.
From Verif Require Import Base_Str Base_Num.
Import ListNotations.
Open Scope Z_scope.

(** The ten digit characters. *)
Inductive digit : ascii -> Z -> Prop :=
| dg0 : digit "0" 0 | dg1 : digit "1" 1 | dg2 : digit "2" 2 | dg3 : digit "3" 3
| dg4 : digit "4" 4 | dg5 : digit "5" 5 | dg6 : digit "6" 6 | dg7 : digit "7" 7
| dg8 : digit "8" 8 | dg9 : digit "9" 9.

(** A string spelling the digits [ds]; single underscores may separate digits. *)
Inductive spells : str -> list Z -> Prop :=
| sp_one c d : digit c d -> spells [c] [d]
| sp_cons c d s ds : digit c d -> spells s ds -> spells (c :: s) (d :: ds)
| sp_under c d s ds : digit c d -> spells s ds -> spells (c :: "_"%char :: s) (d :: ds).

(** Positional value. *)
Fixpoint value (ds : list Z) : Z :=
  match ds with
  | [] => 0
  | d :: ds' => d * 10 ^ Z.of_nat (length ds') + value ds'
  end.

(** Sign prefix; [-1] for '-'. *)
Inductive sign : str -> Z -> Prop :=
| sg_none : sign [] 1
| sg_plus : sign ["+"%char] 1
| sg_minus : sign ["-"%char] (-1).

(** Digits before and after the decimal point. *)
Inductive mantissa : str -> list Z -> list Z -> Prop :=
| mt_int s ds : spells s ds -> mantissa s ds []
| mt_dot s ds : spells s ds -> mantissa (s ++ ["."%char]) ds []
| mt_frac s ds : spells s ds -> mantissa ("."%char :: s) [] ds
| mt_both s ds t es : spells s ds -> spells t es -> mantissa (s ++ "."%char :: t) ds es.

Inductive exponent : str -> Z -> Prop :=
| ex_none : exponent [] 0
| ex_some c g sg s ds : c = "e"%char \/ c = "E"%char -> sign g sg -> spells s ds ->
                      exponent (c :: g ++ s) (sg * value ds).

(** 10^e for any integer e. *)
Definition ten_to (e : Z) : Q := Qpower 10 e.

(** The literal [t] denotes the rational number [q]. *)
Definition denotes (t : str) (q : Q) : Prop :=
  exists g m x sg ip fp e,
    t = g ++ m ++ x /\ sign g sg /\ mantissa m ip fp /\ exponent x e /\
    (q == inject_Z (sg * value (ip ++ fp)) * ten_to (e - Z.of_nat (length fp)))%Q.

(** Words for infinities and NaN (any letter case). *)
Definition special (t : str) (r : pyfloat) : Prop :=
  exists g w sg, t = g ++ w /\ sign g sg /\
  ((lower w = lit "inf" \/ lower w = lit "infinity") /\ r = FInf (sg <? 0) \/
   lower w = lit "nan" /\ r = FNan).

(** The set of binary64 numbers: multiples of a power of two with a 53-bit
    mantissa and exponent at least -1074 (no upper bound). *)
Definition binary64 (x : R) : Prop :=
  exists m e, (x = IZR m * bpow radix2 e)%R /\ Z.abs m < 2 ^ 53 /\ -1074 <= e.

(** [x] is nearest to [q] among the binary64 numbers; between two equally near
    ones the one with the even mantissa. *)
Definition nearest_even (q x : R) : Prop :=
  x = round radix2 (FLT_exp (-1074) 53) ZnearestE q.

(** What reading the number [q] yields. *)
Definition reads_as (q : Q) (r : pyfloat) : Prop :=
  (exists v, r = FFin v /\ nearest_even (Q2R q) (Q2R v) /\
             (Rabs (Q2R v) < bpow radix2 1024)%R) \/
  (exists neg x, r = FInf neg /\ nearest_even (Q2R q) x /\
             (bpow radix2 1024 <= Rabs x)%R /\ (neg = true <-> (x < 0)%R)).
