(** Property C09: numeric header fields. *)
From Coq Require Import Ascii String List Bool Arith ZArith QArith Reals Qreals Lia Lra.
From Flocq Require Import Core.
From Verif Require Import Base_Prelude Base_Str Base_Num Model_Parser Spec_Num Proofs_Round Proofs_Num.
Import ListNotations.
Open Scope Z_scope.

(** Example literals. *)
Example ex_denotes : denotes (lit "-1_2.50E+1") (-125 # 1)%Q.
Proof.
  exists ["-"%char], (lit "1_2.50"), (lit "E+1"), (-1), [1; 2], [5; 0], 1.
  split; [reflexivity|]. split; [constructor|]. split.
  - apply (mt_both (lit "1_2") [1; 2] (lit "50") [5; 0]).
    + apply sp_under; [constructor|]. apply sp_one. constructor.
    + apply sp_cons; [constructor|]. apply sp_one. constructor.
  - split.
    + apply (ex_some "E" ["+"%char] 1 (lit "1") [1]); auto; try constructor. constructor.
    + vm_compute. reflexivity.
Qed.

Example ex_reads : py_float (lit "0.1") = Some (FFin (3602879701896397 # 36028797018963968)).
Proof. vm_compute. reflexivity. Qed.

Example ex_over : py_float (lit "-1e309") = Some (FInf true).
Proof. vm_compute. reflexivity. Qed.

(** C09: a decimal literal is read as the nearest double, ties to even, and as an
    infinity of its sign when that double would be out of range. *)
Theorem C09_literal_read_to_nearest t q :
  denotes t q -> exists r, py_float t = Some r /\ reads_as q r.
Proof. exact (literal_reads t q). Qed.
Print Assumptions C09_literal_read_to_nearest.

(** [nearest_even] is a nearest binary64 number. *)
Theorem C09_nearest_is_nearest q x :
  nearest_even q x ->
  binary64 x /\ forall y, binary64 y -> (Rabs (x - q) <= Rabs (y - q))%R.
Proof. exact (nearest_even_is_nearest q x). Qed.
Print Assumptions C09_nearest_is_nearest.

(** A literal denotes one number only, so "the" number read is well defined. *)
Theorem C09_denotation_unique t q1 q2 : denotes t q1 -> denotes t q2 -> (q1 == q2)%Q.
Proof. exact (denotes_unique t q1 q2). Qed.
Print Assumptions C09_denotation_unique.

(** Exactly the decimal literals and the words for infinity and NaN are accepted. *)
Theorem C09_accepted t :
  (exists r, py_float t = Some r) <-> (exists r, special t r) \/ (exists q, denotes t q).
Proof. exact (literal_iff t). Qed.
Print Assumptions C09_accepted.

(** Two literals are the same dictionary key iff they are read as the same double. *)
Theorem C09_same_key t1 t2 q1 q2 r1 r2 :
  denotes t1 q1 -> denotes t2 q2 -> py_float t1 = Some r1 -> py_float t2 = Some r2 ->
  (feq r1 r2 = true <-> exists r, reads_as q1 r /\ reads_as q2 r).
Proof. exact (same_key t1 t2 q1 q2 r1 r2). Qed.
Print Assumptions C09_same_key.

Example ex_same_key :
  exists r1 r2, py_float (lit "0.1") = Some r1 /\
  py_float (lit "1.00000000000000000001e-1") = Some r2 /\ feq r1 r2 = true.
Proof. do 2 eexists. vm_compute. repeat split. Qed.
