(** What the operation points should be. *)
From Coq Require Import List Bool Arith ZArith QArith Qabs.
From Verif Require Import Base_Prelude Base_Num Base_Order Model_Points Spec_Dataset.
Import ListNotations.
Open Scope nat_scope.

(** A limit: the argument if one other than 0 was given, else the camera's. *)
Definition limit (given : option pyfloat) (default x : pyfloat) : Prop :=
  (given = Some x /\ feq x fzero = false) \/
  (x = default /\ (given = None \/ exists z, given = Some z /\ feq z fzero = true)).

(** Darkness. *)
Definition no_light (size : nat) (r : radiance) : Prop := r = repeat (FFin 0) size.

(** Uniform light of one strength. *)
Definition uniform (size : nat) (v : pyfloat) (r : radiance) : Prop := r = repeat v size.

(** The [i]-th of [n] numbers evenly spaced from [lo] to [hi]. *)
Definition even (lo hi : Q) (n i : nat) : Q :=
  (lo + inject_Z (Z.of_nat i) / inject_Z (Z.of_nat (n - 1)) * (hi - lo))%Q.

(** Limits between which [n] exposures can be told apart with one decimal: at
    least 0.2 between two of them (and none above 2^38 ns, some 274 s). *)
Definition apart (lo hi : Q) (n : nat) : Prop :=
  2 <= n /\ (Qabs lo <= inject_Z (2 ^ 38))%Q /\ (Qabs hi <= inject_Z (2 ^ 38))%Q /\
  (lo + (1 # 5) * inject_Z (Z.of_nat (n - 1)) <= hi)%Q.

(** [x] is [t] rounded to an integer. *)
Definition rounded (t x : pyfloat) : Prop :=
  exists q z, t = FFin q /\ x = FFin (inject_Z z) /\ (Qabs (q - inject_Z z) <= 1 # 2)%Q.
