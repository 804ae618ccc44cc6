(** What the automatic search of settings is to find. *)
From Coq Require Import List Bool Arith ZArith QArith.
From Verif Require Import Base_Prelude Base_Num Base_Sum Model_Camera Spec_Camera.
Import ListNotations.
Open Scope Z_scope.

(** The first element that is good, or the last element. *)
Definition first_good {A} (xs : list A) (good : nat -> Prop) (g : A) : Prop :=
  exists k, nth_error xs k = Some g /\ (forall j, (j < k)%nat -> ~ good j) /\
            (good k \/ S k = length xs).

Fixpoint differences (a b : list Z) : list Z :=
  match a, b with x :: a', y :: b' => (x - y) :: differences a' b' | _, _ => [] end.

(** The standard deviation exceeds 1/2: n * (sum of squares) - (sum)^2 > n^2 / 4. *)
Definition spread_over_half (d : list Z) : Prop :=
  let n := Z.of_nat (length d) in
  n * n < 4 * (n * lsumz (map (fun x => x * x) d) - lsumz d * lsumz d).

(** Number of pixels that are not zero. *)
Definition nonzeros (img : list Z) : Z := Z.of_nat (length (filter (fun z => negb (z =? 0)) img)).

(** The camera with another gain / offset. *)
Definition with_K (c : camera) (k : pyfloat) : camera :=
  mkCam (c_bits c) (c_height c) (c_width c) (c_exposure c) (c_Ks c) k
        (c_blackoffsets c) (c_blackoffset c) (c_u_esat c) (c_dsnu c).
Definition with_offset (c : camera) (b : pyfloat) : camera :=
  mkCam (c_bits c) (c_height c) (c_width c) (c_exposure c) (c_Ks c) (c_K c)
        (c_blackoffsets c) b (c_u_esat c) (c_dsnu c).

(** The two images taken with the j-th gain differ by more than half a grey value
    (standard deviation). *)
Definition gain_suffices (c : camera) (ds : nat -> draws) (j : nat) : Prop :=
  exists k z1 z2, nth_error (c_Ks c) j = Some k /\
    grab (with_K c k) (ds (2 * j)%nat) = Ok (map Some z1) /\
    grab (with_K c k) (ds (2 * j + 1)%nat) = Ok (map Some z2) /\
    spread_over_half (differences z1 z2).

(** At most 0.5 % of the pixels taken with the j-th offset are zero ([strict]:
    less than 0.5 %). *)
Definition offset_suffices (strict : bool) (c : camera) (ds : nat -> draws) (j : nat) : Prop :=
  exists b z, nth_error (c_blackoffsets c) j = Some b /\
    grab (with_offset c b) (ds j) = Ok (map Some z) /\
    let pixels := Z.of_nat (c_width c * c_height c) in
    if strict then 199 * pixels < 200 * nonzeros z else 199 * pixels <= 200 * nonzeros z.
