(** C93: the quantisation of the simulated camera. *)
From Coq Require Import ZArith QArith Reals Qreals Lia Lra.
From Coquelicot Require Import Coquelicot.
From Flocq Require Import Core.
From Verif Require Import Base_Prelude Base_Num Base_Float Model_Images Model_Camera Model_Digit Spec_Digit Proofs_Digit.
Open Scope R_scope.

Theorem C93_mean :
  forall bits K e offset, 0 <= K * e + offset <= IZR (img_max bits) ->
  mean_over_draw (fun u => IZR (digitise bits K e offset u)) (K * e + offset).
Proof. exact digit_mean. Qed.
Print Assumptions C93_mean.

Theorem C93_variance :
  forall bits K e offset, 0 <= K * e + offset <= IZR (img_max bits) ->
  variance_over_draw (fun u => IZR (digitise bits K e offset u)) (K * e + offset)
    (frac (K * e + offset) * (1 - frac (K * e + offset))).
Proof. exact digit_variance. Qed.
Print Assumptions C93_variance.

Theorem C93_average :
  forall m : Z, is_RInt (fun y => frac y * (1 - frac y)) (IZR m) (IZR m + 1) (1 / 6).
Proof. exact average_sixth. Qed.
Print Assumptions C93_average.

(** The digital values of the binary64 model, where its sums are exact. *)
Theorem C93_same :
  forall c t l d n u e k b q,
  (c_bits c <= 53)%nat -> c_K c = FFin k -> c_blackoffset c = FFin b ->
  fclip fzero (c_u_esat c) (fadd (f_int (wrap64 (t + l))) (fadd d n)) = FFin e ->
  fadd (fadd (fmul (FFin k) (FFin e)) (FFin u)) (FFin b) = FFin q ->
  (q == k * e + u + b)%Q ->
  pixel c t l d n (FFin u) = Some (digitise (c_bits c) (Q2R k) (Q2R e) (Q2R b) (Q2R u)).
Proof. exact pixel_digitise. Qed.
Print Assumptions C93_same.

(** The 1/12 the results subtract for the quantisation is not what the camera adds. *)
Theorem C93_twelfth_refuted : exists bits K e offset,
  0 <= K * e + offset <= IZR (img_max bits) /\
  forall v, variance_over_draw (fun u => IZR (digitise bits K e offset u)) (K * e + offset) v -> v <> 1 / 12.
Proof. exact not_twelfth. Qed.
Print Assumptions C93_twelfth_refuted.

Example C93_case : 0 <= (1 / 2) * 21 + 3 <= IZR (img_max 8).
Proof. change (img_max 8) with 255%Z. lra. Qed.
Example C93_same_case :
  fclip fzero (FFin 100) (fadd (f_int (wrap64 (5 + 7))) (fadd (FFin (1 # 2)) (FFin 0))) = FFin (25 # 2) /\
  fadd (fadd (fmul (FFin (1 # 2)) (FFin (25 # 2))) (FFin (1 # 8))) (FFin 3) = FFin (75 # 8) /\
  (75 # 8 == (1 # 2) * (25 # 2) + (1 # 8) + 3)%Q.
Proof. split; [|split]; vm_compute; reflexivity. Qed.
