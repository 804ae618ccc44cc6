(** C77-C78: the temporal figures as float64 numbers. *)
From Coq Require Import List Bool Arith ZArith QArith Qabs Lia.
From Verif Require Import Base_Prelude Base_Num Base_Order Base_Float Spec_Num Model_Images
  Model_Loader Model_Data Model_Results Model_Rounded Spec_Images Spec_Data Spec_Rounded
  Proofs_Rounded3 Proofs_Rounded4 Proofs_Rounded5.
Import ListNotations.
Open Scope Q_scope.

(** The hypotheses are met: adding from left to right, and a pair of images. *)
Example C77_orders_exist : sound_order left_to_right.
Proof. exact left_to_right_sound. Qed.
Example C77_pair : pair_bits 8 1 3 dim3 bright3.
Proof. exact pair3. Qed.

(** ** C77: the mean is the exact mean of all pixels, correctly rounded. *)
Theorem C77_mean_correctly_rounded order b h w A B :
  sound_order order -> pair_bits b h w A B ->
  exists d, temporal_entry order [A; B] = Ok d /\
            reads_as (stack_mean h w [A; B]) (mean_f (h * w) d).
Proof. exact (mean_rounded order b h w A B). Qed.
Print Assumptions C77_mean_correctly_rounded.

Example C77_mean_case :
  match temporal_entry left_to_right [dim3; bright3] with
  | Ok d => mean_f 3 d = FFin (8256599316845909 # 4503599627370496)
  | Err _ => False
  end.
Proof. vm_compute. reflexivity. Qed.

(** The variance is within 2^(2b-50) of the exact one, in whatever order the pixels
    are added. *)
Theorem C77_variance_error order b h w A B :
  sound_order order -> pair_bits b h w A B ->
  exists d, temporal_entry order [A; B] = Ok d /\
            within (variance_error b) (pair_variance h w A B) (s2_f (h * w) d).
Proof. exact (variance_rounded order b h w A B). Qed.
Print Assumptions C77_variance_error.

Example C77_variance_case :
  variance_error 8 == 1 # 17179869184 /\
  match temporal_entry left_to_right [dim3; mkImg 1 3 (fun _ c => Z.of_nat (5 * c))] with
  | Ok d => s2_f 3 d = FFin (3815549684300003 # 562949953421312)
  | Err _ => False
  end.
Proof. split; vm_compute; reflexivity. Qed.

(** Two identical images have no temporal noise at all. *)
Theorem C77_identical_images order b h w A :
  sound_order order -> pair_bits b h w A A ->
  exists d, temporal_entry order [A; A] = Ok d /\ within 0 0 (s2_f (h * w) d).
Proof. exact (identical_pair order b h w A). Qed.
Print Assumptions C77_identical_images.

(** Over a whole data set of pairs: the same exception as with exact numbers, or the
    same exposures and photon counts, correctly rounded means, and variances within
    the bound, at the same places. *)
Theorem C77_all_arrays order b h w pairs data fdata :
  sound_order order ->
  every (fun p => pair_bits b h w (fst p) (snd p)) pairs ->
  table2 (table2 exact_entry) pairs data ->
  table2 (table2 (float_entry order)) pairs fdata ->
  out2 (fun T F =>
          ftp_texp F = tp_texp T /\ ftp_up F = tp_up T /\
          Forall2 near_mean (ftp_uy F) (tp_uy T) /\
          Forall2 (near_var b) (ftp_s2y F) (tp_s2y T) /\
          Forall2 near_mean (ftp_uydark F) (tp_uydark T) /\
          Forall2 (near_var b) (ftp_s2ydark F) (tp_s2ydark T))
       (get_temporal (h * w) data) (get_temporal_f (h * w) fdata).
Proof. exact (temporal_arrays order b h w pairs data fdata). Qed.
Print Assumptions C77_all_arrays.

Definition pairs77 : dict pyfloat (dict pyfloat (image * image)) :=
  [(FFin 1, [(FFin 0, (dim3, dim3)); (FFin 5, (dim3, bright3))])].
Example C77_arrays_case :
  every (fun p => pair_bits 8 1 3 (fst p) (snd p)) pairs77 /\
  exists fdata, table2 (table2 (float_entry left_to_right)) pairs77 fdata /\
    get_temporal_f 3 fdata =
      Ok (mkFTemporal [FFin 1] [FFin 5] [FFin (8256599316845909 # 4503599627370496)]
            [FFin (-1 # 4503599627370496)] [FFin (6004799503160661 # 4503599627370496)] [FFin 0]).
Proof.
  split.
  - pose proof C77_pair as P. repeat (apply Forall_cons || apply Forall_nil); cbn [fst snd].
    + destruct P as (P1 & P2 & P3 & P4 & _ & _ & P5 & P6). inversion P6; subst.
      repeat (split; auto). repeat (apply Forall_cons || apply Forall_nil); auto.
    + exact P.
  - exists [(FFin 1, [(FFin 0, mkFT 8 0 (FFin 0));
                      (FFin 5, mkFT 11 6 (FFin (4503599627370497 # 4503599627370496)))])]. split.
    + constructor; [|constructor]. split; [reflexivity|].
      constructor; [split; [reflexivity|vm_compute; reflexivity]|].
      constructor; [split; [reflexivity|vm_compute; reflexivity]|]. constructor.
    + vm_compute. reflexivity.
Qed.

(** ** C78: the temporal variance is never negative.  Refuted: a pair whose exact
    variance is 0 gets a negative one, and a test with this bright point only has no
    saturation index. *)
Theorem C78_variance_nonnegative_refuted : exists order A B d v,
  sound_order order /\ pair_bits 8 1 3 A B /\ pair_variance 1 3 A B == 0 /\
  temporal_entry order [A; B] = Ok d /\ s2_f 3 d = FFin v /\ v < 0 /\
  forall o, o_sat o = None -> r_s2y (o_t o) = [v] -> fst (index_u_ysat o) = Err IndexError.
Proof. exact negative_variance. Qed.
Print Assumptions C78_variance_nonnegative_refuted.
