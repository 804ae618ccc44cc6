(** Properties C10-C12: sums and pseudo-variances of an image series. *)
From Coq Require Import List Bool Arith ZArith QArith Lia Permutation.
From Verif Require Import Base_Prelude Base_Sum Model_Images Spec_Images Proofs_Images.
Import ListNotations.
Open Scope Z_scope.

(** A 1x2 series used as example. *)
Definition img2 (a b : Z) : image :=
  mkImg 1 2 (fun _ c => match c with O => a | _ => b end).
Definition ex_series : list image := [img2 65535 0; img2 0 7; img2 1 7].

Example ex_documented : documented 1 2 ex_series.
Proof.
  split; [discriminate|]. split; [simpl; lia|]. split.
  - repeat constructor.
  - repeat (apply Forall_cons || apply Forall_nil); intros r c Hr Hc; destruct c as [|[|c]]; simpl; lia.
Qed.
Example ex_series_values : exists r, get_int_imgs ex_series = Ok r /\
  px (ii_sum r) 0 0 = 65536 /\ px (ii_pvar r) 0 0 = 3 * (3 * (65535 * 65535 + 1) - 65536 * 65536) /\
  px (ii_pvar r) 0 1 = 294.
Proof. eexists. split; [reflexivity|]. vm_compute. repeat split. Qed.

(** C10: exact integers, no wrap-around, for 16-bit series of up to 1000 images. *)
Theorem C10_exact_integers h w imgs :
  documented h w imgs ->
  exists r, get_int_imgs imgs = Ok r /\ ii_L r = length imgs /\
   ih (ii_sum r) = h /\ iw (ii_sum r) = w /\ ih (ii_pvar r) = h /\ iw (ii_pvar r) = w /\
   forall i j, (i < h)%nat -> (j < w)%nat ->
    let ys := history imgs i j in
    px (ii_sum r) i j = exact_sum ys /\
    px (ii_pvar r) i j =
      Z.of_nat (length imgs) *
        (Z.of_nat (length imgs) * exact_sq ys - exact_sum ys * exact_sum ys).
Proof. exact (documented_exact h w imgs). Qed.
Print Assumptions C10_exact_integers.

(** C11: L^2 (L-1) times the unbiased sample variance of the pixel. *)
Theorem C11_scaled_sample_variance h w imgs :
  documented h w imgs -> (2 <= length imgs)%nat ->
  exists r, get_int_imgs imgs = Ok r /\
  forall i j, (i < h)%nat -> (j < w)%nat ->
   (inject_Z (px (ii_pvar r) i j) ==
    qn (length imgs) * qn (length imgs) * qn (length imgs - 1)
    * unbiased_var (map inject_Z (history imgs i j)))%Q.
Proof. exact (pvar_is_variance h w imgs). Qed.
Print Assumptions C11_scaled_sample_variance.

(** Never negative; zero exactly when the pixel is constant over the series. *)
Theorem C11_nonnegative_zero_iff_constant h w imgs :
  documented h w imgs ->
  exists r, get_int_imgs imgs = Ok r /\
  forall i j, (i < h)%nat -> (j < w)%nat ->
    0 <= px (ii_pvar r) i j /\
    (px (ii_pvar r) i j = 0 <->
     forall a b, In a imgs -> In b imgs -> px a i j = px b i j).
Proof. exact (pvar_zero_iff h w imgs). Qed.
Print Assumptions C11_nonnegative_zero_iff_constant.

(** Invariant under an offset common to all images (whatever the range). *)
Theorem C11_offset_invariant h w imgs k r r' :
  imgs <> [] -> same_shape h w imgs ->
  get_int_imgs imgs = Ok r -> get_int_imgs (map (shift k) imgs) = Ok r' ->
  forall i j, px (ii_pvar r') i j = px (ii_pvar r) i j.
Proof. exact (pvar_shift h w imgs k r r'). Qed.
Print Assumptions C11_offset_invariant.

(** C12: any order of the images gives the same sums and pseudo-variances. *)
Theorem C12_order_irrelevant imgs imgs' r :
  Permutation imgs imgs' -> get_int_imgs imgs = Ok r ->
  exists r', get_int_imgs imgs' = Ok r' /\ ii_L r' = ii_L r /\
   shape (ii_sum r') = shape (ii_sum r) /\ shape (ii_pvar r') = shape (ii_pvar r) /\
   forall i j, px (ii_sum r') i j = px (ii_sum r) i j /\
               px (ii_pvar r') i j = px (ii_pvar r) i j.
Proof. exact (int_imgs_order imgs imgs' r). Qed.
Print Assumptions C12_order_irrelevant.

(** C12: the accumulated mean difference is last minus first. *)
Theorem C12_drift_telescopes h w first rest r :
  let imgs := first :: rest in
  same_shape h w imgs -> int64_pixels h w imgs ->
  get_int_imgs imgs = Ok r ->
  (ii_dmean r == grey_mean (last imgs first) - grey_mean first)%Q.
Proof. exact (dmean_telescopes h w first rest r). Qed.
Print Assumptions C12_drift_telescopes.

Example C12_example : exists r, get_int_imgs ex_series = Ok r /\ (ii_dmean r == (8 - 65535) / 2)%Q.
Proof. eexists. split; [reflexivity|]. vm_compute. reflexivity. Qed.
