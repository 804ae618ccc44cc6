(** What the property C95 speaks about: how far the computed spatial figures may be from the
    exact ones. *)
From Coq Require Import List Bool Arith ZArith QArith.
From Verif Require Import Base_Prelude Base_Num Base_Order Base_Sum Model_Images Model_Loader
  Model_Data Model_Rounded Model_RoundedSpatial Spec_Images Spec_Data Spec_Rounded.
Import ListNotations.
Open Scope Q_scope.

(** 2 to 1000 equally sized images of [b] bits, [b] at most 16, 2 to 2^29 pixels. *)
Definition stack_bits (b : Z) (h w : nat) (imgs : list image) : Prop :=
  (2 <= length imgs <= 1000)%nat /\ same_shape h w imgs /\ bits b h w imgs /\
  (0 <= b <= 16)%Z /\ (2 <= h * w)%nat /\ (Z.of_nat (h * w) <= 2 ^ 29)%Z.

(** The longest chain of additions that depend on each other. *)
Fixpoint chain (t : stree) : nat :=
  match t with SLeaf _ => 0 | SNode a b => S (Nat.max (chain a) (chain b)) end.

(** Adds each of [n] elements once, in chains of at most [d] additions. *)
Definition order_of (d n : nat) (t : stree) : Prop := adds_all n t /\ (chain t <= d)%nat.

Record sound_orders (d h w : nat) (o : sum_orders) : Prop := {
  O_chain : (Z.of_nat d <= 2 ^ 30)%Z;
  O_mean : order_of d (h * w) (so_mean o);
  O_col : forall c, (c < w)%nat -> order_of d h (so_col o c);
  O_row : forall r, (r < h)%nat -> order_of d w (so_row o r);
  O_var_mean : order_of d (h * w) (so_var_mean o);
  O_var_inner : order_of d (h * w) (so_var_inner o);
  O_var : order_of d (h * w) (so_var o);
  O_cav : order_of d w (so_cav o);
  O_rav : order_of d h (so_rav o)
}.

(** The noise figures of a stack: mean temporal variance of a pixel, variance of the average
    image, and the variances of its column means and row means less the share of the temporal
    noise. *)
Definition temporal_noise (h w : nat) (imgs : list image) : Q :=
  pixel_mean h w (fun r c => unbiased_var (map inject_Z (history imgs r c))).
Definition spatial_noise (h w : nat) (imgs : list image) : Q :=
  sumq2 h w (fun r c =>
    (avg_pixel imgs r c - stack_mean h w imgs) * (avg_pixel imgs r c - stack_mean h w imgs))
  / qn (h * w - 1).
Definition column_noise (h w : nat) (imgs : list image) : Q :=
  pop_var w (col_mean h (avg_pixel imgs)) - temporal_noise h w imgs / (qn (length imgs) * qn h).
Definition row_noise (h w : nat) (imgs : list image) : Q :=
  pop_var h (row_mean w (avg_pixel imgs)) - temporal_noise h w imgs / (qn (length imgs) * qn w).

(** (d + 1) 2^(b-51) and (d + 3) 2^(2b-49). *)
Definition mean_bound (b : Z) (d : nat) : Q :=
  inject_Z ((Z.of_nat d + 1) * 2 ^ b) / inject_Z (2 ^ 51).
Definition spatial_bound (b : Z) (d : nat) : Q :=
  inject_Z ((Z.of_nat d + 3) * 2 ^ (2 * b)) / inject_Z (2 ^ 49).

(** [f] holds the figures of [s] up to these errors. *)
Definition computed (b : Z) (d : nat) (s : sdata) (f : fsdata) : Prop :=
  fs_sum f = sd_sum s /\ fs_L f = sd_L s /\ fs_M f = sd_M s /\ fs_N f = sd_N s /\
  within (mean_bound b d) (sd_avg_mean s) (fs_avg_mean f) /\
  exists vm v cav rav,
    sd_var_mean s = Some vm /\ sd_avg_var s = Some v /\
    sd_avg_var_cav s = Some cav /\ sd_avg_var_rav s = Some rav /\
    within (spatial_bound b d) vm (fs_var_mean f) /\ within (spatial_bound b d) v (fs_avg_var f) /\
    within (spatial_bound b d) cav (fs_avg_var_cav f) /\ within (spatial_bound b d) rav (fs_avg_var_rav f).

(** The entries of a data set are those of image series. *)
Definition series_entry (imgs : list image) (r : int_imgs) : Prop := get_int_imgs imgs = Ok r.
