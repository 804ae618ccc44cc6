(** C95-C96: the spatial figures as float64 numbers. *)
From Coq Require Import List Bool Arith ZArith QArith Lia.
From Verif Require Import Base_Prelude Base_Num Base_Order Base_Float Model_Images Model_Loader
  Model_Data Model_Rounded Model_RoundedSpatial Spec_Images Spec_Data Spec_Rounded Spec_RoundedSpatial
  Proofs_RSpatial4.
Import ListNotations.
Open Scope Q_scope.

(** The hypotheses are met: adding from left to right (chains of one addition less than there
    are pixels; adding in pairs has far shorter ones), and a stack of images. *)
Example C95_orders_exist h w : (0 < h)%nat -> (0 < w)%nat -> (Z.of_nat (h * w) <= 2 ^ 29)%Z ->
  sound_orders (h * w) h w (plain_orders h w).
Proof. exact (plain_sound h w). Qed.
Example C95_stack : stack_bits 8 1 3 uniform5.
Proof. exact uniform5_stack. Qed.

(** ** C95: each computed figure of a stack is within (d+1) 2^(b-51), or (d+3) 2^(2b-49) for the
    variances, of the textbook figure, in whatever order the pixels are added ([d]: longest
    chain of additions). *)
Theorem C95_figures b h w d imgs o :
  stack_bits b h w imgs -> sound_orders d h w o ->
  exists r f, get_int_imgs imgs = Ok r /\ get_spatial_data_f o h w r = Ok f /\
    within (mean_bound b d) (stack_mean h w imgs) (fs_avg_mean f) /\
    within (spatial_bound b d) (temporal_noise h w imgs) (fs_var_mean f) /\
    within (spatial_bound b d) (spatial_noise h w imgs) (fs_avg_var f) /\
    within (spatial_bound b d) (column_noise h w imgs) (fs_avg_var_cav f) /\
    within (spatial_bound b d) (row_noise h w imgs) (fs_avg_var_rav f).
Proof. exact (figures_computed b h w d imgs o). Qed.
Print Assumptions C95_figures.

(** For 8 bits and chains of 100 additions both bounds are below 2^-26. *)
Example C95_bounds : mean_bound 8 100 == 101 # 2 ^ 43 /\ spatial_bound 8 100 == 103 # 2 ^ 33.
Proof. split; vm_compute; reflexivity. Qed.
Definition grid : list image :=
  [mkImg 2 2 (fun r c => Z.of_nat (10 + r + 2 * c)); mkImg 2 2 (fun r c => Z.of_nat (11 + 3 * r));
   mkImg 2 2 (fun r c => Z.of_nat (9 + c))].
Example C95_case :
  match get_int_imgs grid with
  | Ok r => match get_spatial_data_f (plain_orders 2 2) 2 2 r with
            | Ok f => temporal_noise 2 2 grid == 19 # 6 /\
                      fs_var_mean f = FFin (1782674852500821 # 562949953421312) /\
                      spatial_noise 2 2 grid == 25 # 27 /\
                      fs_avg_var f = FFin (1042499913743171 # 1125899906842624) /\
                      column_noise 2 2 grid == - (5 # 18) /\
                      fs_avg_var_cav f = FFin (- (312749974122951 # 1125899906842624))
            | Err _ => False
            end
  | Err _ => False
  end.
Proof. vm_compute. repeat split; reflexivity. Qed.

(** The whole step from stacks to spatial data: the same exception as with exact numbers, or
    the same exposure and photon count and figures within the bounds, dark and bright. *)
Theorem C95_whole b h w n od ob imgs data :
  sound_orders n h w od -> sound_orders n h w ob ->
  every (stack_bits b h w) imgs -> table2 (table2 series_entry) imgs data ->
  out2 (fun s f => fsp_texp f = sp_texp s /\ fsp_up f = sp_up s /\
                   computed b n (sp_dark s) (fsp_dark f) /\ computed b n (sp_bright s) (fsp_bright f))
       (get_spatial h w data) (get_spatial_f od ob h w data).
Proof. exact (whole_spatial b h w n od ob imgs data). Qed.
Print Assumptions C95_whole.

Definition stacks95 : dict pyfloat (dict pyfloat (list image)) :=
  [(FFin 1, [(FFin 5, uniform5); (FFin 0, uniform5)])].
Example C95_whole_case : every (stack_bits 8 1 3) stacks95 /\
  exists r, let data := [(FFin 1, [(FFin 5, r); (FFin 0, r)])] in
    table2 (table2 series_entry) stacks95 data /\
    exists f, get_spatial_f (plain_orders 1 3) (plain_orders 1 3) 1 3 data = Ok f /\ fsp_up f = FFin 5.
Proof.
  split; [repeat (apply Forall_cons || apply Forall_nil); exact C95_stack|].
  destruct (get_int_imgs uniform5) as [r|e] eqn:E; [|discriminate E].
  exists r. split.
  - constructor; [|constructor]. split; [reflexivity|].
    constructor; [split; [reflexivity|exact E]|]. constructor; [split; [reflexivity|exact E]|]. constructor.
  - assert (Q : Ok r = get_int_imgs uniform5) by auto. vm_compute in Q. injection Q as ->. clear E.
    eexists. split; [vm_compute; reflexivity|reflexivity].
Qed.

(** ** C96: a sensor whose pixels are all alike has no spatial variance.  Refuted: five images of
    three equal pixels each, exact spatial variance 0, are given a positive one. *)
Theorem C96_uniform_refuted : exists imgs o r f v,
  stack_bits 8 1 3 imgs /\ sound_orders 3 1 3 o /\ (forall im x y, In im imgs -> px im 0 x = px im 0 y) /\
  spatial_noise 1 3 imgs == 0 /\ get_int_imgs imgs = Ok r /\ get_spatial_data_f o 1 3 r = Ok f /\
  fs_avg_var f = FFin v /\ 0 < v.
Proof. exact uniform_noise. Qed.
Print Assumptions C96_uniform_refuted.
