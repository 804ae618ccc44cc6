(** C131: the non-uniformities of stacks of images in double precision. *)
From Coq Require Import List Bool QArith Qreals Reals ZArith Lia Lra Arith.
From Verif Require Props_Results.
From Verif Require Import Base_Prelude Base_Num Base_Order Base_Float Base_Xreal Model_Images Model_Loader Model_Data Model_Rounded
  Model_RoundedSpatial Model_RoundedLines Model_Results Model_RoundedFigures Spec_Images Spec_Data Spec_Rounded Spec_RoundedSpatial
  Spec_RoundedLines Spec_RoundedFigures Spec_RoundedDSNU Proofs_RSpatial4 Proofs_Figures4 Proofs_RFigures4 Proofs_RDSNU Proofs_RPRNU Props_RoundedLines.
Import ListNotations.
Open Scope R_scope.

(** ** C131: the DSNU, whole and by rows, columns and pixels, computed from the images is right up
    to the part e/v + (2m+8) 2^-53 if the exact variance v is at least 4e, and NaN as the exact one
    if v is below -e; e is the bound of C127 and m 2^-53 the relative error of the gain. *)
Theorem C131_measured b h w n od ob imgs data s f o k K m :
  sound_orders n h w od -> sound_orders n h w ob -> (0 < inner_pixels h w)%Z ->
  every (stack_bits b h w) imgs -> table2 (table2 series_entry) imgs data ->
  get_spatial h w data = Ok s -> get_spatial_f od ob h w data = Ok f -> o_s o = s ->
  (m <= 100)%nat -> gain o = Ok k -> ordinary (Q2R k) -> right_to m K (Q2R k) ->
  let e := Q2R (part_bound b n h w) in let d := fsp_dark f in
  dark_accurate e (Ok (s_2_y_dark o)) (Ok (s_2_y_f d)) (DSNU1288 o) K m /\
  dark_accurate e (s_2_y_row_dark o) (s_2_y_row_f d) (DSNU1288_row o) K m /\
  dark_accurate e (s_2_y_col_dark o) (s_2_y_col_f d) (DSNU1288_col o) K m /\
  dark_accurate e (s_2_y_pixel_dark o) (s_2_y_pixel_f d) (DSNU1288_pixel o) K m.
Proof. exact (dsnu_measured b h w n od ob imgs data s f o k K m). Qed.
Print Assumptions C131_measured.

(** The PRNU likewise, with the differences of the bright and dark variances and means. *)
Theorem C131_response b h w n od ob imgs data s f o :
  sound_orders n h w od -> sound_orders n h w ob -> (0 < inner_pixels h w)%Z ->
  every (stack_bits b h w) imgs -> table2 (table2 series_entry) imgs data ->
  get_spatial h w data = Ok s -> get_spatial_f od ob h w data = Ok f -> o_s o = s ->
  let e := Q2R (part_bound b n h w) in let g := Q2R (mean_bound b n) in let d := fsp_dark f in let l := fsp_bright f in
  let M := Q2R (sd_avg_mean (bright o)) - Q2R (sd_avg_mean (dark o)) in
  exists A B, fs_avg_mean l = FFin A /\ fs_avg_mean d = FFin B /\
  light_accurate e g M (Ok (s_2_y o)) (Ok (s_2_y_dark o)) (Ok (s_2_y_f l)) (Ok (s_2_y_f d)) A B (PRNU1288 o) /\
  light_accurate e g M (s_2_y_row o) (s_2_y_row_dark o) (s_2_y_row_f l) (s_2_y_row_f d) A B (PRNU1288_row o) /\
  light_accurate e g M (s_2_y_col o) (s_2_y_col_dark o) (s_2_y_col_f l) (s_2_y_col_f d) A B (PRNU1288_col o) /\
  light_accurate e g M (s_2_y_pixel o) (s_2_y_pixel_dark o) (s_2_y_pixel_f l) (s_2_y_pixel_f d) A B (PRNU1288_pixel o).
Proof. exact (prnu_measured b h w n od ob imgs data s f o). Qed.
Print Assumptions C131_response.

(** The dark stack of C127 and a brighter one: the DSNU by rows is the root of 103/108, by pixels
    it is NaN. *)
Definition light33 : list image :=
  [mkImg 3 3 (fun r c => Z.of_nat (60 + 5 * r + 2 * c)); mkImg 3 3 (fun r c => Z.of_nat (61 + 5 * r + 2 * c));
   mkImg 3 3 (fun r c => Z.of_nat (59 + 5 * r + 2 * c))].
Definition stacks131 : dict pyfloat (dict pyfloat (list image)) := [(FFin 1, [(FFin 5, light33); (FFin 0, grid33)])].
Definition none131 : int_imgs := let z := mkImg 0 0 (fun _ _ => 0%Z) in mkInt 0 z z 0.
Definition data131 : dict pyfloat (dict pyfloat int_imgs) :=
  [(FFin 1, [(FFin 5, match get_int_imgs light33 with Ok r => r | Err _ => none131 end);
             (FFin 0, match get_int_imgs grid33 with Ok r => r | Err _ => none131 end)])].
Definition spatial131 : spatial := match get_spatial 3 3 data131 with Ok s => s | Err _ => Props_Results.sample_s end.
Example C131_hypotheses : sound_orders 9 3 3 (plain_orders 3 3) /\ (0 < inner_pixels 3 3)%Z /\ every (stack_bits 8 3 3) stacks131 /\
  table2 (table2 series_entry) stacks131 data131 /\ get_spatial 3 3 data131 = Ok spatial131 /\
  exists f, get_spatial_f (plain_orders 3 3) (plain_orders 3 3) 3 3 data131 = Ok f.
Proof.
  split; [apply (plain_sound 3 3); lia|]. split; [reflexivity|]. split.
  { repeat (apply Forall_cons || apply Forall_nil); [|exact (proj1 C127_stack)].
    split; [cbn; lia|]. split; [repeat constructor|]. split; [|cbn; lia].
    repeat (apply Forall_cons || apply Forall_nil); intros r c Hr Hc; cbn [px light33]; change (2 ^ 8)%Z with 256%Z; lia. }
  split.
  { assert (H : forall l, match get_int_imgs l with Ok _ => True | Err _ => False end ->
      series_entry l (match get_int_imgs l with Ok r => r | Err _ => none131 end)).
    { intros l. unfold series_entry. destruct (get_int_imgs l); [reflexivity|intros []]. }
    constructor; [|constructor]. split; [reflexivity|].
    constructor; [split; [reflexivity|apply H; vm_compute; exact I]|]. constructor; [split; [reflexivity|apply H; vm_compute; exact I]|]. constructor. }
  split.
  - unfold spatial131. assert (Q : match get_spatial 3 3 data131 with Ok _ => True | Err _ => False end) by (vm_compute; exact I).
    destruct (get_spatial 3 3 data131); [reflexivity|destruct Q].
  - assert (Q : match get_spatial_f (plain_orders 3 3) (plain_orders 3 3) 3 3 data131 with Ok _ => True | Err _ => False end) by (vm_compute; exact I).
    destruct (get_spatial_f _ _ 3 3 data131) as [f|]; [exists f; reflexivity|destruct Q].
Qed.
Example C131_case : let o := warm_data spatial131 in
  let v q := match q with Ok (Some x) => x | _ => 0%Q end in
  gain o = Ok (659406250000000 # 659406250000000)%Q /\ ordinary (Q2R (659406250000000 # 659406250000000)) /\
  right_to 1 (nearest 1) (Q2R (659406250000000 # 659406250000000)) /\
  (v (s_2_y_row_dark o) == 103 # 108)%Q /\ (4 * part_bound 8 9 3 3 <= v (s_2_y_row_dark o))%Q /\ ordinary (103 / 108) /\
  (v (s_2_y_pixel_dark o) < - part_bound 8 9 3 3)%Q /\
  (v (s_2_y_row o) == 57 # 4)%Q /\
  (8 * part_bound 8 9 3 3 <= v (s_2_y_row o) - v (s_2_y_row_dark o))%Q /\
  (sd_avg_mean (bright o) - sd_avg_mean (dark o) == 164 # 3)%Q /\ (8 * mean_bound 8 9 <= 164 # 3)%Q.
Proof.
  cbv zeta. assert (E2 : Q2R (659406250000000 # 659406250000000) = 1) by (unfold Q2R; cbn [Qnum Qden]; field).
  split; [reflexivity|]. rewrite E2. assert (O1 : ordinary 1) by (apply middling; lra). split; [exact O1|]. split; [apply nearest_ordinary, O1|].
  split; [vm_compute; reflexivity|]. split; [vm_compute; discriminate|]. split; [apply middling; lra|]. split; [vm_compute; reflexivity|].
  split; [vm_compute; reflexivity|]. split; [vm_compute; discriminate|]. split; [vm_compute; reflexivity|vm_compute; discriminate].
Qed.
