(** C127: the row, column and pixel variances as float64 numbers. *)
From Coq Require Import List Bool Arith ZArith QArith Qabs Lia.
From Verif Require Import Base_Prelude Base_Num Base_Order Base_Float Model_Images Model_Loader
  Model_Data Model_Rounded Model_RoundedSpatial Model_RoundedLines Model_Results Spec_Images Spec_Data Spec_Rounded
  Spec_RoundedSpatial Spec_RoundedLines Proofs_RSpatial4 Proofs_RLines3 Proofs_RLines4.
Import ListNotations.
Open Scope Q_scope.

(** A stack of three images of three by three pixels. *)
Definition grid33 : list image :=
  [mkImg 3 3 (fun r c => Z.of_nat (10 + r + 2 * c)); mkImg 3 3 (fun r c => Z.of_nat (11 + 3 * r));
   mkImg 3 3 (fun r c => Z.of_nat (9 + c))].
Example C127_stack : stack_bits 8 3 3 grid33 /\ sound_orders 9 3 3 (plain_orders 3 3) /\ (0 < inner_pixels 3 3)%Z.
Proof.
  split; [|split; [apply (plain_sound 3 3); lia|reflexivity]].
  split; [cbn; lia|]. split; [repeat constructor|]. split; [|cbn; lia].
  repeat (apply Forall_cons || apply Forall_nil); intros r c Hr Hc; cbn [px grid33];
    change (2 ^ 8)%Z with 256%Z; lia.
Qed.

(** ** C127: the spatial variance and its column, row and pixel parts, computed in double
    precision from a stack with more pixels than rows and columns together, are within
    4 hw/(hw-h-w) (d+3) 2^(2b-49) of the formulas of the standard. *)
Theorem C127_parts b h w d imgs o :
  stack_bits b h w imgs -> sound_orders d h w o -> (0 < inner_pixels h w)%Z ->
  exists r f, get_int_imgs imgs = Ok r /\ get_spatial_data_f o h w r = Ok f /\
    within (part_bound b d h w) (true_spatial h w imgs) (s_2_y_f f) /\
    exists col row pixel, s_2_y_col_f f = Ok col /\ s_2_y_row_f f = Ok row /\ s_2_y_pixel_f f = Ok pixel /\
      within (part_bound b d h w) (column_part h w imgs) col /\
      within (part_bound b d h w) (row_part h w imgs) row /\
      within (part_bound b d h w) (pixel_part h w imgs) pixel.
Proof. exact (parts_computed b h w d imgs o). Qed.
Print Assumptions C127_parts.

(** The bound for this stack. *)
Example C127_bound : part_bound 8 9 3 3 == 9 # 2 ^ 29.
Proof. vm_compute. reflexivity. Qed.
Example C127_case :
  match get_int_imgs grid33 with
  | Ok r => match get_spatial_data_f (plain_orders 3 3) 3 3 r with
            | Ok f => column_part 3 3 grid33 == 47 # 108 /\
                      s_2_y_col_f f = Ok (FFin (3919799675674321 # 9007199254740992)) /\
                      row_part 3 3 grid33 == 103 # 108 /\
                      s_2_y_row_f f = Ok (FFin (1073774911155465 # 1125899906842624)) /\
                      pixel_part 3 3 grid33 == - (161 # 108) /\
                      s_2_y_pixel_f f = Ok (FFin (- (3356849722253009 # 2251799813685248)))
            | Err _ => False
            end
  | Err _ => False
  end.
Proof. vm_compute. repeat split; reflexivity. Qed.

(** With exact numbers the figures of the bright and of the dark series are these formulas. *)
Theorem C127_exact b h w imgs r s o :
  stack_bits b h w imgs -> (0 < inner_pixels h w)%Z -> get_int_imgs imgs = Ok r -> get_spatial_data h w r = Ok s ->
  (bright o = s -> exact_parts h w imgs (s_2_y o) (s_2_y_col o) (s_2_y_row o) (s_2_y_pixel o)) /\
  (dark o = s -> exact_parts h w imgs (s_2_y_dark o) (s_2_y_col_dark o) (s_2_y_row_dark o) (s_2_y_pixel_dark o)).
Proof. intros S D. exact (parts_exact b h w imgs S D r s o). Qed.
Print Assumptions C127_exact.

(** The three parts computed add up to the spatial variance computed, up to four times the bound. *)
Theorem C127_sum b h w imgs d o :
  stack_bits b h w imgs -> (0 < inner_pixels h w)%Z -> sound_orders d h w o ->
  exists r f t col row pixel, get_int_imgs imgs = Ok r /\ get_spatial_data_f o h w r = Ok f /\
    s_2_y_f f = FFin t /\ s_2_y_col_f f = Ok (FFin col) /\ s_2_y_row_f f = Ok (FFin row) /\ s_2_y_pixel_f f = Ok (FFin pixel) /\
    Qabs (col + row + pixel - t) <= 4 * part_bound b d h w.
Proof. intros S D. exact (sum_computed b h w imgs S D d o). Qed.
Print Assumptions C127_sum.

(** The computation fails for images of two by two pixels and for no others. *)
Theorem C127_two_by_two b h w d imgs o r f : stack_bits b h w imgs -> sound_orders d h w o ->
  get_int_imgs imgs = Ok r -> get_spatial_data_f o h w r = Ok f ->
  (s_2_y_col_f f = Err ZeroDivisionError <-> h = 2%nat /\ w = 2%nat) /\
  (s_2_y_row_f f = Err ZeroDivisionError <-> h = 2%nat /\ w = 2%nat) /\
  (s_2_y_pixel_f f = Err ZeroDivisionError <-> h = 2%nat /\ w = 2%nat).
Proof. exact (lines_fail b h w d imgs o r f). Qed.
Print Assumptions C127_two_by_two.
Example C127_two_by_two_case :
  match get_int_imgs [mkImg 2 2 (fun r c => Z.of_nat (10 + r + 2 * c)); mkImg 2 2 (fun r c => Z.of_nat (11 + 3 * r))] with
  | Ok r => match get_spatial_data_f (plain_orders 2 2) 2 2 r with
            | Ok f => s_2_y_col_f f = Err ZeroDivisionError
            | Err _ => False
            end
  | Err _ => False
  end.
Proof. vm_compute. reflexivity. Qed.

(** The whole step from stacks to the figures: the same exception as with exact numbers, or the
    bright and the dark parts within the bound. *)
Theorem C127_whole b h w n od ob imgs data :
  sound_orders n h w od -> sound_orders n h w ob -> (0 < inner_pixels h w)%Z ->
  every (stack_bits b h w) imgs -> table2 (table2 series_entry) imgs data ->
  out2 (fun s f => forall o, o_s o = s -> lines_near (part_bound b n h w) o f)
       (get_spatial h w data) (get_spatial_f od ob h w data).
Proof. exact (whole_lines b h w n od ob imgs data). Qed.
Print Assumptions C127_whole.

Definition stacks127 : dict pyfloat (dict pyfloat (list image)) :=
  [(FFin 1, [(FFin 5, grid33); (FFin 0, grid33)])].
Example C127_whole_case : every (stack_bits 8 3 3) stacks127 /\
  exists r, let data := [(FFin 1, [(FFin 5, r); (FFin 0, r)])] in
    table2 (table2 series_entry) stacks127 data /\ get_int_imgs grid33 = Ok r /\
    match get_spatial_f (plain_orders 3 3) (plain_orders 3 3) 3 3 data with
    | Ok f => s_2_y_col_f (fsp_bright f) = Ok (FFin (3919799675674321 # 9007199254740992))
    | Err _ => False
    end.
Proof.
  split; [repeat (apply Forall_cons || apply Forall_nil); exact (proj1 C127_stack)|].
  destruct (get_int_imgs grid33) as [r|e] eqn:E; [|discriminate E].
  exists r. split; [|split; [reflexivity|]].
  - constructor; [|constructor]. split; [reflexivity|].
    constructor; [split; [reflexivity|exact E]|]. constructor; [split; [reflexivity|exact E]|]. constructor.
  - assert (Q : get_int_imgs grid33 = Ok r) by exact E. clear E. revert r Q.
    assert (G : match get_int_imgs grid33 with
      | Ok r => match get_spatial_f (plain_orders 3 3) (plain_orders 3 3) 3 3 [(FFin 1, [(FFin 5, r); (FFin 0, r)])] with
                | Ok f => s_2_y_col_f (fsp_bright f) = Ok (FFin (3919799675674321 # 9007199254740992))
                | Err _ => False end
      | Err _ => False end) by (vm_compute; reflexivity).
    intros r Q. rewrite Q in G. exact G.
Qed.
