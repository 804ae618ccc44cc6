(** C16-C22: from image sums to the temporal and spatial data. *)
From Coq Require Import List Bool Arith ZArith QArith Lia Permutation Sorting.Sorted.
From Verif Require Import Base_Prelude Base_Num Base_Order Base_Sum Model_Images Model_Loader
  Model_Data Spec_Images Spec_Data Proofs_Data Proofs_Data2.
Import ListNotations.
Open Scope Q_scope.

(** ** C16: the EMVA 1288 estimators of mean and temporal variance *)
Theorem C16_emva_estimators h w A B :
  pair_ok h w A B ->
  exists r, get_int_imgs [A; B] = Ok r /\
    td_mean (h * w) (temporal_summary r) == stack_mean h w [A; B] /\
    td_s2 (h * w) (temporal_summary r) ==
      1 / (2 * qn (h * w)) *
      sumq2 h w (fun r c =>
        ((inject_Z (px A r c) - grey_mean A) - (inject_Z (px B r c) - grey_mean B)) *
        ((inject_Z (px A r c) - grey_mean A) - (inject_Z (px B r c) - grey_mean B))).
Proof. exact (pair_estimators h w A B). Qed.
Print Assumptions C16_emva_estimators.

Theorem C16_nonnegative_symmetric h w A B :
  pair_ok h w A B ->
  exists r r', get_int_imgs [A; B] = Ok r /\ get_int_imgs [B; A] = Ok r' /\
    0 <= td_s2 (h * w) (temporal_summary r) /\
    td_s2 (h * w) (temporal_summary r') == td_s2 (h * w) (temporal_summary r).
Proof. exact (pair_nonneg_symmetric h w A B). Qed.
Print Assumptions C16_nonnegative_symmetric.

Theorem C16_constant_shift_has_no_noise h w A k :
  pair_ok h w A (shift k A) ->
  exists r, get_int_imgs [A; shift k A] = Ok r /\
    td_s2 (h * w) (temporal_summary r) == 0.
Proof. exact (pair_shift h w A k). Qed.
Print Assumptions C16_constant_shift_has_no_noise.

Definition pA : image := mkImg 1 2 (fun _ c => match c with O => 10 | _ => 20 end)%Z.
Definition pB : image := mkImg 1 2 (fun _ c => match c with O => 14 | _ => 18 end)%Z.
Example pair_ok_sample : pair_ok 1 2 pA pB.
Proof.
  unfold pair_ok. repeat split; try (simpl; lia).
  repeat (apply Forall_cons || apply Forall_nil); intros r c Hr Hc;
    destruct c as [|[|c]]; simpl; lia.
Qed.
Example pair_sample_values :
  exists r, get_int_imgs [pA; pB] = Ok r /\
    td_mean 2 (temporal_summary r) == 31 # 2 /\ td_s2 2 (temporal_summary r) == 9 # 2.
Proof. eexists. split; [reflexivity|]. split; vm_compute; reflexivity. Qed.

(** ** Sample data: exposures 20 and 10 (in that insertion order) *)
Definition td (s v : Z) (m : Q) : tdata := mkT s v m.
Definition sample : dict pyfloat (dict pyfloat tdata) :=
  [(FFin 20, [(FFin 90, td 40 64 1); (FFin 0, td 4 4 0)]);
   (FFin 10, [(FFin 0, td 2 8 0); (FFin 50, td 20 32 0)])].
Definition sample_multi : dict pyfloat (dict pyfloat tdata) :=
  [(FFin 20, [(FFin 90, td 40 64 1); (FFin 0, td 4 4 0); (FFin 70, td 30 48 0)]);
   (FFin 10, [(FFin 0, td 2 8 0); (FFin 50, td 20 32 0)])].

Lemma distinct2 x y : feq x y = false -> distinct [x; y].
Proof. intro H. constructor; [repeat constructor; auto|]. constructor; [constructor|constructor]. Qed.
Lemma distinct3 x y z : feq x y = false -> feq x z = false -> feq y z = false -> distinct [x; y; z].
Proof.
  intros A B C. constructor; [repeat (constructor; auto)|]. apply distinct2. auto.
Qed.

Example sample_keyed : well_keyed sample /\ nonneg_photons sample.
Proof.
  split; [split; [split|]|].
  - repeat (apply Forall_cons || apply Forall_nil); discriminate.
  - apply distinct2. reflexivity.
  - repeat (apply Forall_cons || apply Forall_nil); split;
      try (repeat (apply Forall_cons || apply Forall_nil); discriminate);
      apply distinct2; reflexivity.
  - repeat (apply Forall_cons || apply Forall_nil); reflexivity.
Qed.
Example multi_keyed : well_keyed sample_multi /\ nonneg_photons sample_multi.
Proof.
  split; [split; [split|]|].
  - repeat (apply Forall_cons || apply Forall_nil); discriminate.
  - apply distinct2. reflexivity.
  - repeat (apply Forall_cons || apply Forall_nil); split;
      try (repeat (apply Forall_cons || apply Forall_nil); discriminate).
    + apply distinct3; reflexivity.
    + apply distinct2; reflexivity.
  - repeat (apply Forall_cons || apply Forall_nil); reflexivity.
Qed.

(** ** C17: sorted and aligned *)
Theorem C17_sorted_and_aligned :
  forall n data T,
    well_keyed data -> nonneg_photons data -> get_temporal n data = Ok T ->
    exists pts, Permutation pts (bright_points data) /\ StronglySorted point_lt pts /\
      tp_up T = map (fun x => pt_p x) pts /\
      tp_uy T = map (fun x => td_mean n (pt_d x)) pts /\
      tp_s2y T = map (fun x => td_s2 n (pt_d x)) pts.
Proof. exact sorted_and_aligned. Qed.
Print Assumptions C17_sorted_and_aligned.

Theorem C17_exposures_sorted :
  forall n data T,
    well_keyed data -> get_temporal n data = Ok T -> length data <> 1%nat ->
    Permutation (tp_texp T) (map fst data) /\
    StronglySorted (fun a b => flt a b = true) (tp_texp T) /\
    exists darks, Forall2 (dark_at data) (tp_texp T) darks /\
      tp_uydark T = map (td_mean n) darks /\ tp_s2ydark T = map (td_s2 n) darks.
Proof. exact exposures_sorted. Qed.
Print Assumptions C17_exposures_sorted.

Example sample_sorted :
  match get_temporal 1 sample_multi with
  | Ok T => tp_texp T = [FFin 10; FFin 20] /\ tp_up T = [FFin 50; FFin 70; FFin 90] /\
            Forall2 Qeq (tp_uy T) [10; 15; 20] /\ Forall2 Qeq (tp_s2y T) [8; 12; 31 # 2] /\
            Forall2 Qeq (tp_uydark T) [1; 2]
  | Err _ => False
  end.
Proof. vm_compute. repeat split; repeat constructor. Qed.

(** ** C18: equal lengths *)
(** All arrays have one length exactly when there is one exposure or every exposure
    has one bright point. *)
Theorem C18_equal_lengths_iff :
  forall n data T,
    well_keyed data -> get_temporal n data = Ok T ->
    length (tp_uy T) = length (tp_up T) /\ length (tp_s2y T) = length (tp_up T) /\
    ((length (tp_texp T) = length (tp_up T) /\ length (tp_uydark T) = length (tp_up T) /\
      length (tp_s2ydark T) = length (tp_up T)) <->
     (length data = 1%nat \/ Forall (fun e => length (snd e) = 2%nat) data)).
Proof. exact equal_lengths_iff. Qed.
Print Assumptions C18_equal_lengths_iff.

(** In those two cases entry i of every array belongs to bright point i. *)
Theorem C18_dark_aligned_partial :
  forall n data T,
    well_keyed data -> nonneg_photons data -> get_temporal n data = Ok T ->
    length data = 1%nat \/ Forall (fun e => length (snd e) = 2%nat) data ->
    exists pts darks, Permutation pts (bright_points data) /\ StronglySorted point_lt pts /\
      tp_texp T = map (fun x => pt_t x) pts /\
      tp_up T = map (fun x => pt_p x) pts /\
      tp_uy T = map (fun x => td_mean n (pt_d x)) pts /\
      tp_s2y T = map (fun x => td_s2 n (pt_d x)) pts /\
      Forall2 (fun x d => dark_at data (pt_t x) d) pts darks /\
      tp_uydark T = map (td_mean n) darks /\ tp_s2ydark T = map (td_s2 n) darks.
Proof. exact dark_aligned. Qed.
Print Assumptions C18_dark_aligned_partial.

(** Two exposures, one of them with two bright points: accepted with 3 bright and 2
    dark values. *)
Theorem C18_equal_lengths_refuted :
  exists n data T, well_keyed data /\ nonneg_photons data /\ get_temporal n data = Ok T /\
    length (tp_uydark T) <> length (tp_uy T).
Proof.
  exact (ex_intro _ 1%nat (ex_intro _ sample_multi
    (lengths_differ 1 sample_multi multi_keyed
       ltac:(vm_compute; eexists; split; [reflexivity|discriminate])))).
Qed.
Print Assumptions C18_equal_lengths_refuted.

(** ** C19: rejected exactly when a dark or a bright point is missing *)
Theorem C19_rejected_iff :
  forall n data e, well_keyed data ->
    (get_temporal n data = Err e <->
     e = ValueError /\ Exists (fun x => ~ complete (snd x)) data).
Proof. exact temporal_error_iff. Qed.
Print Assumptions C19_rejected_iff.

Example rejected_sample :
  get_temporal 1 [(FFin 10, [(FFin 0, td 2 8 0); (FFin 50, td 20 32 0)]);
                  (FFin 20, [(FFin 1, td 2 8 0); (FFin 50, td 20 32 0)])] = Err ValueError.
Proof. vm_compute. reflexivity. Qed.

(** ** C20: dark data is never used as bright data *)
Theorem C20_temporal_partial :
  forall n data T,
    well_keyed data -> nonneg_photons data -> get_temporal n data = Ok T ->
    Forall (fun p => ~ is_dark p) (tp_up T) /\
    Permutation (tp_up T) (map (fun x => pt_p x) (bright_points data)).
Proof. exact no_dark_in_bright. Qed.
Print Assumptions C20_temporal_partial.

Theorem C20_spatial_partial :
  forall M N data s,
    Forall (fun e => numeric_keys (snd e)) data -> nonneg_photons data ->
    get_spatial M N data = Ok s ->
    exists inner z d0 d1, data = [(sp_texp s, inner)] /\
      Permutation inner [(z, d0); (sp_up s, d1)] /\ is_dark z /\ ~ is_dark (sp_up s) /\
      get_spatial_data M N d0 = Ok (sp_dark s) /\ get_spatial_data M N d1 = Ok (sp_bright s).
Proof. exact spatial_roles. Qed.
Print Assumptions C20_spatial_partial.

(** With a negative photon count the dark point is taken for a bright one. *)
Definition negative : dict pyfloat (dict pyfloat tdata) :=
  [(FFin 10, [(FFin 0, td 2 8 0); (FFin (-5), td 20 32 0)])].

Example negative_keyed : well_keyed negative.
Proof.
  split; [split|].
  - repeat (apply Forall_cons || apply Forall_nil); discriminate.
  - constructor; constructor.
  - repeat (apply Forall_cons || apply Forall_nil); split.
    + repeat (apply Forall_cons || apply Forall_nil); discriminate.
    + apply distinct2. reflexivity.
Qed.

Theorem C20_temporal_refuted :
  exists n data T, well_keyed data /\ get_temporal n data = Ok T /\ Exists is_dark (tp_up T).
Proof.
  exact (ex_intro _ 1%nat (ex_intro _ negative (dark_among_bright 1 negative negative_keyed
     ltac:(vm_compute; eexists; split; [reflexivity|apply Exists_cons_hd; reflexivity])))).
Qed.
Print Assumptions C20_temporal_refuted.

(** ** C21: the statistics of a spatial stack *)
Theorem C21_spatial_statistics :
  forall h w imgs,
  documented h w imgs -> (2 <= length imgs)%nat -> (2 <= h * w)%nat ->
  exists r s, get_int_imgs imgs = Ok r /\ get_spatial_data h w r = Ok s /\
    sd_L s = length imgs /\ sd_M s = h /\ sd_N s = w /\
    sd_avg_mean s == stack_mean h w imgs /\
    exists var_mean avg_var cav rav,
      sd_var_mean s = Some var_mean /\ sd_avg_var s = Some avg_var /\
      sd_avg_var_cav s = Some cav /\ sd_avg_var_rav s = Some rav /\
      var_mean == pixel_mean h w (fun r c => unbiased_var (map inject_Z (history imgs r c))) /\
      avg_var == sumq2 h w (fun r c =>
         (avg_pixel imgs r c - stack_mean h w imgs) * (avg_pixel imgs r c - stack_mean h w imgs))
         / qn (h * w - 1) /\
      cav == pop_var w (col_mean h (avg_pixel imgs)) - var_mean / (qn (length imgs) * qn h) /\
      rav == pop_var h (row_mean w (avg_pixel imgs)) - var_mean / (qn (length imgs) * qn w).
Proof. exact spatial_statistics. Qed.
Print Assumptions C21_spatial_statistics.

Definition stack3 : list image := [pA; pB; mkImg 1 2 (fun _ _ => 18%Z)].
Example stack3_documented : documented 1 2 stack3.
Proof.
  split; [discriminate|]. split; [simpl; lia|]. split.
  - repeat (apply Forall_cons || apply Forall_nil); split; reflexivity.
  - repeat (apply Forall_cons || apply Forall_nil); intros r c Hr Hc;
      destruct c as [|[|c]]; simpl; lia.
Qed.
Example stack3_values :
  exists r s, get_int_imgs stack3 = Ok r /\ get_spatial_data 1 2 r = Ok s /\
    sd_avg_mean s == 49 # 3 /\ omap Qred (sd_var_mean s) = Some (26 # 3).
Proof. do 2 eexists. split; [reflexivity|]. split; [reflexivity|]. split; vm_compute; reflexivity. Qed.

(** ** C22: one exposure, one dark, one bright *)
Theorem C22_accepted_iff :
  forall M N data,
    (0 < M)%nat -> (0 < N)%nat ->
    Forall (fun e => numeric_keys (snd e)) data ->
    Forall (fun e => Forall (fun x => (0 < ii_L (snd x))%nat) (snd e)) data ->
    ((exists s, get_spatial M N data = Ok s) <-> one_dark_one_bright data) /\
    (get_spatial M N data = Err ValueError <-> ~ one_dark_one_bright data).
Proof. exact spatial_accepts_iff. Qed.
Print Assumptions C22_accepted_iff.

Definition stack_of (imgs : list image) : int_imgs :=
  match get_int_imgs imgs with Ok r => r | Err _ => mkInt 0 (mkImg 0 0 (fun _ _ => 0%Z)) (mkImg 0 0 (fun _ _ => 0%Z)) 0 end.
Example spatial_sample :
  match get_spatial 1 2 [(FFin 10, [(FFin 7, stack_of stack3); (FFin 0, stack_of [pA; pA; pA])])] with
  | Ok s => sp_up s = FFin 7 /\ sd_avg_mean (sp_dark s) == 15 /\ sd_avg_mean (sp_bright s) == 49 # 3
  | Err _ => False
  end.
Proof. vm_compute. repeat split. Qed.
Example spatial_two_brights :
  get_spatial 1 2 [(FFin 10, [(FFin 7, stack_of stack3); (FFin 9, stack_of stack3); (FFin 0, stack_of stack3)])]
  = Err ValueError.
Proof. vm_compute. reflexivity. Qed.

(** Dark used as bright when the other count is negative. *)
Definition negative_s : dict pyfloat (dict pyfloat int_imgs) :=
  [(FFin 10, [(FFin (-5), stack_of stack3); (FFin 0, stack_of stack3)])].
Example negative_s_keyed : Forall (fun e => numeric_keys (snd e)) negative_s.
Proof.
  repeat (apply Forall_cons || apply Forall_nil); split.
  + repeat (apply Forall_cons || apply Forall_nil); discriminate.
  + apply distinct2. reflexivity.
Qed.

Theorem C20_spatial_refuted :
  exists M N data s, Forall (fun e => numeric_keys (snd e)) data /\ get_spatial M N data = Ok s /\ is_dark (sp_up s).
Proof.
  exact (ex_intro _ 1%nat (ex_intro _ 2%nat (ex_intro _ negative_s
    (spatial_dark_twice 1 2 _ negative_s_keyed
        ltac:(eexists; split; [reflexivity|vm_compute; reflexivity]))))).
Qed.
Print Assumptions C20_spatial_refuted.
