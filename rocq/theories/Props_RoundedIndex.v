(** Property C114: rounding and the points used for the fits. *)
From Coq Require Import List Bool Arith ZArith QArith Qabs Lia.
From Verif Require Import Base_Prelude Base_Num Base_Order Base_Sum Base_Float Spec_Num
  Model_Images Model_Loader Model_Data Model_Rounded Model_Results Model_RoundedIndex
  Spec_Images Spec_Data Spec_Rounded Spec_RoundedIndex Proofs_Rounded5 Proofs_RoundedIndex3 Props_Results.
Import ListNotations.
Open Scope Q_scope.

Theorem C114_same_points :
  forall order b h w pairs data fdata T F o fo,
  (0 <= b <= 16)%Z -> sound_order order -> every (fun p => pair_bits b h w (fst p) (snd p)) pairs ->
  table2 (table2 exact_entry) pairs data -> table2 (table2 (float_entry order)) pairs fdata ->
  get_temporal (h * w) data = Ok T -> get_temporal_f (h * w) fdata = Ok F ->
  exact_arrays T o -> fo_t fo = F /\ fo_sat fo = o_sat o ->
  clear_variances (variance_error b) (ftp_s2y F) (tp_s2y T) ->
  findex_u_ysat fo = fst (index_u_ysat o) /\
  (clear_limit (signal_error b) (7 # 10) o -> findex_sensitivity_max fo = index_sensitivity_max o) /\
  (clear_limit (signal_error b) (5 # 100) o -> findex_linearity_min fo = index_linearity_min o) /\
  (clear_limit (signal_error b) (95 # 100) o -> findex_linearity_max fo = index_linearity_max o).
Proof. exact points_same. Qed.
Print Assumptions C114_same_points.

Theorem C114_margin :
  forall order b h w pairs data fdata T F o fo,
  (0 <= b <= 16)%Z -> sound_order order -> every (fun p => pair_bits b h w (fst p) (snd p)) pairs ->
  table2 (table2 exact_entry) pairs data -> table2 (table2 (float_entry order)) pairs fdata ->
  get_temporal (h * w) data = Ok T -> get_temporal_f (h * w) fdata = Ok F ->
  exact_arrays T o -> fo_t fo = F /\ fo_sat fo = o_sat o ->
  clear_variances (variance_error b) (ftp_s2y F) (tp_s2y T) ->
  forall m Y i y, findex_sensitivity_max fo = Ok m -> signal o = Ok Y -> fst (index_u_ysat o) = Ok i -> py_get Y i = Ok y ->
  (forall j v, nth_error Y j = Some v -> v <= (7 # 10) * y - signal_error b -> (j <= m)%nat) /\
  exists v, nth_error Y m = Some v /\ v <= (7 # 10) * y + signal_error b.
Proof. exact points_margin. Qed.
Print Assumptions C114_margin.

Theorem C114_responsivity :
  forall order b h w pairs data fdata T F o fo,
  (0 <= b <= 16)%Z -> sound_order order -> every (fun p => pair_bits b h w (fst p) (snd p)) pairs ->
  table2 (table2 exact_entry) pairs data -> table2 (table2 (float_entry order)) pairs fdata ->
  get_temporal (h * w) data = Ok T -> get_temporal_f (h * w) fdata = Ok F ->
  exact_arrays T o -> fo_t fo = F /\ fo_sat fo = o_sat o ->
  clear_variances (variance_error b) (ftp_s2y F) (tp_s2y T) -> clear_limit (signal_error b) (7 # 10) o ->
  tp_up T = map FFin (r_up (o_t o)) -> Forall (fun x => 0 <= x) (r_up (o_t o)) -> length (r_up (o_t o)) = length (r_uy (o_t o)) ->
  length (r_uydark (o_t o)) = length (r_uy (o_t o)) ->
  forall r, responsivity o = Ok r ->
  exists m r', index_sensitivity_max o = Ok m /\ fresponsivity fo = Ok r' /\
    Qabs (r' - r) * lsumq (slice 0 (m + 1) (r_up (o_t o))) <= qn (m + 1) * signal_error b.
Proof. exact points_responsivity. Qed.
Print Assumptions C114_responsivity.

(** Three bright points of two pixels with the means 10, [a] and 90. *)
Definition pair2 (x y : Z) : image * image :=
  (mkImg 1 2 (fun _ c => if (c =? 0)%nat then x else y), mkImg 1 2 (fun _ c => if (c =? 0)%nat then y else x)).
Definition pairs114 (a : Z) : dict pyfloat (dict pyfloat (image * image)) :=
  [(FFin 1, [(FFin 0, pair2 0 0); (FFin 10, pair2 9 11); (FFin 60, pair2 (a - 2) (a + 2)); (FFin 90, pair2 80 100)])].
Definition data114 (a : Z) : dict pyfloat (dict pyfloat tdata) :=
  [(FFin 1, [(FFin 0, mkT 0 0 (0 # 4)); (FFin 10, mkT 40 16 (0 # 4)); (FFin 60, mkT (4 * a) 64 (0 # 4)); (FFin 90, mkT 360 1600 (0 # 4))])].
Definition fdata114 (a : Z) : dict pyfloat (dict pyfloat ftdata) :=
  [(FFin 1, [(FFin 0, mkFT 0 0 (FFin 0)); (FFin 10, mkFT 40 16 (FFin 0)); (FFin 60, mkFT (4 * a) 64 (FFin 0)); (FFin 90, mkFT 360 1600 (FFin 0))])].
Definition exact114 (a : Z) : temporal :=
  match get_temporal 2 (data114 a) with Ok T => T | Err _ => mkTemporal [] [] [] [] [] [] end.
Definition float114 (a : Z) : ftemporal :=
  match get_temporal_f 2 (fdata114 a) with Ok F => F | Err _ => mkFTemporal [] [] [] [] [] [] end.
Definition obj114 (a : Z) : robj :=
  mkObj (mkRT [1] [10; 60; 90] (tp_uy (exact114 a)) (tp_s2y (exact114 a)) (tp_uydark (exact114 a)) (tp_s2ydark (exact114 a)))
    sample_s None None.
Definition fobj114 (a : Z) : fobj := mkFObj (float114 a) None.

Ltac set114 :=
  (split; [apply left_to_right_sound|]);
  (split; [repeat (apply Forall_cons || apply Forall_nil); unfold pair_bits; simpl fst; simpl snd;
     repeat (split; [simpl; lia || reflexivity|]); repeat (apply Forall_cons || apply Forall_nil);
     intros r c _ _; cbn [px pair2 fst snd]; destruct (c =? 0)%nat; lia|]);
  (split; [apply Forall2_cons; [split; [reflexivity|]|apply Forall2_nil];
     repeat (apply Forall2_cons; [split; [reflexivity|apply entry_exact; vm_compute; reflexivity]|]); apply Forall2_nil|]);
  (split; [apply Forall2_cons; [split; [reflexivity|]|apply Forall2_nil];
     repeat (apply Forall2_cons; [split; [reflexivity|vm_compute; reflexivity]|]); apply Forall2_nil|]);
  (split; [vm_compute; reflexivity|]); (split; [vm_compute; reflexivity|]);
  (split; [repeat split|]); (split; [split; reflexivity|]);
  (split; [intros p I; vm_compute in I;
     repeat (destruct I as [<-|I]; [split; [left; vm_compute; reflexivity|intros p' I'; vm_compute in I';
       repeat (destruct I' as [<-|I']; [first [right; split; vm_compute; reflexivity|left; vm_compute; reflexivity]|]); destruct I']|]);
     destruct I|]).

Example C114_case :
  sound_order left_to_right /\ every (fun p => pair_bits 8 1 2 (fst p) (snd p)) (pairs114 60) /\
  table2 (table2 exact_entry) (pairs114 60) (data114 60) /\ table2 (table2 (float_entry left_to_right)) (pairs114 60) (fdata114 60) /\
  get_temporal (1 * 2) (data114 60) = Ok (exact114 60) /\ get_temporal_f (1 * 2) (fdata114 60) = Ok (float114 60) /\
  exact_arrays (exact114 60) (obj114 60) /\ (fo_t (fobj114 60) = float114 60 /\ fo_sat (fobj114 60) = o_sat (obj114 60)) /\
  clear_variances (variance_error 8) (ftp_s2y (float114 60)) (tp_s2y (exact114 60)) /\
  clear_limit (signal_error 8) (7 # 10) (obj114 60) /\ clear_limit (signal_error 8) (5 # 100) (obj114 60) /\
  clear_limit (signal_error 8) (95 # 100) (obj114 60) /\
  tp_up (exact114 60) = map FFin (r_up (o_t (obj114 60))) /\ index_sensitivity_max (obj114 60) = Ok 1%nat.
Proof.
  set114.
  do 3 (split; [intros Y i y v H1 H2 H3 H4; vm_compute in H1; injection H1 as <-; vm_compute in H2; injection H2 as <-;
    vm_compute in H3; injection H3 as <-; repeat (destruct H4 as [<-|H4]; [vm_compute; reflexivity|]); destruct H4|]).
  split; vm_compute; reflexivity.
Qed.

(** A point exactly at 70 % of saturation (63 of 90) belongs to the range, but 0.7 * 90 is
    62.99999999999999 in float64. *)
Theorem C114_at_limit_refuted : exists order pairs data fdata T F o fo,
  sound_order order /\ every (fun p => pair_bits 8 1 2 (fst p) (snd p)) pairs /\
  table2 (table2 exact_entry) pairs data /\ table2 (table2 (float_entry order)) pairs fdata /\
  get_temporal (1 * 2) data = Ok T /\ get_temporal_f (1 * 2) fdata = Ok F /\
  exact_arrays T o /\ (fo_t fo = F /\ fo_sat fo = o_sat o) /\
  clear_variances (variance_error 8) (ftp_s2y F) (tp_s2y T) /\
  Forall2 Qeq (tp_uy T) [10; 63; 90] /\ Forall2 Qeq (tp_uydark T) [0; 0; 0] /\ index_sensitivity_max o = Ok 1%nat /\
  findex_sensitivity_max fo = Ok 0%nat.
Proof.
  exists left_to_right, (pairs114 63), (data114 63), (fdata114 63), (exact114 63), (float114 63), (obj114 63), (fobj114 63).
  set114. split; [repeat constructor|]. split; [repeat constructor|]. split; vm_compute; reflexivity.
Qed.
Print Assumptions C114_at_limit_refuted.
