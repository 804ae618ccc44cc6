(** Property C130: accuracy of the linearity errors computed in double precision. *)
From Coq Require Import List Bool Arith ZArith QArith Qabs Lia.
From Verif Require Import Base_Prelude Base_Num Base_Order Base_Sum Base_Float Spec_Num
  Model_Images Model_Loader Model_Data Model_Rounded Model_Results Model_RoundedIndex Model_RoundedLinearity
  Spec_Images Spec_Data Spec_Results Spec_Rounded Spec_RoundedIndex Spec_RoundedLinearity Proofs_RLinearity Proofs_Rounded5 Proofs_RoundedIndex3 Proofs_RLinearity6 Proofs_RLinearity7 Props_Results Props_RoundedIndex.
Import ListNotations.
Open Scope Q_scope.

(** Each deviation computed for a point of the range, and both errors reported, are within
    20000 (2n+4j+13) n kappa^2 2^-53 per cent of the exact ones, for n points in the range whose
    computed signals are right up to j units of 2^-53 and whatever the order of the additions. *)
Theorem C130_accuracy order o fo n Y lo hi kappa j : sound_sums order -> shaped o n ->
  Forall2 stands_for (ftp_up (fo_t fo)) (r_up (o_t o)) -> fsignal fo = Ok Y -> length Y = n ->
  index_linearity_min o = Ok lo -> index_linearity_max o = Ok hi ->
  findex_linearity_min fo = Ok lo -> findex_linearity_max fo = Ok hi -> (lo <= hi)%nat -> (hi - lo < 200)%nat -> (j < 100)%nat ->
  (forall i, in_range lo hi i -> signal_close j (nth i Y FNan) (sig o i)) ->
  (forall i, in_range lo hi i -> moderate (photons o i) /\ moderate (sig o i)) ->
  1 <= kappa -> levels_spread kappa (range_points o lo hi) -> linearity_bound kappa (S (hi - lo)) j <= 100 ->
  exists l a b, flinearity order fo = Ok l /\ best_relative_line (photons o) (sig o) lo hi a b /\
    (forall i, in_range lo hi i -> sig o i / 2 <= a * photons o i + b ->
       exists d, nth_error (fl_dev l) i = Some d /\ within (linearity_bound kappa (S (hi - lo)) j) (rel_dev o a b i) d) /\
    ((forall i, in_range lo hi i -> sig o i / 2 <= a * photons o i + b) ->
     exists mn mx, LE_min o = Ok (Some mn) /\ LE_max o = Ok (Some mx) /\
       within (linearity_bound kappa (S (hi - lo)) j) mn (fl_min l) /\
       within (linearity_bound kappa (S (hi - lo)) j) mx (fl_max l)).
Proof. exact (linearity_accuracy order o fo n Y lo hi kappa j). Qed.
Print Assumptions C130_accuracy.

(** Five points, the first three in the range: the errors are below 10^-8 per cent. *)
Definition obj130 : robj :=
  mkObj (mkRT [1; 1; 1; 1; 1] [10; 30; 60; 90; 100] [11; 34; 59; 91; 96] [1; 3; 6; 9; 2] [1; 1; 1; 1; 1] [0; 0; 0; 0; 0]) sample_s None None.
Definition fobj130 : fobj :=
  mkFObj (mkFTemporal (map FFin [1; 1; 1; 1; 1]) (map FFin [10; 30; 60; 90; 100]) (map FFin [11; 34; 59; 91; 96])
    (map FFin [1; 3; 6; 9; 2]) (map FFin [1; 1; 1; 1; 1]) (map FFin [0; 0; 0; 0; 0])) None.

Example C130_case :
  sound_sums chain_sums /\ shaped obj130 5 /\
  (exists Y, fsignal fobj130 = Ok Y /\ length Y = 5%nat /\ forall i, in_range 0 2 i -> signal_close 0 (nth i Y FNan) (sig obj130 i)) /\
  Forall2 stands_for (ftp_up (fo_t fobj130)) (r_up (o_t obj130)) /\
  index_linearity_min obj130 = Ok 0%nat /\ index_linearity_max obj130 = Ok 2%nat /\
  findex_linearity_min fobj130 = Ok 0%nat /\ findex_linearity_max fobj130 = Ok 2%nat /\
  (forall i, in_range 0 2 i -> moderate (photons obj130 i) /\ moderate (sig obj130 i)) /\
  levels_spread 3 (range_points obj130 0 2) /\ linearity_bound 3 3 0 <= 1 # 100000000 /\
  (exists l a b, linearity obj130 = Ok l /\ lin_fit l = Some (a, b) /\
     forall i, in_range 0 2 i -> sig obj130 i / 2 <= a * photons obj130 i + b) /\
  exists mn mx, LE_min obj130 = Ok (Some mn) /\ LE_max obj130 = Ok (Some mx) /\ mn < - (2) /\ 5 < mx.
Proof.
  split; [exact chain_sound|]. split; [repeat split|].
  split; [eexists; split; [vm_compute; reflexivity|]; split; [reflexivity|]; intros [|[|[|i]]] R; [| | |unfold in_range in R; lia];
     (eexists; split; [reflexivity|vm_compute; discriminate])|].
  split; [repeat constructor; eexists; (split; [reflexivity|vm_compute; reflexivity])|].
  do 4 (split; [vm_compute; reflexivity|]).
  split; [intros [|[|[|i]]] R; [| | |unfold in_range in R; lia]; (split; split; vm_compute; discriminate)|].
  split; [vm_compute; discriminate|]. split; [vm_compute; discriminate|].
  split.
  - eexists. eexists. eexists. split; [vm_compute; reflexivity|]. split; [reflexivity|].
    intros [|[|[|i]]] R; [| | |unfold in_range in R; lia]; vm_compute; discriminate.
  - eexists. eexists. split; [vm_compute; reflexivity|]. split; [vm_compute; reflexivity|]. split; vm_compute; reflexivity.
Qed.

(** The same for a measurement given as pairs of images with b bits, whose signals in the range
    are at least 4/j of the full scale. *)
Theorem C130_measurement order sums b h w pairs data fdata T F o fo n lo hi kappa j :
  (0 <= b <= 16)%Z -> sound_order order -> sound_sums sums -> every (fun p => pair_bits b h w (fst p) (snd p)) pairs ->
  table2 (table2 exact_entry) pairs data -> table2 (table2 (float_entry order)) pairs fdata ->
  get_temporal (h * w) data = Ok T -> get_temporal_f (h * w) fdata = Ok F ->
  exact_arrays T o -> fo_t fo = F /\ fo_sat fo = o_sat o ->
  clear_variances (variance_error b) (ftp_s2y F) (tp_s2y T) ->
  clear_limit (signal_error b) (5 # 100) o -> clear_limit (signal_error b) (95 # 100) o ->
  shaped o n -> tp_up T = map FFin (r_up (o_t o)) ->
  index_linearity_min o = Ok lo -> index_linearity_max o = Ok hi -> (lo <= hi)%nat -> (hi - lo < 200)%nat -> (j < 100)%nat ->
  (forall i, in_range lo hi i -> moderate (photons o i) /\ moderate (sig o i) /\ inject_Z (4 * 2 ^ b) <= qn j * sig o i) ->
  1 <= kappa -> levels_spread kappa (range_points o lo hi) -> linearity_bound kappa (S (hi - lo)) j <= 100 ->
  exists l a b, flinearity sums fo = Ok l /\ best_relative_line (photons o) (sig o) lo hi a b /\
    (forall i, in_range lo hi i -> sig o i / 2 <= a * photons o i + b ->
       exists d, nth_error (fl_dev l) i = Some d /\ within (linearity_bound kappa (S (hi - lo)) j) (rel_dev o a b i) d) /\
    ((forall i, in_range lo hi i -> sig o i / 2 <= a * photons o i + b) ->
     exists mn mx, LE_min o = Ok (Some mn) /\ LE_max o = Ok (Some mx) /\
       within (linearity_bound kappa (S (hi - lo)) j) mn (fl_min l) /\
       within (linearity_bound kappa (S (hi - lo)) j) mx (fl_max l)).
Proof. exact (measurement_accuracy order sums b h w pairs data fdata T F o fo n lo hi kappa j). Qed.
Print Assumptions C130_measurement.

(** Four bright points of two 8-bit pixels, the first 12 grey values above the dark: its signal is
    right up to 86 units of 2^-53 (4 * 256 <= 86 * 12), and the bound is below 10^-7 per cent. *)
Definition pairs130 : dict pyfloat (dict pyfloat (image * image)) :=
  [(FFin 1, [(FFin 0, pair2 0 0); (FFin 10, pair2 11 13); (FFin 30, pair2 30 36); (FFin 60, pair2 54 64); (FFin 90, pair2 80 100)])].
Definition data130 : dict pyfloat (dict pyfloat tdata) :=
  [(FFin 1, [(FFin 0, mkT 0 0 (0 # 4)); (FFin 10, mkT 48 16 (0 # 4)); (FFin 30, mkT 132 144 (0 # 4)); (FFin 60, mkT 236 400 (0 # 4)); (FFin 90, mkT 360 1600 (0 # 4))])].
Definition fdata130 : dict pyfloat (dict pyfloat ftdata) :=
  [(FFin 1, [(FFin 0, mkFT 0 0 (FFin 0)); (FFin 10, mkFT 48 16 (FFin 0)); (FFin 30, mkFT 132 144 (FFin 0)); (FFin 60, mkFT 236 400 (FFin 0)); (FFin 90, mkFT 360 1600 (FFin 0))])].
Definition exact130 : temporal :=
  match get_temporal 2 data130 with Ok T => T | Err _ => mkTemporal [] [] [] [] [] [] end.
Definition float130 : ftemporal :=
  match get_temporal_f 2 fdata130 with Ok F => F | Err _ => mkFTemporal [] [] [] [] [] [] end.
Definition mobj130 : robj :=
  mkObj (mkRT [1; 1; 1; 1] [10; 30; 60; 90] (tp_uy exact130) (tp_s2y exact130) (tp_uydark exact130) (tp_s2ydark exact130))
    sample_s None None.
Definition mfobj130 : fobj := mkFObj float130 None.

Example C130_measurement_case :
  sound_order left_to_right /\ every (fun p => pair_bits 8 1 2 (fst p) (snd p)) pairs130 /\
  table2 (table2 exact_entry) pairs130 data130 /\ table2 (table2 (float_entry left_to_right)) pairs130 fdata130 /\
  get_temporal (1 * 2) data130 = Ok exact130 /\ get_temporal_f (1 * 2) fdata130 = Ok float130 /\
  exact_arrays exact130 mobj130 /\ (fo_t mfobj130 = float130 /\ fo_sat mfobj130 = o_sat mobj130) /\
  clear_variances (variance_error 8) (ftp_s2y float130) (tp_s2y exact130) /\
  clear_limit (signal_error 8) (5 # 100) mobj130 /\ clear_limit (signal_error 8) (95 # 100) mobj130 /\
  shaped mobj130 4 /\ tp_up exact130 = map FFin (r_up (o_t mobj130)) /\
  index_linearity_min mobj130 = Ok 0%nat /\ index_linearity_max mobj130 = Ok 2%nat /\
  (forall i, in_range 0 2 i -> moderate (photons mobj130 i) /\ moderate (sig mobj130 i) /\ inject_Z (4 * 2 ^ 8) <= qn 86 * sig mobj130 i) /\
  levels_spread 4 (range_points mobj130 0 2) /\ linearity_bound 4 3 86 <= 1 # 10000000 /\
  exists l a b, linearity mobj130 = Ok l /\ lin_fit l = Some (a, b) /\
     forall i, in_range 0 2 i -> sig mobj130 i / 2 <= a * photons mobj130 i + b.
Proof.
  set114.
  split; [intros Y i y v EY EI EG I; vm_compute in EY; injection EY as <-; vm_compute in EI; injection EI as <-; vm_compute in EG; injection EG as <-;
     repeat (destruct I as [<-|I]; [vm_compute; reflexivity|]); destruct I|].
  split; [intros Y i y v EY EI EG I; vm_compute in EY; injection EY as <-; vm_compute in EI; injection EI as <-; vm_compute in EG; injection EG as <-;
     repeat (destruct I as [<-|I]; [vm_compute; reflexivity|]); destruct I|].
  split; [repeat split|]. split; [vm_compute; reflexivity|]. do 2 (split; [vm_compute; reflexivity|]).
  split; [intros [|[|[|i]]] R; [| | |unfold in_range in R; lia]; (split; [split; vm_compute; discriminate|]); (split; [split; vm_compute; discriminate|]); vm_compute; discriminate|].
  split; [vm_compute; discriminate|]. split; [vm_compute; discriminate|].
  eexists. eexists. eexists. split; [vm_compute; reflexivity|]. split; [reflexivity|].
  intros [|[|[|i]]] R; [| | |unfold in_range in R; lia]; vm_compute; discriminate.
Qed.
