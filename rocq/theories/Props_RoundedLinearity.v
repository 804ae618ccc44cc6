(** Property C129: the linearity errors computed in double precision. *)
From Coq Require Import List Bool Arith ZArith QArith Qabs Lia.
From Verif Require Import Base_Prelude Base_Num Base_Order Base_Sum Base_Float Spec_Num
  Model_Images Model_Loader Model_Data Model_Rounded Model_Results Model_RoundedIndex Model_RoundedLinearity
  Spec_Images Spec_Data Spec_Results Spec_Rounded Spec_RoundedIndex Spec_RoundedLinearity
  Proofs_Rounded5 Proofs_RoundedIndex3 Proofs_RLinearity Props_Results Props_RoundedIndex.
Import ListNotations.
Open Scope Q_scope.

(** The errors reported are the extremes of the deviations of the points of the range. *)
Theorem C129_extremes order o l : flinearity order o = Ok l ->
  exists lo hi, findex_linearity_min o = Ok lo /\ findex_linearity_max o = Ok hi /\ (lo <= hi)%nat /\
    extremes (between lo hi (fl_dev l)) (fl_min l) (fl_max l).
Proof. exact (linearity_extremes order o l). Qed.
Print Assumptions C129_extremes.

(** They are reported unless the range is empty. *)
Theorem C129_reported order o Y lo hi : fsignal o = Ok Y -> length (ftp_up (fo_t o)) = length Y ->
  findex_linearity_min o = Ok lo -> findex_linearity_max o = Ok hi ->
  ((lo <= hi)%nat -> exists l, flinearity order o = Ok l /\ length (fl_dev l) = length Y) /\
  ((hi < lo)%nat -> flinearity order o = Err ValueError).
Proof. exact (linearity_reported order o Y lo hi). Qed.
Print Assumptions C129_reported.

Example C129_case : let o := fobj114 60 in
  fsignal o = Ok [FFin 10; FFin 60; FFin 90] /\ findex_linearity_min o = Ok 0%nat /\ findex_linearity_max o = Ok 1%nat /\
  exists l, flinearity chain_sums o = Ok l /\ length (fl_dev l) = 3%nat /\ at_most (fl_min l) (fl_max l).
Proof.
  cbv zeta. do 3 (split; [vm_compute; reflexivity|]).
  eexists. split; [vm_compute; reflexivity|]. split; [reflexivity|]. vm_compute. auto.
Qed.
Example C129_empty : let o := mkFObj (mkFTemporal [FFin 1] [FFin 1; FFin 2; FFin 100] [FFin 1; FFin 2; FFin 100] [FFin 1; FFin 2; FFin 5] [FFin 0; FFin 0; FFin 0] [FFin 0; FFin 0; FFin 0]) None in
  findex_linearity_min o = Ok 2%nat /\ findex_linearity_max o = Ok 1%nat /\ flinearity chain_sums o = Err ValueError.
Proof. cbv zeta. do 2 (split; [vm_compute; reflexivity|]). vm_compute. reflexivity. Qed.

(** With one photon level in the range no line is determined and none is reported: exact numbers. *)
Theorem C129_one_level o n lo hi x : shaped o n -> index_linearity_min o = Ok lo -> index_linearity_max o = Ok hi ->
  (lo <= hi)%nat -> (forall i, in_range lo hi i -> photons o i == x) ->
  exists l, linearity o = Ok l /\ lin_fit l = None /\ LE_min o = Ok None /\ LE_max o = Ok None.
Proof. exact (one_level_exact o n lo hi x). Qed.
Print Assumptions C129_one_level.

(** Three bright points of two pixels: the mean 1 at 100 photons, a at 1000 photons, and 40 at 10000. *)
Definition pairs129 (a : Z) : dict pyfloat (dict pyfloat (image * image)) :=
  [(FFin 1, [(FFin 0, pair2 0 0); (FFin 100, pair2 0 2); (FFin 1000, pair2 (a - 1) (a + 1)); (FFin 10000, pair2 30 50)])].
Definition data129 (a : Z) : dict pyfloat (dict pyfloat tdata) :=
  [(FFin 1, [(FFin 0, mkT 0 0 (0 # 4)); (FFin 100, mkT 4 16 (0 # 4)); (FFin 1000, mkT (4 * a) 16 (0 # 4)); (FFin 10000, mkT 160 1600 (0 # 4))])].
Definition fdata129 (a : Z) : dict pyfloat (dict pyfloat ftdata) :=
  [(FFin 1, [(FFin 0, mkFT 0 0 (FFin 0)); (FFin 100, mkFT 4 16 (FFin 0)); (FFin 1000, mkFT (4 * a) 16 (FFin 0)); (FFin 10000, mkFT 160 1600 (FFin 0))])].
Definition exact129 (a : Z) : temporal :=
  match get_temporal 2 (data129 a) with Ok T => T | Err _ => mkTemporal [] [] [] [] [] [] end.
Definition float129 (a : Z) : ftemporal :=
  match get_temporal_f 2 (fdata129 a) with Ok F => F | Err _ => mkFTemporal [] [] [] [] [] [] end.
Definition obj129 (a : Z) : robj :=
  mkObj (mkRT [1; 1; 1] [100; 1000; 10000] (tp_uy (exact129 a)) (tp_s2y (exact129 a)) (tp_uydark (exact129 a)) (tp_s2ydark (exact129 a)))
    sample_s None None.
Definition fobj129 (a : Z) : fobj := mkFObj (float129 a) None.

(** Refuted in double precision: the only point of the range has 3 grey values at 1000 photons,
    exact arithmetic has no result, yet whatever the order of the additions errors of exactly
    0 % are reported, for a line of slope 1/1000 and offset 2. *)
Theorem C129_one_point_refuted : exists pairs data fdata T F o fo,
  every (fun p => pair_bits 8 1 2 (fst p) (snd p)) pairs /\
  table2 (table2 exact_entry) pairs data /\ table2 (table2 (float_entry left_to_right)) pairs fdata /\
  get_temporal (1 * 2) data = Ok T /\ get_temporal_f (1 * 2) fdata = Ok F /\
  exact_arrays T o /\ (fo_t fo = F /\ fo_sat fo = o_sat o) /\
  index_linearity_min o = Ok 1%nat /\ index_linearity_max o = Ok 1%nat /\ LE_min o = Ok None /\ LE_max o = Ok None /\
  forall order, sound_sums order ->
  exists l, flinearity order fo = Ok l /\ fl_slope l = rnd64 (1 # 1000) /\ fl_offset l = FFin 2 /\
    fl_min l = FFin 0 /\ fl_max l = FFin 0.
Proof.
  exists (pairs129 3), (data129 3), (fdata129 3), (exact129 3), (float129 3), (obj129 3), (fobj129 3).
  split; [repeat (apply Forall_cons || apply Forall_nil); unfold pair_bits; simpl fst; simpl snd;
     repeat (split; [simpl; lia || reflexivity|]); repeat (apply Forall_cons || apply Forall_nil);
     intros r c _ _; cbn [px pair2 fst snd]; destruct (c =? 0)%nat; lia|].
  split; [apply Forall2_cons; [split; [reflexivity|]|apply Forall2_nil];
     repeat (apply Forall2_cons; [split; [reflexivity|apply entry_exact; vm_compute; reflexivity]|]); apply Forall2_nil|].
  split; [apply Forall2_cons; [split; [reflexivity|]|apply Forall2_nil];
     repeat (apply Forall2_cons; [split; [reflexivity|vm_compute; reflexivity]|]); apply Forall2_nil|].
  split; [vm_compute; reflexivity|]. split; [vm_compute; reflexivity|].
  split; [repeat split|]. split; [split; reflexivity|].
  do 4 (split; [vm_compute; reflexivity|]).
  intros order S. rewrite (linearity_one order chain_sums (fobj129 3) 1 S chain_sound);
    [|vm_compute; reflexivity|vm_compute; reflexivity|intros Y E; vm_compute in E; injection E as <-; reflexivity].
  eexists. split; [vm_compute; reflexivity|]. repeat split; vm_compute; reflexivity.
Qed.
Print Assumptions C129_one_point_refuted.

(** With 4 grey values instead of 3 the same measurement has no linearity error, with 15 it has an
    infinite slope. *)
Example C129_one_point_others :
  (exists l, flinearity chain_sums (fobj129 4) = Ok l /\ fl_min l = FNan /\ fl_max l = FNan) /\
  (exists l, flinearity chain_sums (fobj129 15) = Ok l /\ fl_slope l = FInf false /\ fl_min l = FNan).
Proof. split; eexists; (split; [vm_compute; reflexivity|]); split; reflexivity. Qed.
