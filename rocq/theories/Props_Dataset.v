(** Properties C54, C55, C67 of generated data sets. *)
From Coq Require Import Ascii String List Bool Arith ZArith QArith Qabs Permutation Lia.
From Verif Require Import Base_Prelude Base_Str Base_Num Base_Order Base_Float Model_Path Model_Parser
  Model_Camera Model_Points Model_Dataset Spec_Parser Spec_Dataset Spec_Points Spec_Camera Proofs_Camera2
  Proofs_Dataset Proofs_Dataset2 Proofs_Points3 Proofs_Dataset3.
Import ListNotations.
Open Scope nat_scope.

(** C54: a generated data set parses back to its operation points. *)
Theorem C54_parses_back li c ds version format outdir L p es file f path :
  extension format -> is_word version -> 3 <= L ->
  run_test li c ds version format outdir L p = (es, Ok file) ->
  found outdir f path ->
  ForallOrdPairs (fun s s' => ~ listed_alike li s s') (shots p) ->
  exists d entries', parse_file f path (Some (written es)) = Ok d /\
    d_version d = Some version /\
    d_format d = Some (Z.of_nat (c_bits c), Z.of_nat (c_width c), Z.of_nat (c_height c)) /\
    Permutation (entries d) entries' /\
    Forall2 (records li L) (shots p) entries' /\
    concat (map e_files entries') = saved es.
Proof. exact (parses_back li c ds version format outdir L p es file f path). Qed.
Print Assumptions C54_parses_back.

Example C54_case : (exists es, demo_run 3 = (es, Ok (lit "/o/EMVA1288descriptor.txt")) /\
  length (saved es) = 18 /\
  firstn 3 (load_lines (written es)) = [lit "v 4.0"; lit "n 8 2 1"; lit "b 500.0 1666.667"]) /\
  ForallOrdPairs (fun s s' => ~ listed_alike demo_light s s') (shots demo_points).
Proof. exact (conj demo_text demo_different). Qed.

(** The points of an exposure series are told apart, so the data set a
    [DatasetGenerator] makes of one always parses. *)
Theorem C54_series li env c a c' p lo hi :
  make_points env c a = (c', Ok p) -> a_exposure_fixed a = None ->
  limit (a_exposure_min a) (e_min env) (FFin lo) -> limit (a_exposure_max a) (e_max env) (FFin hi) ->
  apart lo hi (a_steps a) ->
  feq (l_mean li (repeat (FFin 0) (e_size env))) fzero = true ->
  (forall t bright rs, In (t, bright :: rs) (p_temporal p) ->
     feq (l_mean li bright) fzero = false /\
     feq (as_printed 3 (np_round 3 (l_photons li t bright))) fzero = false) ->
  ForallOrdPairs (fun s s' => ~ listed_alike li s s') (shots p) /\
  length (shots p) = 2 * a_steps a + 2.
Proof. exact (series_different li env c a c' p lo hi). Qed.
Print Assumptions C54_series.

Example C54_series_case :
  feq (l_mean demo_light (repeat (FFin 0) (e_size demo_env))) fzero = true /\
  (forall t bright rs, In (t, bright :: rs) (p_temporal demo_points) ->
     feq (l_mean demo_light bright) fzero = false /\
     feq (as_printed 3 (np_round 3 (l_photons demo_light t bright))) fzero = false).
Proof.
  split; [vm_compute; reflexivity|]. intros t b rs [H|[H|[H|[]]]]; injection H as <- <- <-; vm_compute; auto.
Qed.

(** [DatasetGenerator] runs the test on the points of its camera. *)
Theorem C54_generator env li c ho hk ds1 ds2 ds mkdir version format outdir L steps rmin rmax fixed es file :
  dataset env li c ho hk ds1 ds2 ds mkdir version format outdir L steps rmin rmax fixed = (es, Ok file) ->
  exists c0 c1 p, make_points env c0 (mkArgs None None fixed rmin rmax None None steps) = (c1, Ok p) /\
    run_test li c1 ds version format outdir L p = (es, Ok file).
Proof. exact (dataset_runs env li c ho hk ds1 ds2 ds mkdir version format outdir L steps rmin rmax fixed es file). Qed.
Print Assumptions C54_generator.

(** The conditions are needed: with two images the spatial point is a second
    temporal one, with fewer the descriptor is not accepted. *)
Theorem C54_two_images li c ds version format outdir p es file f path t r :
  extension format -> is_word version ->
  run_test li c ds version format outdir 2 p = (es, Ok file) ->
  (exists rs, In (t, rs) (p_temporal p) /\ In r rs) -> (exists rs, In (t, rs) (p_spatial p) /\ In r rs) ->
  t <> FNan -> l_photons li t r <> FNan ->
  exists e, parse_file f path (Some (written es)) = Err e.
Proof. exact (two_images_rejected li c ds version format outdir p es file f path t r). Qed.
Print Assumptions C54_two_images.

Theorem C54_fewer_images li c ds version format outdir L p es file f path :
  extension format -> is_word version -> L < 2 ->
  run_test li c ds version format outdir L p = (es, Ok file) ->
  (exists t r rs, In (t, r :: rs) (p_spatial p)) ->
  exists e, parse_file f path (Some (written es)) = Err e.
Proof. exact (few_rejected li c ds version format outdir L p es file f path). Qed.
Print Assumptions C54_fewer_images.

Example C54_two_images_case :
  (exists rs, In (fi 5500, rs) (p_temporal demo_points) /\ In [fi 8; fi 12] rs) /\
  (exists rs, In (fi 5500, rs) (p_spatial demo_points) /\ In [fi 8; fi 12] rs) /\
  exists es file, demo_run 2 = (es, Ok file).
Proof.
  split; [|split].
  - eexists. split; [right; left; reflexivity|left; reflexivity].
  - eexists. split; [left; reflexivity|left; reflexivity].
  - do 2 eexists. vm_compute. reflexivity.
Qed.

(** Fewer than 0.0005 photons are printed as none; the descriptor is rejected. *)
Theorem C54_dim_refuted : exists es file,
  run_test dim_light demo_cam (fun _ => demo_draws) (lit "4.0") (lit "png") (lit "/o") 3 demo_points
    = (es, Ok file) /\
  parse_file file None (Some (written es)) = Err SyntaxError.
Proof. exact dim_rejected. Qed.
Print Assumptions C54_dim_refuted.

(** C55: stopped anywhere (after the effects [a], with any part [t] of the text on
    disk), the saved images are a prefix of the sequence and at most one named
    image is missing, or its name is cut. *)
Theorem C55_stopped li c ds version format outdir L p es r a b t u toks :
  extension format -> is_word version ->
  run_test li c ds version format outdir L p = (es, r) ->
  es = a ++ b -> written a = t ++ u -> text_content t toks ->
  exists k m rest,
    saved a = map (fun i => save_path outdir (image_name i format)) (seq 0 k) /\
    named toks = map (fun i => lit "images\" ++ image_name i format) (seq 0 m) ++ rest /\
    (rest = [] /\ m <= S k \/ length rest = 1 /\ m <= k).
Proof. exact (stopped li c ds version format outdir L p es r a b t u toks). Qed.
Print Assumptions C55_stopped.

(** Complete: the named images are the saved ones, as many as the points need. *)
Theorem C55_completed li c ds version format outdir L p es file toks :
  extension format -> is_word version ->
  run_test li c ds version format outdir L p = (es, Ok file) ->
  text_content (written es) toks ->
  exists k,
    saved es = map (fun i => save_path outdir (image_name i format)) (seq 0 k) /\
    named toks = map (fun i => lit "images\" ++ image_name i format) (seq 0 k) /\
    k = list_sum (map (images_in L) (shots p)).
Proof. exact (completed li c ds version format outdir L p es file toks). Qed.
Print Assumptions C55_completed.

(** No image file is written twice. *)
Theorem C55_saved_once outdir format k :
  NoDup (map (fun i => save_path outdir (image_name i format)) (seq 0 k)).
Proof. exact (saved_once outdir format k). Qed.
Print Assumptions C55_saved_once.

(** The run of a sound camera completes. *)
Theorem C55_completes c ds format outdir li version L p :
  good_camera c -> (forall n, good_draws c (ds n)) ->
  exists file, snd (run_test li c ds version format outdir L p) = Ok file.
Proof. exact (run_completes c ds format outdir li version L p). Qed.
Print Assumptions C55_completes.

(** A run cut after 6 effects, in the middle of the second image's line. *)
Example C55_case : exists es file, demo_run 3 = (es, Ok file) /\
  saved (firstn 6 es) = [lit "/o/images/image0.png"] /\
  firstn 57 (written (firstn 6 es)) = lit "v 4.0
n 8 2 1
b 500.0 1666.667
i images\image0.png
i imag" /\ good_camera demo_cam /\ good_draws demo_cam demo_draws.
Proof.
  do 2 eexists. split; [vm_compute; reflexivity|]. split; [vm_compute; reflexivity|].
  split; [vm_compute; reflexivity|]. split; apply demo_camera_good.
Qed.

(** C67: a saved image holds the pixels the camera delivered, for up to 32 bits. *)
Theorem C67_saved_pixels c ds format outdir li version L p es r path img :
  good_camera c -> (forall n, good_draws c (ds n)) -> c_bits c <= 32 ->
  run_test li c ds version format outdir L p = (es, r) -> In (ESave path img) es ->
  exists n s, In s (shots p) /\ path = save_path outdir (image_name n format) /\
    grab (set_exposure c (s_exposure s)) (ds n) = Ok img.
Proof. exact (saved_pixels c ds format outdir li version L p es r path img). Qed.
Print Assumptions C67_saved_pixels.

Example C67_case : exists es file, demo_run 3 = (es, Ok file) /\
  In (ESave (lit "/o/images/image17.png") [Some 5; Some 205]%Z) es.
Proof.
  do 2 eexists. split; [vm_compute; reflexivity|]. apply in_rev. vm_compute. left. reflexivity.
Qed.

(** With more bits the high ones are lost. *)
Theorem C67_deep_refuted : exists c ds li p es file path img px,
  good_camera c /\ (forall n, good_draws c (ds n)) /\ c_bits c = 33 /\
  run_test li c ds (lit "4.0") (lit "png") (lit "o") 3 p = (es, Ok file) /\
  In (ESave path img) es /\ img = [Some (2 ^ 32 - 1)%Z] /\
  px = [Some (2 ^ 33 - 1)%Z] /\ (forall t n, grab (set_exposure c t) (ds n) = Ok px).
Proof. exact deep_saved. Qed.
Print Assumptions C67_deep_refuted.
