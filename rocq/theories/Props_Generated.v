(** Property C71: the data set of the simulated camera can be evaluated. *)
From Coq Require Import Ascii String List Bool Arith ZArith QArith Permutation Lia.
From Verif Require Import Base_Prelude Base_Str Base_Num Base_Order Base_Float Base_Sum Model_Path Model_Parser
  Model_Images Model_Loader Model_Data Model_Results Model_Emva Model_Camera Model_Points Model_Dataset
  Model_Generated Spec_Parser Spec_Camera Spec_Points Spec_Dataset Spec_Data Spec_Results Spec_Emva
  Spec_Generated Proofs_Camera2 Proofs_Dataset3 Proofs_Emva5.
Import ListNotations.
Open Scope nat_scope.

(** Points of any kind that make a complete measurement. *)
Theorem C71_evaluates li c ds version format outdir L p es file :
  extension format -> is_word version -> 3 <= L <= 1000 -> ends_with_sep outdir = false ->
  good_camera c -> (forall n, good_draws c (ds n)) -> c_bits c <= 16 ->
  2 <= c_height c * c_width c /\ (Z.of_nat (c_height c * c_width c) <= 2 ^ 29)%Z ->
  run_test li c ds version format outdir L p = (es, Ok file) ->
  ForallOrdPairs (fun s s' => ~ listed_alike li s s') (shots p) -> complete_points li p ->
  forall visit_t visit_s, any_order visit_t -> any_order visit_s ->
  (exists s, In s (shots p) /\ s_kind s = Temporal) ->
  exists o listed rows i,
    emva (disk_of (c_height c) (c_width c) es) visit_t visit_s file (Some (written es)) = Ok (Some o) /\
    Forall2 (records li L) (shots p) listed /\ concat (map e_files listed) = saved es /\
    rows_of (disk_of (c_height c) (c_width c) es) listed rows /\
    value_of F_index_u_ysat o = VZ (Ok (Z.of_nat i)) /\ i < length rows /\
    (forall m, value_of F_index_sensitivity_max o = VN (Ok m) ->
       exists r, value_of F_R o = VQ (Ok r) /\
         best_slope (m_photons rows) (m_signal (c_height c) (c_width c) rows) m r).
Proof. exact (generated_evaluates li c ds version format outdir L p es file). Qed.
Print Assumptions C71_evaluates.

(** An exposure series: one row per requested step. *)
Theorem C71_series li env c a c' p lo hi ds version format outdir L es file visit_t visit_s :
  make_points env c a = (c', Ok p) -> a_exposure_fixed a = None ->
  limit (a_exposure_min a) (e_min env) (FFin lo) -> limit (a_exposure_max a) (e_max env) (FFin hi) ->
  apart lo hi (a_steps a) ->
  feq (l_mean li (repeat (FFin 0) (e_size env))) fzero = true ->
  (forall t bright rs, In (t, bright :: rs) (p_temporal p) ->
     feq (l_mean li bright) fzero = false /\
     exists q, as_printed 3 (np_round 3 (l_photons li t bright)) = FFin q /\ (0 < q)%Q) ->
  good_camera c' -> (forall n, good_draws c' (ds n)) -> c_bits c' <= 16 ->
  2 <= c_height c' * c_width c' /\ (Z.of_nat (c_height c' * c_width c') <= 2 ^ 29)%Z ->
  extension format -> is_word version -> 3 <= L <= 1000 -> ends_with_sep outdir = false ->
  run_test li c' ds version format outdir L p = (es, Ok file) ->
  any_order visit_t -> any_order visit_s ->
  exists o listed rows i,
    emva (disk_of (c_height c') (c_width c') es) visit_t visit_s file (Some (written es)) = Ok (Some o) /\
    Forall2 (records li L) (shots p) listed /\ concat (map e_files listed) = saved es /\
    rows_of (disk_of (c_height c') (c_width c') es) listed rows /\ length rows = a_steps a /\
    value_of F_index_u_ysat o = VZ (Ok (Z.of_nat i)) /\ i < a_steps a.
Proof. exact (series_evaluates li env c a c' p lo hi ds version format outdir L es file visit_t visit_s). Qed.
Print Assumptions C71_series.

(** The hypotheses hold of a camera of two pixels and three exposures. *)
Example C71_case : exists c' es file,
  make_points demo_env demo_cam (demo_args None 3) = (c', Ok demo_points) /\
  limit (a_exposure_min (demo_args None 3)) (e_min demo_env) (FFin (inject_Z 500)) /\
  limit (a_exposure_max (demo_args None 3)) (e_max demo_env) (FFin (inject_Z 10500)) /\
  apart (inject_Z 500) (inject_Z 10500) 3 /\
  feq (l_mean demo_light (repeat (FFin 0) (e_size demo_env))) fzero = true /\
  (forall t bright rs, In (t, bright :: rs) (p_temporal demo_points) ->
     feq (l_mean demo_light bright) fzero = false /\
     exists q, as_printed 3 (np_round 3 (l_photons demo_light t bright)) = FFin q /\ (0 < q)%Q) /\
  good_camera c' /\ good_draws c' demo_draws /\ c_bits c' <= 16 /\ c_height c' * c_width c' = 2 /\
  run_test demo_light c' (fun _ => demo_draws) (lit "4.0") (lit "png") (lit "/o") 3 demo_points = (es, Ok file) /\
  match emva (disk_of (c_height c') (c_width c') es) (fun m => m) (fun m => m) file (Some (written es)) with
  | Ok (Some o) => value_of F_index_u_ysat o = VZ (Ok 0%Z)
  | _ => False
  end.
Proof.
  eexists. do 2 eexists. split; [vm_compute; reflexivity|].
  split; [apply demo_limits|]. split; [apply demo_limits|]. split; [apply demo_limits|].
  split; [vm_compute; reflexivity|].
  split; [intros t b rs [H|[H|[H|[]]]]; injection H as <- <- <-; (split; [reflexivity|]);
          eexists; (split; [vm_compute; reflexivity|]); reflexivity|].
  split; [exact (proj1 demo_camera_good)|]. split; [exact (proj1 (proj2 demo_camera_good))|].
  split; [vm_compute; repeat constructor|]. split; [reflexivity|].
  split; [vm_compute; reflexivity|]. vm_compute. reflexivity.
Qed.
