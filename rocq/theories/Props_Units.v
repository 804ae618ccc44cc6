(** Properties C108, C109 and C110: black level, grey scale and units of a measurement. *)
From Coq Require Import Ascii String List Bool Arith ZArith QArith Reals Qreals Permutation Lia Lra.
From Verif Require Import Base_Prelude Base_Str Base_Num Base_Order Base_Sum Base_Xreal Model_Path Model_Parser
  Model_Images Model_Loader Model_Data Model_Results Model_Emva Spec_Parser Spec_Images Spec_Data Spec_Results
  Spec_Emva Spec_Units Proofs_Parser Proofs_Parser2 Proofs_Emva4 Proofs_Units4 Proofs_Units5 Proofs_Units6 Props_Emva.
Import ListNotations.
Open Scope Q_scope.

(** ** C108: the black level is irrelevant *)
Theorem C108_black_level :
  forall fs fs' h w c fname fname' d d' es es' visit_t visit_s visit_t' visit_s',
  any_order visit_t -> any_order visit_s -> any_order visit_t' -> any_order visit_s' ->
  lists fname d es -> lists fname' d' es' -> complete_set fs h w es -> complete_set fs' h w es' ->
  Forall2 (restated fs fs' (regraded 1 c) 1 1) es es' ->
  exists o o', emva fs visit_t visit_s fname (Some d) = Ok (Some o) /\
    emva fs' visit_t' visit_s' fname' (Some d') = Ok (Some o') /\
    forall f, same_value (value_of f o) (value_of f o').
Proof. exact black_level. Qed.
Print Assumptions C108_black_level.

(** The set with five grey values more. *)
Example C108_case : complete_set (graded_fs set_fs 1 5) 1 2 set_entries /\
  Forall2 (restated set_fs (graded_fs set_fs 1 5) (regraded 1 5) 1 1) set_entries set_entries /\
  graded_fs set_fs 1 5 (lit "set/c") <> set_fs (lit "set/c").
Proof.
  split; [exact graded_complete|]. split; [apply graded_all|]. intro H.
  apply (f_equal (fun o => match o with Some im => px im 0 0 | None => 0%Z end)) in H. vm_compute in H. discriminate.
Qed.

(** ** C109: all grey values times g *)
Theorem C109_grey_scale :
  forall fs fs' h w g fname fname' d d' es es' visit_t visit_s visit_t' visit_s',
  any_order visit_t -> any_order visit_s -> any_order visit_t' -> any_order visit_s' ->
  lists fname d es -> lists fname' d' es' -> complete_set fs h w es -> complete_set fs' h w es' ->
  (0 < g)%Z -> Forall2 (restated fs fs' (regraded g 0) 1 1) es es' ->
  exists o o', emva fs visit_t visit_s fname (Some d) = Ok (Some o) /\
    emva fs' visit_t' visit_s' fname' (Some d') = Ok (Some o') /\
    (has_signal o -> forall f,
       uses_dark_noise f = false \/
       (is_sigma_d f = false /\ above_floor (inject_Z g) o (length (r_texp (o_t o)))) ->
       follows (inject_Z g) 1 1 f o o').
Proof. exact grey_scale. Qed.
Print Assumptions C109_grey_scale.

(** Above the floor the dark noise in electrons moves by the unscaled 1/12. *)
Theorem C109_sigma_d :
  forall fs fs' h w g c t p fname fname' d d' es es' visit_t visit_s visit_t' visit_s' o o',
  any_order visit_t -> any_order visit_s -> any_order visit_t' -> any_order visit_s' ->
  lists fname d es -> lists fname' d' es' -> complete_set fs h w es -> complete_set fs' h w es' ->
  (0 < g)%Z -> 0 < t -> 0 < p -> Forall2 (restated fs fs' (regraded g c) t p) es es' ->
  emva fs visit_t visit_s fname (Some d) = Ok (Some o) ->
  emva fs' visit_t' visit_s' fname' (Some d') = Ok (Some o') -> has_signal o ->
  above_floor (inject_Z g) o (length (r_texp (o_t o))) ->
  forall k s x, value_of F_K o = VQ (Ok k) -> ~ k == 0 -> value_of F_sigma_y_dark o = VX (Ok (XR s)) ->
    (24 / 100 <= s * s)%R -> value_of F_sigma_d o = VX (Ok (XR x)) ->
    exists x', value_of F_sigma_d o' = VX (Ok (XR x')) /\
      (Q2R k * x' * (Q2R k * x') = Q2R k * x * (Q2R k * x) + 1 / 12 - 1 / 12 / (IZR g * IZR g))%R.
Proof. exact sigma_d_drift. Qed.
Print Assumptions C109_sigma_d.

(** Below it the same camera with doubled grey values has the same dark noise in grey
    values, half of it in electrons, a smaller sensitivity threshold and a larger dynamic
    range. *)
Theorem C109_dark_noise_refuted : exists fs fs' fname d es o o',
  lists fname d es /\ complete_set fs 1 2 es /\ complete_set fs' 1 2 es /\
  Forall2 (restated fs fs' (regraded 2 0) 1 1) es es /\
  emva fs (fun m => m) (fun m => m) fname (Some d) = Ok (Some o) /\
  emva fs' (fun m => m) (fun m => m) fname (Some d) = Ok (Some o') /\ has_signal o /\
  (exists s, (0 < s)%R /\ value_of F_sigma_y_dark o = VX (Ok (XR s)) /\ value_of F_sigma_y_dark o' = VX (Ok (XR s))) /\
  (exists s, (0 < s)%R /\ value_of F_sigma_d o = VX (Ok (XR s)) /\ value_of F_sigma_d o' = VX (Ok (XR (s / 2)))) /\
  (exists u u', (0 < u' < u)%R /\ value_of F_u_p_min o = VX (Ok (XR u)) /\ value_of F_u_p_min o' = VX (Ok (XR u'))) /\
  (exists r r', (0 < r < r')%R /\ value_of F_DR o = VX (Ok (XR r)) /\ value_of F_DR o' = VX (Ok (XR r'))).
Proof. exact dark_noise_refuted. Qed.
Print Assumptions C109_dark_noise_refuted.

(** The set doubled: a signal, a dark variance above the floor, K and sigma_d. *)
Example C109_case : complete_set (graded_fs set_fs 2 0) 1 2 set_entries /\
  Forall2 (restated set_fs (graded_fs set_fs 2 0) (regraded 2 0) 1 1) set_entries set_entries /\
  exists o, emva set_fs (fun m => m) (fun m => m) set_file (Some set_text) = Ok (Some o) /\ has_signal o /\
    above_floor 2 o (length (r_texp (o_t o))) /\
    exists k s x, value_of F_K o = VQ (Ok k) /\ ~ k == 0 /\ value_of F_sigma_y_dark o = VX (Ok (XR s)) /\
      (24 / 100 <= s * s)%R /\ value_of F_sigma_d o = VX (Ok (XR x)).
Proof. exact doubled_case. Qed.

(** ** C110: other units for photons and exposure times *)
Theorem C110_units :
  forall fs fs' h w t p fname fname' d d' es es' visit_t visit_s visit_t' visit_s',
  any_order visit_t -> any_order visit_s -> any_order visit_t' -> any_order visit_s' ->
  lists fname d es -> lists fname' d' es' -> complete_set fs h w es -> complete_set fs' h w es' ->
  0 < t -> 0 < p -> Forall2 (restated fs fs' (regraded 1 0) t p) es es' ->
  exists o o', emva fs visit_t visit_s fname (Some d) = Ok (Some o) /\
    emva fs' visit_t' visit_s' fname' (Some d') = Ok (Some o') /\
    forall f, follows 1 p t f o o'.
Proof. exact other_units. Qed.
Print Assumptions C110_units.

(** The set with microseconds and half the photons: twice the quantum efficiency, the
    dark current per microsecond. *)
Example C110_case : lists set_file unit_text unit_entries /\ complete_set set_fs 1 2 unit_entries /\
  Forall2 (restated set_fs set_fs (regraded 1 0) 1000 (1 # 2)) set_entries unit_entries /\
  dimension_of F_QE = mkDim 0 (-1) 0 /\ factor 1 (1 # 2) 1000 (dimension_of F_QE) == 2 /\
  factor 1 (1 # 2) 1000 (dimension_of F_u_I_mean) == 1 # 1000.
Proof.
  split; [exact unit_listed|]. split; [exact unit_complete|]. split; [exact unit_restated|].
  split; [reflexivity|]. split; reflexivity.
Qed.
