(** C128: the units shown with the results. *)
From Coq Require Import Ascii String List Bool Arith ZArith QArith.
From Verif Require Import Base_Prelude Base_Str Base_Num Base_Order Base_Sum Base_Xreal Model_Path Model_Parser
  Model_Images Model_Loader Model_Data Model_Results Model_Emva Model_Info Model_Docs Spec_Parser Spec_Images Spec_Data Spec_Results
  Spec_Emva Spec_Units Spec_UnitText Proofs_Latex Proofs_Units5 Proofs_Units6 Proofs_UnitText Props_Emva.
Import ListNotations.
Open Scope Q_scope.

(** ** C128: with grey values, photon counts and exposure times in other units every result
    changes as the unit shown with it says.  Not for the quantum efficiency, whose "per cent"
    are electrons per photon, when the photons change, and with the restrictions of C109 on the
    dark noise when the grey values do. *)
Theorem C128_units : forall fs fs' h w g c t p fname fname' d d' es es' visit_t visit_s visit_t' visit_s' attr out,
  any_order visit_t -> any_order visit_s -> any_order visit_t' -> any_order visit_s' ->
  lists fname d es -> lists fname' d' es' -> complete_set fs h w es -> complete_set fs' h w es' ->
  (0 < g)%Z -> 0 < t -> 0 < p -> Forall2 (restated fs fs' (regraded g c) t p) es es' ->
  obj_to_dict results_cls attr = Ok out ->
  exists o o', emva fs visit_t visit_s fname (Some d) = Ok (Some o) /\
    emva fs' visit_t' visit_s' fname' (Some d') = Ok (Some o') /\
    (forall f r, In (figure_name f, r) out -> f <> F_QE \/ p == 1 -> g = 1%Z \/ has_signal o ->
      uses_dark_noise f = false \/ g = 1%Z \/ (is_sigma_d f = false /\ above_floor (inject_Z g) o (length (r_texp (o_t o)))) ->
      exists x, shown_exponents r = Some x /\
        times_value (inject_Z g) p (unit_factor (inject_Z g) p t 1 x) (value_of f o) (value_of f o')) /\
    (forall n v r, In (n, v) measured_variances -> In (n, r) out ->
      exists x, shown_exponents r = Some x /\ same_opt (times_q (unit_factor (inject_Z g) p t 1 x)) (v o) (v o')).
Proof. exact shown_units. Qed.
Print Assumptions C128_units.

(** With another unit of the pixel area too. *)
Theorem C128_area o k a attr out f r :
  0 < k -> obj_to_dict results_cls attr = Ok out -> In (figure_name f, r) out ->
  exists x, shown_exponents r = Some x /\
    times_value 1 1 (unit_factor 1 1 1 k x) (value_of f (with_area (Some a) o)) (value_of f (with_area (Some (k * a)) o)).
Proof. exact (area_unit o k a attr out f r). Qed.
Print Assumptions C128_area.

(** All figures but the dictionary [linearity] are shown, and no other result has a unit. *)
Theorem C128_shown attr out f : obj_to_dict results_cls attr = Ok out -> f <> F_linearity -> exists r, In (figure_name f, r) out.
Proof. exact (figures_shown attr out f). Qed.
Print Assumptions C128_shown.
Theorem C128_no_others attr out n r u : obj_to_dict results_cls attr = Ok out -> In (n, r) out -> oget (lit "unit") r = Some u ->
  (exists f, n = figure_name f) \/ (exists v, In (n, v) measured_variances).
Proof. exact (unit_covered attr out n r u). Qed.
Print Assumptions C128_no_others.

(** Units as they are read, a doubled set of images, and one with other photons and times. *)
Example C128_read : read_unit (lit "$e^-/\mu m^2$") = Some (mkExp 0 0 0 (-1)) /\ read_unit (lit "DN/p") = Some (mkExp 1 (-1) 0 0) /\
  unit_factor 2 (1 # 2) 1000 1 (mkExp 1 (-1) 0 0) == 4 /\ unit_factor 2 1 1000 1 (mkExp 1 0 (-1) 0) == 1 # 500.
Proof. vm_compute. repeat split; reflexivity. Qed.
Example C128_case : (exists out, obj_to_dict results_cls some_figures = Ok out) /\
  complete_set (graded_fs set_fs 2 0) 1 2 set_entries /\
  Forall2 (restated set_fs (graded_fs set_fs 2 0) (regraded 2 0) 1 1) set_entries set_entries /\
  lists set_file unit_text unit_entries /\ complete_set set_fs 1 2 unit_entries /\
  Forall2 (restated set_fs set_fs (regraded 1 0) 1000 (1 # 2)) set_entries unit_entries.
Proof.
  split; [exact some_figures_ok|]. split; [exact doubled_complete|]. split; [apply graded_all|].
  split; [exact unit_listed|]. split; [exact unit_complete|exact unit_restated].
Qed.
