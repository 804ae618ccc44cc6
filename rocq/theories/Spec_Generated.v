(** Operation points that make a complete measurement. *)
From Coq Require Import Ascii String List Bool Arith ZArith QArith.
From Verif Require Import Base_Prelude Base_Str Base_Num Base_Order Base_Float Model_Path Model_Parser
  Model_Camera Model_Points Model_Dataset Spec_Parser Spec_Dataset Spec_Data Spec_Emva.
Import ListNotations.
Open Scope nat_scope.

(** A shot is dark when it is listed without photons. *)
Definition dark_shot (li : light) (s : shot) : Prop := is_dark (listed_photons li s).

(** Shots listed with numbers; a dark and a bright one at every temporal exposure;
    only one exposure, or one bright shot each; one spatial exposure. *)
Record complete_points (li : light) (p : points) : Prop := {
  cp_finite : forall s, In s (shots p) ->
    finite (listed_exposure s) /\ finite (listed_photons li s) /\ (0 <= number (listed_photons li s))%Q;
  cp_dark : forall s, In s (shots p) -> s_kind s = Temporal ->
    exists d, In d (shots p) /\ s_kind d = Temporal /\ dark_shot li d /\ s_exposure d = s_exposure s;
  cp_bright : forall s, In s (shots p) -> s_kind s = Temporal ->
    exists b, In b (shots p) /\ s_kind b = Temporal /\ ~ dark_shot li b /\ s_exposure b = s_exposure s;
  cp_aligned :
    (forall s s', In s (shots p) -> In s' (shots p) -> s_kind s = Temporal -> s_kind s' = Temporal ->
       s_exposure s = s_exposure s') \/
    (forall s s', In s (shots p) -> In s' (shots p) -> s_kind s = Temporal -> s_kind s' = Temporal ->
       ~ dark_shot li s -> ~ dark_shot li s' -> listed_exposure s = listed_exposure s' -> s = s');
  cp_spatial : exists d b, In d (shots p) /\ In b (shots p) /\ s_kind d = Spatial /\ s_kind b = Spatial /\
    dark_shot li d /\ ~ dark_shot li b /\ s_exposure d = s_exposure b /\
    forall s, In s (shots p) -> s_kind s = Spatial -> s = d \/ s = b
}.
