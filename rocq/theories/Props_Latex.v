(** Property C126: the LaTeX names of the results. *)
From Coq Require Import Ascii String List.
From Verif Require Import Base_Prelude Base_Str Base_Num Model_Info Model_Docs Spec_Latex Proofs_Latex.
Import ListNotations.

(** Two results have the same LaTeX name and different values. *)
Theorem C126_distinct_refuted :
  exists attr out n1 n2 r1 r2 name v1 v2, obj_to_dict results_cls attr = Ok out /\
  In (n1, r1) out /\ In (n2, r2) out /\
  oget (lit "latexname") r1 = Some (OStr name) /\ oget (lit "latexname") r2 = Some (OStr name) /\
  oget (lit "value") r1 = Some v1 /\ oget (lit "value") r2 = Some v2 /\ v1 <> v2.
Proof. exact latex_refuted. Qed.
Print Assumptions C126_distinct_refuted.

(** This is so for five pairs of results, whatever the figures, *)
Theorem C126_shared :
  forall attr out n1 n2, obj_to_dict results_cls attr = Ok out -> In (n1, n2) shared_names ->
  n1 <> n2 /\ exists r1 r2 name, In (n1, r1) out /\ In (n2, r2) out /\
  oget (lit "latexname") r1 = Some (OStr name) /\ oget (lit "latexname") r2 = Some (OStr name).
Proof. exact latex_shared. Qed.
Print Assumptions C126_shared.

(** and for no others. *)
Theorem C126_others :
  forall attr out n1 n2 r1 r2 name, obj_to_dict results_cls attr = Ok out ->
  In (n1, r1) out -> In (n2, r2) out -> n1 <> n2 ->
  oget (lit "latexname") r1 = Some (OStr name) -> oget (lit "latexname") r2 = Some (OStr name) ->
  In (n1, n2) shared_names \/ In (n2, n1) shared_names.
Proof. exact latex_pairs. Qed.
Print Assumptions C126_others.

Example C126_case : (exists out, obj_to_dict results_cls some_figures = Ok out) /\ In (lit "u_I_var", lit "u_I_var_DN") shared_names.
Proof. split; [exact some_figures_ok|]. unfold shared_names. cbn [map fst snd]. auto 10 using in_eq, in_cons. Qed.
