(** What the property C126 speaks about: the LaTeX names of the results. *)
From Coq Require Import String List.
From Verif Require Import Base_Prelude Base_Str.
Import ListNotations.
Open Scope string_scope.

(** Pairs of results with one LaTeX name. *)
Definition shared_names : list (str * str) :=
  map (fun p => (lit (fst p), lit (snd p)))
    [("u_e_min", "u_e_min_area"); ("u_e_sat", "u_e_sat_area"); ("u_p_min", "u_p_min_area");
     ("u_p_sat", "u_p_sat_area"); ("u_I_var", "u_I_var_DN")].
