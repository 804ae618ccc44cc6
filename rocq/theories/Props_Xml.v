(** Properties C45, C46, C66: result files. *)
From Coq Require Import Ascii String List Bool Arith ZArith QArith.
From Verif Require Import Base_Prelude Base_Str Base_Num Model_Info Model_Xml
  Spec_Info Spec_Xml Proofs_Dict Proofs_Info Proofs_Xml Proofs_Xml2.
Import ListNotations.
Open Scope nat_scope.

(** C45: what is written is read back, names in lower case. *)
Theorem C45_round_trip root rs :
  identifier root -> good_results rs ->
  exists t, dict_to_xml root (results_obj rs) = Ok t /\
            xml_to_dict (XFile (Some (reload t))) = Ok (Some (results_obj (lower_results rs))).
Proof. exact (xml_round_trip root rs). Qed.
Print Assumptions C45_round_trip.

Example C45_case : identifier (lit "results") /\ good_results demo_results.
Proof. exact demo_good. Qed.

(** An array without entries is written, but the file cannot be read any more. *)
Theorem C45_empty_array_refuted :
  exists name t,
    dict_to_xml (lit "results")
      (results_obj [(lit "plots", [mkResult name [] (Arrays [(lit "x", [])])])]) = Ok t /\
    xml_to_dict (XFile (Some (reload t))) = Err AttributeError.
Proof. exact empty_array_unreadable. Qed.
Print Assumptions C45_empty_array_refuted.

(** Names that differ in case only are merged when reading. *)
Theorem C45_case_refuted :
  exists (r1 r2 : result) t f,
    r_name r1 <> r_name r2 /\ good_result r1 /\ good_result r2 /\
    dict_to_xml (lit "results") (results_obj [(lit "sensitivity", [r1; r2])]) = Ok t /\
    xml_to_dict (XFile (Some (reload t))) = Ok (Some f) /\
    (forall c s, In (c, ODict s) f -> length s = 1).
Proof. exact case_merged. Qed.
Print Assumptions C45_case_refuted.

(** C46: exchanging the files exchanges the columns, the verdicts stay. *)
Theorem C46_symmetric E x1 x2 ls :
  compare_xml E x1 x2 = Ok ls -> compare_xml E x2 x1 = Ok (map exchanged ls).
Proof. exact (compare_sym E x1 x2 ls). Qed.
Print Assumptions C46_symmetric.

(** A file against itself: one line per entry, and exactly the comparable entries
    are OK. *)
Theorem C46_self_partial E x f ls :
  xml_to_dict x = Ok (Some f) -> compare_xml E x x = Ok ls ->
  Forall (fun l => match l with
                   | LPresent _ _ _ => False
                   | LMethod c m ok => exists o, entry f c m = Some o /\ (ok = true <-> comparable E o)
                   end) ls /\
  (forall c m o, entry f c m = Some o -> exists ok, In (LMethod c m ok) ls).
Proof. exact (compare_itself E x f ls). Qed.
Print Assumptions C46_self_partial.

(** If all entries are comparable the report exists and is OK throughout. *)
Theorem C46_self_ok E x f :
  xml_to_dict x = Ok (Some f) ->
  (forall c m o, entry f c m = Some o -> comparable E o) ->
  exists ls, compare_xml E x x = Ok ls /\
  Forall (fun l => match l with LPresent _ _ _ => False | LMethod _ _ ok => ok = true end) ls.
Proof. exact (compare_self_ok E x f). Qed.
Print Assumptions C46_self_ok.

Example C46_case :
  exists f, xml_to_dict (value_file (lit "0.25")) = Ok (Some f) /\
  comparable demo_env (ODict [(lit "value", ONum (NF (FFin (1 # 4))))]) /\
  entry f (lit "sensitivity") (lit "k") = Some (ODict [(lit "value", ONum (NF (FFin (1 # 4))))]) /\
  compare_xml demo_env (value_file (lit "0.25")) (value_file (lit "0.25")) =
    Ok [LMethod (lit "sensitivity") (lit "k") true].
Proof. exact demo_compare. Qed.

(** Not every file agrees with itself: a None value and a NaN are reported as
    failures whatever the numeric environment; without [np.int] (NumPy 1.24 and
    later) so is 1.0. *)
Theorem C46_self_none_refuted : exists x f, xml_to_dict x = Ok (Some f) /\
  forall E, exists c m, compare_xml E x x = Ok [LMethod c m false].
Proof. exact none_fails. Qed.
Print Assumptions C46_self_none_refuted.

Theorem C46_self_nan_refuted : exists x f, xml_to_dict x = Ok (Some f) /\
  (exists c m, entry f c m = Some (ODict [(lit "value", ONum (NF FNan))])) /\
  forall E, exists c m, compare_xml E x x = Ok [LMethod c m false].
Proof. exact nan_fails. Qed.
Print Assumptions C46_self_nan_refuted.

Theorem C46_self_new_numpy_refuted : exists x f, xml_to_dict x = Ok (Some f) /\
  (exists c m, entry f c m = Some (ODict [(lit "value", ONum (NF (FFin 1)))])) /\
  forall E, ne_np_int E = false -> exists c m, compare_xml E x x = Ok [LMethod c m false].
Proof. exact new_numpy_fails. Qed.
Print Assumptions C46_self_new_numpy_refuted.

(** C66: OK means agreement up to two parts in a million, of the values or of every
    pair of array elements. *)
Theorem C66_ok_means_close E x1 x2 f1 f2 ls c m :
  rounds_well E ->
  xml_to_dict x1 = Ok (Some f1) -> xml_to_dict x2 = Ok (Some f2) ->
  compare_xml E x1 x2 = Ok ls -> In (LMethod c m true) ls ->
  exists o1 o2, entry f1 c m = Some o1 /\ entry f2 c m = Some o2 /\ close_results o1 o2.
Proof. exact (ok_means_close E x1 x2 f1 f2 ls c m). Qed.
Print Assumptions C66_ok_means_close.
Example C66_case : rounds_well demo_env /\
  compare_xml demo_env (value_file (lit "1.0000001")) (value_file (lit "1.0000002")) =
    Ok [LMethod (lit "sensitivity") (lit "k") true] /\
  compare_xml demo_env (value_file (lit "1.00001")) (value_file (lit "1.00002")) =
    Ok [LMethod (lit "sensitivity") (lit "k") false].
Proof. split; [exact demo_env_well|]. split; vm_compute; reflexivity. Qed.
