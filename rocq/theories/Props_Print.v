(** Properties C106, C107: the printed page and the exported file. *)
From Coq Require Import Ascii String List Bool Arith ZArith QArith.
From Verif Require Import Base_Prelude Base_Str Base_Num Model_Info Model_Xml Model_Print
  Spec_Xml Spec_Print Proofs_Print Proofs_Print2.
Import ListNotations.
Open Scope nat_scope.

(** C106: when every documented quantity can be computed, the page lists section by section
    all scalar quantities, each on a line with description, symbol and value. *)
Theorem C106_page fig :
  (forall s name short symbol, In (s, (name, short, symbol)) quantities -> scalar_or_arrays (fig name)) ->
  exists p, print_results (fun n => Ok (fig n)) = (p, Ok tt) /\ page fig catalogue p.
Proof. exact (printed_page fig). Qed.
Print Assumptions C106_page.

Definition some_fig (n : str) : pobj :=
  if str_eqb (firstn 4 n) (lit "hist")
  then ODict [(lit "bins", OArr [NI 1; NI 2]); (lit "values", OArr [NF (FFin (1 # 2)); NF FNan])]
  else if str_eqb n (lit "K") then ONum (NF (FFin (3 # 2)))
  else if str_eqb n (lit "u_p_sat_area") then ONone
  else ONum (NI 7).
Example C106_case :
  (forall s name short symbol, In (s, (name, short, symbol)) quantities -> scalar_or_arrays (some_fig name)) /\
  length quantities = 61 /\
  exists p, print_results (fun n => Ok (some_fig n)) = (p, Ok tt) /\ length p = 61 - 4 + 6 * 3 + 2 /\
  In (lit "System gain                                       K                                    1.5") p.
Proof.
  split; [|split].
  - intros s name short symbol _. unfold scalar_or_arrays, some_fig.
    destruct (str_eqb _ _); [right; right; eauto|]. destruct (str_eqb _ _); [right; left; eauto|].
    destruct (str_eqb _ _); [left; reflexivity|right; left; eauto].
  - vm_compute. reflexivity.
  - exists (fst (and_then (print_sections (map (fun s => (fst s, filled some_fig (snd s))) grouped_tbl)) ([stars; lit " "], Ok tt))).
    rewrite print_results_eq. split; [vm_compute; reflexivity|]. split; [vm_compute; reflexivity|].
    apply in_by_eqb. vm_compute. reflexivity.
Qed.

(** When some documented quantity cannot be computed, nothing at all is printed. *)
Theorem C106_all_or_nothing attr s name short symbol e :
  In (s, (name, short, symbol)) quantities -> attr name = Err e ->
  exists e', print_results attr = ([], Err e').
Proof. exact (print_fails attr s name short symbol e). Qed.
Print Assumptions C106_all_or_nothing.
Example C106_all_or_nothing_case :
  In (lit "linearity", (lit "LE_max", lit "Max Linearity error", Some (lit "$LE_{max}$"))) quantities /\
  (fun n => if str_eqb n (lit "LE_max") then Err ZeroDivisionError else Ok (some_fig n)) (lit "LE_max")
    = Err ZeroDivisionError.
Proof. split; [apply (find_name_in (lit "LE_max")); vm_compute; reflexivity|vm_compute; reflexivity]. Qed.

(** Description and symbol do not tell the quantities apart: two different quantities are
    printed under the same ones. *)
Theorem C106_distinct_lines_refuted :
  exists s n1 n2 short symbol, n1 <> n2 /\
  In (s, (n1, short, Some symbol)) quantities /\ In (s, (n2, short, Some symbol)) quantities /\
  exists fig p l1 l2, fig n1 <> fig n2 /\
    print_results (fun n => Ok (fig n)) = (p, Ok tt) /\ In l1 p /\ In l2 p /\
    (exists t1, shown (fig n1) t1 /\ line_of short (Some symbol) t1 l1) /\
    (exists t2, shown (fig n2) t2 /\ line_of short (Some symbol) t2 l2).
Proof. exact same_labels. Qed.
Print Assumptions C106_distinct_lines_refuted.

(** C107: the file written for an evaluation holds every documented quantity, under its
    section and its name in lower case, and nothing else. *)
Theorem C107_file fig can_open name :
  (forall c n short symbol, In (c, (n, short, symbol)) quantities -> storable (fig n)) ->
  name <> [] -> can_open name = true ->
  exists t f, export_xml can_open (fun n => Ok (fig n)) (Some name) = Ok (None, Some (name, t)) /\
  xml_to_dict (XFile (Some (reload t))) = Ok (Some f) /\
  (forall c n short symbol, In (c, (n, short, symbol)) quantities ->
     exists d p, entry f c (lower n) = Some (ODict d) /\ read_back (fig n) p /\
       oget (fst p) d = Some (snd p) /\ oget (lit "short") d = Some (OStr short)) /\
  (forall c m o, entry f c m = Some o ->
     exists n short symbol, In (c, (n, short, symbol)) quantities /\ m = lower n).
Proof. exact (xml_file fig can_open name). Qed.
Print Assumptions C107_file.

Example C107_case :
  (forall c n short symbol, In (c, (n, short, symbol)) quantities -> storable (some_fig n)) /\
  exists t f, export_xml (fun _ => true) (fun n => Ok (some_fig n)) (Some (lit "out.xml")) = Ok (None, Some (lit "out.xml", t)) /\
  xml_to_dict (XFile (Some (reload t))) = Ok (Some f) /\
  exists d, entry f (lit "sensitivity") (lit "k") = Some (ODict d) /\
  oget (lit "value") d = Some (ONum (NF (FFin (3 # 2)))).
Proof.
  split.
  - intros c n short symbol _. unfold storable, some_fig.
    destruct (str_eqb _ _).
    { right. right.
      exists [(lit "bins", [NI 1; NI 2]); (lit "values", [NF (FFin (1 # 2)); NF FNan])].
      split; [reflexivity|]. split; [discriminate|]. split.
      - repeat (apply NoDup_cons || apply NoDup_nil); vm_compute; intuition discriminate.
      - repeat apply Forall_cons; try apply Forall_nil; (split; [apply identb_ok; vm_compute; reflexivity|]);
          (split; [discriminate|]); repeat apply Forall_cons; try apply Forall_nil; cbn; trivial.
    }
    destruct (str_eqb _ _). { right. left. eexists. split; [reflexivity|]. vm_compute. reflexivity. }
    destruct (str_eqb _ _); [left; reflexivity|right; left; eexists; split; [reflexivity|exact I]].
  - eexists. eexists. split; [rewrite export_xml_eq; vm_compute; reflexivity|].
    split; [vm_compute; reflexivity|]. eexists. split; vm_compute; reflexivity.
Qed.

(** Without a file name (None or '') the text is returned instead, the same that would be
    written to a file. *)
Theorem C107_text fig can_open name :
  (forall c n short symbol, In (c, (n, short, symbol)) quantities -> storable (fig n)) ->
  name = None \/ name = Some [] ->
  exists t, export_xml can_open (fun n => Ok (fig n)) name = Ok (Some t, None) /\
  forall file, can_open file = true -> file <> [] ->
    export_xml can_open (fun n => Ok (fig n)) (Some file) = Ok (None, Some (file, t)).
Proof. exact (xml_text_returned fig can_open name). Qed.
Print Assumptions C107_text.
