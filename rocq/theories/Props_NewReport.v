(** C99, C100: a report from its construction to its text. *)
From Coq Require Import Ascii String List Bool Arith.
From Verif Require Import Base_Prelude Base_Str Base_Num Model_Path Model_Report Spec_Report Model_Info Model_Jinja Model_Sheet
  Model_NewReport Spec_Sheet Spec_Sheet2 Spec_NewReport Proofs_NewReport Proofs_NewReport2.
Import ListNotations.
Local Arguments lit : simpl never.

(** ** C99 *)
Theorem C99_report :
  forall C cwd outdir (d : disk C) heap other setup basic marketing cover ks ps logo plot qe,
  let M := handed marketing marketing_names in
  let B := handed basic basic_names in
  let S := handed setup setup_names in
  let out := abspath cwd outdir in
  clean_values M -> clean_values B -> clean_items S -> clean cover ->
  names_file M "logo" logo -> names_file M "missingplot" plot -> names_file B "qe_plot" qe ->
  (forall f, In f (given logo ++ given plot ++ given qe) -> can_copy cwd out d f) ->
  NoDup (map file_name (given logo ++ given plot ++ given qe)) ->
  NoDup (map k_op ks) -> Forall2 (adds other heap) ks ps -> (forall p, In p ps -> clean_point p) ->
  exists d' r files style text ids v1 v3,
    new_report cwd outdir heap d setup basic marketing cover = Ok (d', r) /\
    write_report other r ks = Ok files /\
    entry "emvadatasheet.sty" files = Some style /\ entry "report.tex" files = Some text /\
    leads_to cwd out d d' logo (lit "missinglogo.pdf") v1 /\
    leads_to cwd out d d' qe (lit "missingplot.pdf") v3 /\
    graphics style = [lit "files/EMVA1288Logo.pdf"; v1] /\
    length ids = length ps /\ (forall i id, nth_error ids i = Some id -> op_label (Datatypes.S i) id) /\
    graphics text = v3 :: concat (map (fun ip => pictures (fst ip) (snd ip)) (combine ids ps)) /\
    entries text = general_entries B S ++ concat (map point_entries ps) ++ concat (map point_entries ps) /\
    Forall2 (fun p tab => Forall2 (line_shows (dash_of p) (value_of p)) sheet tab) ps (tables text).
Proof. exact @whole_report. Qed.
Print Assumptions C99_report.

(** Without any information every general entry is a dash. *)
Theorem C99_nothing :
  forall C cwd outdir (d : disk C) heap other setup basic marketing cover,
  nothing setup -> nothing basic -> nothing marketing -> clean cover ->
  exists d' r files style text,
    new_report cwd outdir heap d setup basic marketing cover = Ok (d', r) /\
    write_report other r [] = Ok files /\
    entry "emvadatasheet.sty" files = Some style /\ entry "report.tex" files = Some text /\
    graphics style = [lit "files/EMVA1288Logo.pdf"; lit "files/missinglogo.pdf"] /\
    graphics text = [lit "files/missingplot.pdf"] /\ entries text = dashes /\ tables text = [].
Proof. exact @blank_report. Qed.
Print Assumptions C99_nothing.

(** The functions that make the dictionaries keep the values given to them. *)
Theorem C99_keywords :
  forall kwargs k, NoDup (map fst kwargs) ->
  (In k setup_names -> entry k (info_setup kwargs) = Some (match entry k kwargs with Some v => v | None => JNone end)) /\
  (In k basic_names -> entry k (info_basic kwargs) = Some (match entry k kwargs with Some v => v | None => JNone end)) /\
  (In k marketing_names -> entry k (info_marketing kwargs) = Some (match entry k kwargs with Some v => v | None => JNone end)).
Proof. exact keyword_values. Qed.
Print Assumptions C99_keywords.

Example C99_report_case :
  let M := handed (Some own_marketing) marketing_names in
  let B := handed (Some own_basic) basic_names in
  let S := handed (Some []) setup_names in
  clean_values M /\ clean_values B /\ clean_items S /\ clean (JBool false) /\
  names_file M "logo" (Some (lit "a/logo.pdf")) /\ names_file M "missingplot" None /\
  names_file B "qe_plot" (Some (lit "b/plot.pdf")) /\
  (forall f, In f [lit "a/logo.pdf"; lit "b/plot.pdf"] -> can_copy (lit "/home") (abspath (lit "/home") (lit "out")) own_disk f) /\
  NoDup (map file_name [lit "a/logo.pdf"; lit "b/plot.pdf"]) /\
  NoDup (map k_op own_calls) /\ Forall2 (adds own_objects own_heap) own_calls own_points /\
  (forall p, In p own_points -> clean_point p).
Proof. exact own_meets. Qed.
Example C99_keywords_case :
  NoDup (map fst [(lit "model", JStr (lit "M1")); (lit "vendor", JNone)]) /\
  entry "model" (info_basic [(lit "model", JStr (lit "M1")); (lit "vendor", JNone)]) = Some (JStr (lit "M1")).
Proof. split; [repeat constructor; simpl; intuition discriminate|reflexivity]. Qed.
Example C99_nothing_case : nothing (Some []) /\ nothing None /\ clean (JBool false).
Proof. split; [right; reflexivity|]. split; [left; reflexivity|]. exact no_cover. Qed.

(** ** C100: a dictionary written by hand *)
Theorem C100_incomplete_refuted :
  exists cwd outdir (d : disk nat) heap basic, basic = [(lit "vendor", JStr (lit "Vendor"))] /\
    new_report cwd outdir heap d None (Some basic) None (JBool false) = Err KeyError.
Proof. exact by_hand. Qed.
Print Assumptions C100_incomplete_refuted.

Theorem C100_key_needed :
  forall C cwd outdir (d : disk C) heap setup basic marketing cover e,
  basic = Some e -> e <> [] -> entry "qe_plot" e = None -> nothing marketing ->
  new_report cwd outdir heap d setup basic marketing cover = Err KeyError.
Proof. exact @incomplete. Qed.
Print Assumptions C100_key_needed.
