(** Properties of the report's text (C79-C85). *)
From Coq Require Import Ascii String List Bool Arith ZArith QArith.
From Verif Require Import Base_Prelude Base_Str Base_Num Model_Report Spec_Report Model_Jinja Model_Sheet
  Spec_Sheet Spec_Sheet2 Proofs_Sheet8 Proofs_Sheet9.
Import ListNotations.
Open Scope nat_scope.

(** ** C79, C80, C81: what a report shows

    Any number of points, added in any order of dictionaries, whose texts contain no
    character that LaTeX would read as a command: one table with the 33 figures per
    point, the pictures, and the labelled entries. *)

Theorem C79_sheets other outdir (heap : nat -> op jval) ks ps marketing basic setup cover qe logo :
  NoDup (map k_op ks) -> Forall2 (adds other heap) ks ps -> (forall p, In p ps -> clean_point p) ->
  clean_values marketing -> clean_values basic -> clean_items setup -> clean cover ->
  entry "qe_plot" basic = Some (JStr qe) -> entry "logo" marketing = Some (JStr logo) ->
  let st := add_all (mkReport outdir heap [] []) ks in
  exists files text, latex other st marketing basic setup cover = Ok files /\ entry "report.tex" files = Some text /\
    Forall2 (fun p tab => Forall2 (line_shows (dash_of p) (value_of p)) sheet tab) ps (tables text).
Proof. exact (fun H1 H2 H3 H4 H5 H6 H7 H8 H9 =>
  latex_tables other outdir heap ks ps H1 H2 H3 marketing basic setup cover qe logo H4 H5 H6 H7 H8 H9). Qed.
Print Assumptions C79_sheets.

Example C79_sheets_case :
  (NoDup (map k_op two_calls) /\ Forall2 (adds two_objects two_heap) two_calls [point1; point2] /\
   (forall p, In p [point1; point2] -> clean_point p) /\
   clean_values a_marketing /\ clean_values two_basic /\ clean_items (info_setup []) /\ clean (JBool false) /\
   entry "qe_plot" two_basic = Some (JStr (lit "files/missingplot.pdf")) /\
   entry "logo" a_marketing = Some (JStr (lit "files/missinglogo.pdf"))) /\
  map (fun t => (nth 0 t [], nth 16 t [], nth 18 t [], nth 19 t [], nth 31 t [])) (tables two_text) =
  [(map lit ["$\eta$"; "12.35"; "\%"], map lit ["$\mu_{e.sat.area}$"; "-"; "$e^-/\mu m^2$"],
    map lit [""; "12.3"; "dB"], map lit ["$DSNU_{1288}$"; "12.3"; "$e^-$"], map lit ["$\mu_{I.var}$"; "12.346"; "$e^-/s$"]);
   (map lit ["$\eta$"; "-0.33"; "\%"], map lit ["$\mu_{e.sat.area}$"; "-0"; "$e^-/\mu m^2$"],
    map lit [""; "-0.3"; "dB"], map lit ["$DSNU_{1288}$"; "nan"; "$e^-$"], map lit ["$\mu_{I.var}$"; "-"; "$e^-/s$"])]%string.
Proof. split; [exact two_meets|vm_compute; reflexivity]. Qed.

Theorem C80_pictures other outdir (heap : nat -> op jval) ks ps marketing basic setup cover qe logo :
  NoDup (map k_op ks) -> Forall2 (adds other heap) ks ps -> (forall p, In p ps -> clean_point p) ->
  clean_values marketing -> clean_values basic -> clean_items setup -> clean cover ->
  entry "qe_plot" basic = Some (JStr qe) -> entry "logo" marketing = Some (JStr logo) ->
  let st := add_all (mkReport outdir heap [] []) ks in
  exists files style text ids, latex other st marketing basic setup cover = Ok files /\
    entry "emvadatasheet.sty" files = Some style /\ entry "report.tex" files = Some text /\
    graphics style = [lit "files/EMVA1288Logo.pdf"; logo] /\
    length ids = length ps /\ (forall i id, nth_error ids i = Some id -> op_label (S i) id) /\
    graphics text = qe :: concat (map (fun ip => pictures (fst ip) (snd ip)) (combine ids ps)).
Proof. exact (fun H1 H2 H3 H4 H5 H6 H7 H8 H9 =>
  latex_graphics other outdir heap ks ps H1 H2 H3 marketing basic setup cover qe logo H4 H5 H6 H7 H8 H9). Qed.
Print Assumptions C80_pictures.

Example C80_pictures_case :
  length (graphics two_text) = 19 /\
  map (fun i => nth i (graphics two_text) []) [0; 1; 2; 16; 17; 18] =
  map lit ["files/missingplot.pdf"; "OP1/PlotPTC.pdf"; "OP1/PlotSNR.pdf"; "OP1/PlotVerticalProfile.pdf";
           "OP2/PlotPTC.pdf"; "OP2/PlotSNR.pdf"]%string /\
  graphics two_style = map lit ["files/EMVA1288Logo.pdf"; "files/missinglogo.pdf"]%string.
Proof. vm_compute. repeat split. Qed.

Theorem C81_entries other outdir (heap : nat -> op jval) ks ps marketing basic setup cover qe logo :
  NoDup (map k_op ks) -> Forall2 (adds other heap) ks ps -> (forall p, In p ps -> clean_point p) ->
  clean_values marketing -> clean_values basic -> clean_items setup -> clean cover ->
  entry "qe_plot" basic = Some (JStr qe) -> entry "logo" marketing = Some (JStr logo) ->
  let st := add_all (mkReport outdir heap [] []) ks in
  exists files text, latex other st marketing basic setup cover = Ok files /\ entry "report.tex" files = Some text /\
    entries text = general_entries basic setup ++ concat (map point_entries ps) ++ concat (map point_entries ps).
Proof. exact (fun H1 H2 H3 H4 H5 H6 H7 H8 H9 =>
  latex_entries other outdir heap ks ps H1 H2 H3 marketing basic setup cover qe logo H4 H5 H6 H7 H8 H9). Qed.
Print Assumptions C81_entries.

Example C81_entries_case :
  map (fun i => nth i (entries two_text) ([], [])) [0; 1; 6; 8; 13; 18; 19; 20; 21] =
  map (fun p => (lit (fst p), lit (snd p)))
    [("Vendor", "Vendor"); ("Model", "-"); ("Resolution", "- pixels"); ("Shutter type", "-"); ("Light source", "-");
     ("Gain", "3"); ("Offset", "None"); ("Wavelength", "525 nm"); ("Wavelength", "525 nm")]%string.
Proof. vm_compute. reflexivity. Qed.

(** ** C82: the vendor in the header of the pages *)

Theorem C82_header_vendor_refuted :
  exists marketing basic v1 v2,
    v1 <> v2 /\ entry "logo" marketing <> None /\
    (exists s, stylesheet marketing (jset (lit "vendor") v1 basic) = Ok s) /\
    stylesheet marketing (jset (lit "vendor") v1 basic) = stylesheet marketing (jset (lit "vendor") v2 basic).
Proof. exact header_vendor. Qed.
Print Assumptions C82_header_vendor_refuted.

Theorem C82_vendor_ignored marketing basic vendor :
  stylesheet marketing (jset (lit "vendor") vendor basic) = stylesheet marketing basic.
Proof. exact (vendor_lost marketing basic vendor). Qed.
Print Assumptions C82_vendor_ignored.

(** ** C83, C84, C85: special characters, cover page and absent entries *)

Theorem C83_percent_refuted :
  exists model text, model = lit "100% HD" /\
    report_tex_text (fun _ => JNone) no_points a_marketing (a_basic [(lit "model", JStr model)]) (info_setup []) (JBool false) = Ok text /\
    In (lit "Model", lit "100") (entries text) /\ ~ In (lit "Model", model) (entries text).
Proof. exact percent_lost. Qed.
Print Assumptions C83_percent_refuted.

Theorem C84_cover_page_refuted :
  exists marketing text, entry "cover_page" marketing = Some (JStr (lit "cover.tex")) /\
    report_tex_text (fun _ => JNone) no_points marketing (a_basic []) (info_setup []) (JBool false) = Ok text /\
    report_tex_text (fun _ => JNone) no_points a_marketing (a_basic []) (info_setup []) (JBool false) = Ok text.
Proof. exact cover_ignored. Qed.
Print Assumptions C84_cover_page_refuted.

Theorem C85_absent_refuted :
  exists basic text, entry "vendor" basic = None /\
    report_tex_text (fun _ => JNone) no_points a_marketing basic (info_setup []) (JBool false) = Ok text /\
    In (lit "Vendor", []) (entries text) /\ ~ In (lit "Vendor", lit "-") (entries text).
Proof. exact absent_empty. Qed.
Print Assumptions C85_absent_refuted.
