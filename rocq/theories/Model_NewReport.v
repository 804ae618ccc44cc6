(** The constructor of a report: src/emva1288/report/report.py.  Definitions only. *)
From Coq Require Import Ascii String List Bool.
From Verif Require Import Base_Prelude Base_Str Base_Num Model_Path Model_Report Model_Jinja Model_Sheet.
Import ListNotations.

Section New.
Context {C : Type}.

(** report.py:279-280 [if fname]: the file named by an entry.  Simplification: objects other
    than strings that os.path takes (pathlib) count as errors. *)
Definition file_entry (v : jval) : res (option str) :=
  if truth v then match v with JStr s => Ok (Some s) | _ => Err TypeError end else Ok None.

(** report.py:289-297: one of the three statements [d[k] = uploaded_file(d[k], default)]. *)
Definition upload_entry (cwd upload_dir : str) (d : disk C) (k default : str) (dict : jdict)
    : res (disk C * jdict) :=
  v <- of_option KeyError (jget k dict) ;;
  f <- file_entry v ;;
  '(d, path) <- uploaded_file cwd upload_dir d f default ;;
  Ok (d, jset k (JStr path) dict).

(** What a Report1288 holds. *)
Record reporter := mkReporter
  { rp_marketing : jdict; rp_basic : jdict; rp_setup : jdict; rp_cover : jval; rp_state : report jval }.

(** report.py:159-212 [__init__] with report.py:258-297 [_make_dirs], when the directories can be
    made or exist; [d] is the disk after the default files were copied; [heap]: the
    dictionaries of operation points that exist. *)
Definition new_report (cwd outdir : str) (heap : nat -> op jval) (d : disk C)
    (setup basic marketing : option jdict) (cover_page : jval) : res (disk C * reporter) :=
  let outdir := abspath cwd outdir in
  let marketing := or_default marketing (info_marketing []) in
  let basic := or_default basic (info_basic []) in
  let setup := or_default setup (info_setup []) in
  let upload_dir := path_join outdir [lit "upload"] in
  '(d, marketing) <- upload_entry cwd upload_dir d (lit "logo") (lit "missinglogo.pdf") marketing ;;
  '(d, marketing) <- upload_entry cwd upload_dir d (lit "missingplot") (lit "missingplot.pdf") marketing ;;
  '(d, basic) <- upload_entry cwd upload_dir d (lit "qe_plot") (lit "missingplot.pdf") basic ;;
  Ok (d, mkReporter marketing basic setup cover_page (mkReport outdir heap [] [])).

(** report.py:299-304 [_write_file], 321-326 [latex] after some calls of [add]: the files
    written, by name. *)
Definition write_report (other : nat -> jval) (r : reporter) (ks : list (call jval)) : res (list (str * str)) :=
  latex other (add_all (rp_state r) ks) (rp_marketing r) (rp_basic r) (rp_setup r) (rp_cover r).
End New.
