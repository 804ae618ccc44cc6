(** The text of a report: src/emva1288/report/report.py with its templates.
    Definitions only. *)
From Coq Require Import Ascii String List Bool Arith ZArith QArith.
From Verif Require Import Base_Prelude Base_Str Base_Num Model_Info Model_Report Model_Docs
  Model_Templates Model_Jinja.
Import ListNotations.
Open Scope nat_scope.

(** ** What goes into a report *)

Definition jdict := list (str * jval).
Definition jset (k : str) (v : jval) (d : jdict) : jdict := dset str_eqb k v d.

(** [d.update(kwargs)] *)
Definition update (kwargs d : jdict) : jdict := fold_left (fun d kv => jset (fst kv) (snd kv) d) kwargs d.

Definition blanks (names : list string) : jdict := map (fun n => (lit n, JNone)) names.

(** report.py:15-41 [info_setup] *)
Definition info_setup (kwargs : jdict) : jdict :=
  update kwargs (blanks ["Light source"; "Light source non uniformity"; "Irradiation calibration accuracy";
                         "Irradiation measurement error"; "Standard version"]%string).

(** report.py:44-96 [info_basic] *)
Definition info_basic (kwargs : jdict) : jdict :=
  update kwargs (blanks ["vendor"; "model"; "data_type"; "sensor_type"; "sensor_diagonal"; "lens_category";
                         "resolution"; "pixel_size"; "readout_type"; "transfer_type"; "shutter_type";
                         "overlap_capabilities"; "maximum_readout_rate"; "dark_current_compensation";
                         "interface_type"; "qe_plot"]%string).

(** report.py:99-122 [info_marketing] *)
Definition info_marketing (kwargs : jdict) : jdict :=
  update kwargs (blanks ["logo"; "watermark"; "missingplot"; "cover_page"]%string).

(** report.py:205-207: [given or default()]; an empty dictionary counts as none. *)
Definition or_default (given : option jdict) (default : jdict) : jdict :=
  match given with None | Some [] => default | Some d => d end.

(** A result in a template; [np_nan]: a NaN is the object np.nan.  The templates do
    not look into arrays and dictionaries, whose str() is left out. *)
Definition jval_of (np_nan : bool) (v : pobj) : jval :=
  match v with
  | Model_Info.ONone => JNone
  | OStr s => JStr s
  | ONum (NI n) => JInt n
  | ONum (NF x) => JFloat x np_nan
  | OArr _ | ODict _ => JObj [] true
  end.

(** results.py:1245-1257 [results_by_section]: sections, names, metadata with the value;
    [attr name] is the value of the quantity. *)
Definition results_by_section (attr : str -> res pobj) (np_nan : str -> bool) : res jval :=
  d <- obj_to_dict results_cls attr ;;
  ss <- sections_first d ;;
  Ok (JDict (map (fun s : str * list (str * list (str * pobj)) =>
    (fst s, JDict (map (fun r : str * list (str * pobj) =>
      (fst r, JDict (map (fun kv => (fst kv, jval_of (np_nan (fst r)) (snd kv))) (snd r)))) (snd s)))) ss)).

(** An entry of an operation point's dictionary; [other] gives the objects that
    [Model_Report.add] only passes on. *)
Definition jval_of_entry (other : nat -> jval) (v : oval jval) : jval :=
  match v with
  | Model_Report.ONone => JNone
  | OText s => JStr s
  | OResults r => r
  | OPlots ps => JDict (map (fun kv => (fst kv, JStr (snd kv))) ps)
  | OOther n => other n
  end.

Definition jval_of_op (other : nat -> jval) (d : op jval) : jval :=
  JDict (map (fun kv => (fst kv, jval_of_entry other (snd kv))) d).

(** ** Rendering *)

(** Deeper than the templates are nested. *)
Definition depth : nat := 10.

(** report.py:306-310 [_stylesheet] *)
Definition stylesheet (marketing basic : jdict) : res str :=
  render depth template_files (lit "emvadatasheet.sty")
    [(lit "marketing", JDict marketing); (lit "basic", JDict basic)].

(** report.py:312-319 [_report] *)
Definition report_tex_text (other : nat -> jval) (st : report jval) (marketing basic setup : jdict)
    (cover_page : jval) : res str :=
  render depth template_files (lit "report.tex")
    [(lit "marketing", JDict marketing); (lit "basic", JDict basic); (lit "setup", JDict setup);
     (lit "operation_points", JList (map (fun r => jval_of_op other (r_heap st r)) (r_ops st)));
     (lit "cover_page", cover_page)].

(** report.py:321-326 [latex]: the files written, by name. *)
Definition latex (other : nat -> jval) (st : report jval) (marketing basic setup : jdict)
    (cover_page : jval) : res (list (str * str)) :=
  style <- stylesheet marketing basic ;;
  text <- report_tex_text other st marketing basic setup cover_page ;;
  Ok [(lit "emvadatasheet.sty", style); (lit "report.tex", text)].
