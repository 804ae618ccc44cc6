(** What is handed to a report, and what its text is to show. *)
From Coq Require Import Ascii String List Bool Arith ZArith QArith.
From Verif Require Import Base_Prelude Base_Str Base_Num Model_Report Spec_Report Model_Info Model_Jinja
  Model_Sheet Spec_Sheet.
Import ListNotations.
Open Scope nat_scope.

(** An operation point: the given name (empty for none), the settings and parameters,
    whether only the summary is wanted, and the figures of its Results1288;
    [p_np]: a NaN figure is the object np.nan. *)
Record point := mkPoint
  { p_name : str;
    p_settings : list (str * jval);
    p_parameters : list (str * jval);
    p_summary : bool;
    p_figures : str -> pobj;
    p_np : str -> bool }.

(** The entry [k] of a dictionary. *)
Definition entry {V} (k : string) (d : list (str * V)) : option V := dget str_eqb (lit k) d.

(** [d] is the dictionary of [p]. *)
Record describes (other : nat -> jval) (d : op jval) (p : point) : Prop := mkDescribes
  { d_name : (entry "name" d = Some Model_Report.ONone /\ p_name p = []) \/ entry "name" d = Some (OText (p_name p));
    d_settings : exists n, entry "camera_settings" d = Some (OOther n) /\ other n = JDict (p_settings p);
    d_parameters : exists n, entry "test_parameters" d = Some (OOther n) /\ other n = JDict (p_parameters p);
    d_summary : p_summary p = match entry "summary_only" d with
                              | Some v => truth (jval_of_entry other v)
                              | None => false
                              end }.

(** The call [k] adds [p]: nothing fails, and the results are those of [p]. *)
Definition adds (other : nat -> jval) (heap : nat -> op jval) (k : call jval) (p : point) : Prop :=
  describes other (heap (k_op k)) p /\ works (heap (k_op k)) k /\
  k_results k = results_by_section (fun n => Ok (p_figures p n)) (p_np p).

(** str(v) exists and is ordinary. *)
Definition clean (v : jval) : Prop := exists s, show v = Ok s /\ ordinary s.
Definition clean_values (d : list (str * jval)) : Prop := forall k v, In (k, v) d -> clean v.
Definition clean_items (d : list (str * jval)) : Prop := forall k v, In (k, v) d -> ordinary k /\ clean v.

(** Every figure of the sheet is a float, or missing where that is allowed. *)
Definition clean_figures (f : str -> pobj) : Prop :=
  forall l, In l sheet ->
    (exists x, f (l_name l) = ONum (NF x)) \/ (In (l_name l) optional /\ f (l_name l) = Model_Info.ONone).

Definition clean_point (p : point) : Prop :=
  ordinary (p_name p) /\ clean_items (p_settings p) /\ clean_items (p_parameters p) /\
  clean_figures (p_figures p).

(** The figure [name] of a point, and whether its NaN is a dash. *)
Definition value_of (p : point) (name : str) : measured :=
  match p_figures p name with ONum (NF x) => Some x | _ => None end.
Definition dash_of (p : point) (name : str) : bool := existsb (str_eqb name) optional && p_np p name.

(** The pictures of a point's pages. *)
Definition pictures (id : str) (p : point) : list str :=
  map (fun c => id ++ lit "/" ++ c ++ lit ".pdf")
      (if p_summary p then map lit ["PlotPTC"; "PlotSNR"]%string else plot_names).

(** str(v) *)
Definition text (v : jval) : str := match show v with Ok s => s | Err _ => [] end.
(** An entry of the general information: None and np.nan are a dash. *)
Definition info_text (v : jval) : str :=
  match v with
  | JNone | JFloat FNan true => lit "-"
  | _ => text v
  end.

(** Label, entry, text behind it. *)
Definition general_labels : list (string * string * string) :=
  [("Vendor", "vendor", ""); ("Model", "model", ""); ("Data type", "data_type", "");
   ("Sensor type", "sensor_type", ""); ("Diagonal", "sensor_diagonal", "");
   ("Lens category", "lens_category", ""); ("Resolution", "resolution", " pixels");
   ("Pixel size", "pixel_size", " $\mu m$")]%string.
Definition ccd_labels : list (string * string * string) :=
  [("Readout type", "readout_type", ""); ("Transfer type", "transfer_type", "")]%string.
Definition cmos_labels : list (string * string * string) :=
  [("Shutter type", "shutter_type", ""); ("Overlap capabilities", "overlap_capabilities", "")]%string.
Definition more_labels : list (string * string * string) :=
  [("Maximum readout rate", "maximum_readout_rate", "");
   ("Dark current compensation", "dark_current_compensation", ""); ("Interface type", "interface_type", "")]%string.

(** The fields of the sensor's kind. *)
Definition sensor_labels (basic : jdict) : list (string * string * string) :=
  match entry "sensor_type" basic with
  | Some (JStr s) => if str_eqb s (lit "CCD") then ccd_labels
                     else if str_eqb s (lit "CMOS") then cmos_labels else []
  | _ => []
  end.

Definition labelled (basic : jdict) (l : string * string * string) : str * str :=
  let '(label, field, behind) := l in
  (lit label, strip (match entry field basic with Some v => info_text v | None => [] end ++ lit behind)).

Definition general_entries (basic setup : jdict) : list (str * str) :=
  map (labelled basic) (general_labels ++ sensor_labels basic ++ more_labels) ++
  map (fun kv => (fst kv, strip (info_text (snd kv)))) setup.

Definition point_entries (p : point) : list (str * str) :=
  map (fun kv => (fst kv, strip (text (snd kv)))) (p_settings p ++ p_parameters p).
