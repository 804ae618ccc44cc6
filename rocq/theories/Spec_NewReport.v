(** What the properties C99 and C100 speak about. *)
From Coq Require Import Ascii String List Bool Arith.
From Verif Require Import Base_Prelude Base_Str Base_Num Model_Report Spec_Report Model_Jinja Model_Sheet
  Spec_Sheet Spec_Sheet2.
Import ListNotations.

(** The dictionary that was given; when there is none, or an empty one, every entry is None. *)
Definition handed (given : option jdict) (names : list string) : jdict :=
  match given with
  | Some (e :: d) => e :: d
  | _ => map (fun n => (lit n, JNone)) names
  end.
Definition setup_names : list string :=
  ["Light source"; "Light source non uniformity"; "Irradiation calibration accuracy";
   "Irradiation measurement error"; "Standard version"]%string.
Definition basic_names : list string :=
  ["vendor"; "model"; "data_type"; "sensor_type"; "sensor_diagonal"; "lens_category";
   "resolution"; "pixel_size"; "readout_type"; "transfer_type"; "shutter_type";
   "overlap_capabilities"; "maximum_readout_rate"; "dark_current_compensation";
   "interface_type"; "qe_plot"]%string.
Definition marketing_names : list string := ["logo"; "watermark"; "missingplot"; "cover_page"]%string.

(** No dictionary, or an empty one. *)
Definition nothing (o : option jdict) : Prop := o = None \/ o = Some [].

(** The entry k names the file f, or none. *)
Definition names_file (d : jdict) (k : string) (f : option str) : Prop :=
  (entry k d = Some JNone /\ f = None) \/ exists s, entry k d = Some (JStr s) /\ f = Some s.

(** A file that can be copied into the report. *)
Definition can_copy {C} (cwd outdir : str) (d : disk C) (f : str) : Prop :=
  proper f /\ (exists c, d (abspath cwd f) = Some c) /\
  forall name, abspath cwd f <> inside (inside outdir (lit "upload")) name.

(** Label and dash of every general entry. *)
Definition dashes : list (str * str) := map (fun p => (lit (fst p), lit (snd p)))
  [("Vendor", "-"); ("Model", "-"); ("Data type", "-"); ("Sensor type", "-"); ("Diagonal", "-");
   ("Lens category", "-"); ("Resolution", "- pixels"); ("Pixel size", "- $\mu m$");
   ("Maximum readout rate", "-"); ("Dark current compensation", "-"); ("Interface type", "-");
   ("Light source", "-"); ("Light source non uniformity", "-"); ("Irradiation calibration accuracy", "-");
   ("Irradiation measurement error", "-"); ("Standard version", "-")]%string.
