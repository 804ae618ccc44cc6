(** The quantities of the standard as this software documents them, the page that lists
    them, and what a file of results should give back. *)
From Coq Require Import Ascii String List Bool Arith ZArith QArith.
From Verif Require Import Base_Prelude Base_Str Base_Num Model_Info Model_Xml Spec_Xml.
Import ListNotations.
Open Scope nat_scope.

(** Section by section: name, description and symbol (if any) of each quantity. *)
Definition catalogue : list (str * list (str * str * option str)) :=
  [(lit "dark_current",
    [(lit "u_I_mean", lit "Dark Current from mean", Some (lit "$\mu_{I.mean}$"));
     (lit "u_I_mean_DN", lit "Dark Current from mean", Some (lit "$\mu_{I.mean.DN}$"));
     (lit "u_I_var", lit "Dark Current from variance", Some (lit "$\mu_{I.var}$"));
     (lit "u_I_var_DN", lit "Dark Current from variance", Some (lit "$\mu_{I.var.DN}$"))]);
   (lit "defect_pixel",
    [(lit "histogram_DSNU", lit "DSNU histogram", None);
     (lit "histogram_DSNU_accumulated", lit "accumulated DSNU histogram", None);
     (lit "histogram_PRNU", lit "PRNU histogram", None);
     (lit "histogram_PRNU_accumulated", lit "accumulated PRNU histogram", None)]);
   (lit "info",
    [(lit "index_start", lit "Start array index", None)]);
   (lit "linearity",
    [(lit "LE_max", lit "Max Linearity error", Some (lit "$LE_{max}$"));
     (lit "LE_min", lit "Min Linearity error", Some (lit "$LE_{min}$"));
     (lit "index_linearity_max", lit "Linearity fit maximum index", None);
     (lit "index_linearity_min", lit "Linearity fit minimun index", None)]);
   (lit "sensitivity",
    [(lit "DR", lit "Dynamic Range", Some (lit "DR"));
     (lit "DR_dB", lit "Dynamic Range", Some (lit "$DR_{dB}$"));
     (lit "K", lit "System gain", Some (lit "K"));
     (lit "QE", lit "Quantum efficiency", Some (lit "$\eta$"));
     (lit "R", lit "Responsivity", Some (lit "R"));
     (lit "SNR_max", lit "Signal-to-Noise Ratio", Some (lit "$SNR_{max}$"));
     (lit "SNR_max_bit", lit "Maximum Signal to Noise Ratio in Bits", Some (lit "$SNR_{max.bit}$"));
     (lit "SNR_max_dB", lit "Maximum Signal to Noise Ratio in Db", Some (lit "$SNR_{max.dB}$"));
     (lit "index_sensitivity_max", lit "Sensitivity fit maximum index", None);
     (lit "index_sensitivity_min", lit "Sensitivity fit minimum index", None);
     (lit "index_u_ysat", lit "Saturation index", None);
     (lit "inverse_K", lit "Inverse of overall system gain", Some (lit "1/K"));
     (lit "inverse_SNR_max", lit "Inverse Maximum Signal to Noise Ratio", Some (lit "$SNR_{max}^{-1}$"));
     (lit "sigma_d", lit "Temporal Dark Noise", Some (lit "$\sigma_d$"));
     (lit "sigma_y_dark", lit "Temporal Dark Noise", Some (lit "$\sigma_{y.dark}$"));
     (lit "u_e_min", lit "Sensitivity threshold", Some (lit "$\mu_{e.min}$"));
     (lit "u_e_min_area", lit "Sensitivity threshold", Some (lit "$\mu_{e.min.area}$"));
     (lit "u_e_sat", lit "Saturation Capacity", Some (lit "$\mu_{e.sat}$"));
     (lit "u_e_sat_area", lit "Saturation Capacity", Some (lit "$\mu_{e.sat.area}$"));
     (lit "u_p_min", lit "Absolute sensitivity threshold", Some (lit "$\mu_{p.min}$"));
     (lit "u_p_min_area", lit "Sensitivity threshold", Some (lit "$\mu_{p.min.area}$"));
     (lit "u_p_sat", lit "Saturation Capacity", Some (lit "$\mu_{p.sat}$"));
     (lit "u_p_sat_area", lit "Saturation Capacity", Some (lit "$\mu_{p.sat.area}$"))]);
   (lit "spatial",
    [(lit "DSNU1288", lit "DSNU", Some (lit "$DSNU_{1288}$"));
     (lit "DSNU1288_DN", lit "DSNU in DN", Some (lit "$DSNU_{1288.DN}$"));
     (lit "DSNU1288_col", lit "DSNUcol", Some (lit "$DSNU_{1288.col}$"));
     (lit "DSNU1288_pixel", lit "DSNUpixel", Some (lit "$DSNU_{1288.pixel}$"));
     (lit "DSNU1288_row", lit "DSNUrow", Some (lit "$DSNU_{1288.row}$"));
     (lit "PRNU1288", lit "PRNU", Some (lit "$PRNU_{1288}$"));
     (lit "PRNU1288_col", lit "PRNUcol", Some (lit "$PRNU_{1288.col}$"));
     (lit "PRNU1288_pixel", lit "PRNUpixel", Some (lit "$PRNU_{1288.pixel}$"));
     (lit "PRNU1288_row", lit "PRNUrow", Some (lit "$PRNU_{1288.row}$"));
     (lit "s_2_y", lit "Spatial variance from image", Some (lit "$s^2_{y}$"));
     (lit "s_2_y_cav", lit "Spatial variance from image", Some (lit "$s^2_{y.cav}$"));
     (lit "s_2_y_cav_dark", lit "Spatial variance from image", Some (lit "$s^2_{y.cav.dark}$"));
     (lit "s_2_y_col", lit "Spatial variance from image", Some (lit "$s^2_{y.col}$"));
     (lit "s_2_y_col_dark", lit "Spatial variance from image", Some (lit "$s^2_{y.col.dark}$"));
     (lit "s_2_y_dark", lit "Spatial variance from image", Some (lit "$s^2_{y}$"));
     (lit "s_2_y_measured", lit "Spatial variance measure", Some (lit "$s^2_{y.measured}$"));
     (lit "s_2_y_measured_dark", lit "Spatial variance measured dark", Some (lit "$s^2_{y.measured.dark}$"));
     (lit "s_2_y_pixel", lit "Spatial variance from image", Some (lit "$s^2_{y.pixel}$"));
     (lit "s_2_y_pixel_dark", lit "Spatial variance from image", Some (lit "$s^2_{y.pixel.dark}$"));
     (lit "s_2_y_rav", lit "Spatial variance from image", Some (lit "$s^2_{y.rav}$"));
     (lit "s_2_y_rav_dark", lit "Spatial variance from image", Some (lit "$s^2_{y.rav.dark}$"));
     (lit "s_2_y_row", lit "Spatial variance from image", Some (lit "$s^2_{y.row}$"));
     (lit "s_2_y_row_dark", lit "Spatial variance from image", Some (lit "$s^2_{y.row.dark}$"));
     (lit "sigma_2_y_stack", lit "Temporal variance stack", Some (lit "$\sigma^2_{y.stack}$"));
     (lit "sigma_2_y_stack_dark", lit "Temporal variance stack dark", Some (lit "$\sigma^2_{y.stack.dark}$"))])].

(** The quantities with their sections. *)
Definition quantities : list (str * (str * str * option str)) :=
  flat_map (fun s => map (fun q => (fst s, q)) (snd s)) catalogue.

(** [col] is the column of width [n] showing [s] at its left, or at its right, end; longer
    texts keep all their characters. *)
Definition blanks_only (s : str) : Prop := Forall (fun c => c = " "%char) s.
Definition left_column (n : nat) (s col : str) : Prop :=
  exists b, blanks_only b /\ col = s ++ b /\ length col = max n (length s).
Definition right_column (n : nat) (s col : str) : Prop :=
  exists b, blanks_only b /\ col = b ++ s /\ length col = max n (length s).

(** The line of a quantity: description, symbol ('None' without one), value. *)
Definition line_of (short : str) (symbol : option str) (value : str) (line : str) : Prop :=
  exists a b c, left_column 50 short a /\
    left_column 30 (match symbol with Some s => s | None => lit "None" end) b /\
    right_column 10 value c /\ line = a ++ b ++ c.

(** What a scalar looks like. *)
Inductive shown : pobj -> str -> Prop :=
| sh_none : shown ONone (lit "None")
| sh_num x : shown (ONum x) (num_str x).

(** The lines of the quantities [qs] whose values are [fig]: scalars have a line, arrays
    have none. *)
Inductive lines_of (fig : str -> pobj) : list (str * str * option str) -> list str -> Prop :=
| lo_nil : lines_of fig [] []
| lo_scalar name short symbol qs text l ls :
    shown (fig name) text -> line_of short symbol text l ->
    lines_of fig qs ls -> lines_of fig ((name, short, symbol) :: qs) (l :: ls)
| lo_arrays name short symbol qs d ls :
    fig name = ODict d -> lines_of fig qs ls -> lines_of fig ((name, short, symbol) :: qs) ls.

Definition rule (c : ascii) (l : str) : Prop := length l = 50 /\ Forall (fun x => x = c) l.

(** The whole page. *)
Inductive page (fig : str -> pobj) : list (str * list (str * str * option str)) -> list str -> Prop :=
| pg_end r : rule "*" r -> page fig [] [r; lit " "]
| pg_section s qs cat r1 r2 ls rest :
    rule "*" r1 -> rule "-" r2 -> lines_of fig qs ls -> page fig cat rest ->
    page fig ((s, qs) :: cat) (r1 :: s :: r2 :: ls ++ rest).

(** Every quantity is None, a number or a collection of arrays. *)
Definition scalar_or_arrays (v : pobj) : Prop :=
  v = ONone \/ (exists x, v = ONum x) \/ exists d, v = ODict d.

(** ... and a file can hold it: no other numbers than a computer has, no empty array. *)
Definition storable (v : pobj) : Prop :=
  v = ONone \/ (exists x, v = ONum x /\ machine_number x) \/
  exists a, v = ODict (map (fun p => (fst p, OArr (snd p))) a) /\ good_content (Arrays a).

(** The value that is read back: numbers as floats, names in lower case. *)
Inductive read_back : pobj -> str * pobj -> Prop :=
| rb_none : read_back ONone (lit "value", ONone)
| rb_num x : read_back (ONum x) (lit "value", ONum (as_float x))
| rb_arrays a : read_back (ODict (map (fun p => (fst p, OArr (snd p))) a))
    (lit "data", ODict (map (fun p => (lower (fst p), OArr (map as_float (snd p)))) a)).
