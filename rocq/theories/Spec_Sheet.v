(** Reading the LaTeX text of a report. *)
From Coq Require Import Ascii String List Bool Arith ZArith QArith.
From Verif Require Import Base_Prelude Base_Str Base_Num Spec_Report.
Import ListNotations.
Open Scope nat_scope.

(** The text without comments: from % to the end of the line, unless escaped. *)
Fixpoint visible_from (comment : bool) (s : str) : str :=
  match s with
  | [] => []
  | c :: s' =>
      if comment then visible_from (negb (chr_eqb c NL)) s'
      else if chr_eqb c "%" then visible_from true s'
      else if chr_eqb c "\" then
        match s' with
        | d :: s'' => c :: d :: visible_from false s''
        | [] => [c]
        end
      else c :: visible_from false s'
  end.
Definition visible (s : str) : str := visible_from false s.

(** [s] after the prefix [p]. *)
Fixpoint after (p s : str) : option str :=
  match p, s with
  | [], _ => Some s
  | a :: p', b :: s' => if chr_eqb a b then after p' s' else None
  | _ :: _, [] => None
  end.

(** What comes before the first [p], and what comes after it. *)
Fixpoint until (p s : str) : option (str * str) :=
  match after p s with
  | Some r => Some ([], r)
  | None =>
      match s with
      | [] => None
      | c :: s' => match until p s' with Some (a, b) => Some (c :: a, b) | None => None end
      end
  end.

(** [f] at every position of the text, in order. *)
Fixpoint everywhere {A} (f : str -> list A) (s : str) : list A :=
  match s with
  | [] => []
  | _ :: s' => f s ++ everywhere f s'
  end.

(** The files of the pictures: \includegraphics[...]{file} *)
Definition graphic_at (s : str) : list str :=
  match after (lit "\includegraphics[") s with
  | Some r =>
      match until (lit "{") r with
      | Some (_, r) => match until (lit "}") r with Some (f, _) => [f] | None => [] end
      | None => []
      end
  | None => []
  end.
Definition graphics (text : str) : list str := everywhere graphic_at (visible text).

(** Labelled entries: \textsl{label} \hfill value \\ *)
Definition entry_at (s : str) : list (str * str) :=
  match after (lit "\textsl{") s with
  | Some r =>
      match until (lit "}") r with
      | Some (label, r) =>
          match after (lit " \hfill ") r with
          | Some r => match until (lit "\\") r with Some (v, _) => [(label, strip v)] | None => [] end
          | None => []
          end
      | None => []
      end
  | None => []
  end.
Definition entries (text : str) : list (str * str) := everywhere entry_at (visible text).

(** Rows of a table end with \; its optional argument [..] is dropped. *)
Fixpoint rows (s : str) : list str :=
  match s with
  | [] => [[]]
  | c :: s' =>
      let push t rs := match rs with r :: rs' => (t ++ r) :: rs' | [] => [t] end in
      if chr_eqb c "\" then
        match s' with
        | d :: s'' => if chr_eqb d "\" then [] :: rows s'' else push [c; d] (rows s'')
        | [] => [[c]]
        end
      else push [c] (rows s')
  end.
Definition drop_option (s : str) : str :=
  match after (lit "[") s with
  | Some r => match until (lit "]") r with Some (_, r) => r | None => s end
  | None => s
  end.
Definition cells (row : str) : list str := map strip (split_on "&" (drop_option row)).

(** The tables of the report: their rows of more than one cell. *)
Definition table_at (s : str) : list (list (list str)) :=
  match after (lit "\begin{tabular}{lr@{\hspace{1.4mm}}l}") s with
  | Some r =>
      match until (lit "\end{tabular}") r with
      | Some (body, _) => [filter (fun r => 1 <? length r) (map cells (rows body))]
      | None => []
      end
  | None => []
  end.
Definition tables (text : str) : list (list (list str)) := everywhere table_at (visible text).

(** ** What the summary sheet shows *)

(** Symbol, quantity, decimals, unit (if it has one). *)
Record line := mkLine { l_symbol : str; l_name : str; l_places : nat; l_unit : list str }.
Definition figure (symbol : string) (name : string) (places : nat) (unit : string) : line :=
  mkLine (lit symbol) (lit name) places [lit unit].
Definition ratio (symbol : string) (name : string) : line := mkLine (lit symbol) (lit name) 0 [].

Definition sheet : list line :=
  [figure "$\eta$" "QE" 2 "\%";
   figure "K" "K" 3 "$DN/e^-$";
   figure "1/K" "inverse_K" 3 "$e^-/DN$";
   figure "$\sigma_d$" "sigma_d" 3 "$e^-$";
   figure "$\sigma_{y.dark}$" "sigma_y_dark" 3 "DN";
   ratio "$SNR_{max}$" "SNR_max";
   figure "" "SNR_max_dB" 2 "dB";
   figure "" "SNR_max_bit" 1 "bit";
   figure "$SNR_{max}^{-1}$" "inverse_SNR_max" 3 "\%";
   figure "$\mu_{p.min}$" "u_p_min" 3 "$p$";
   figure "$\mu_{p.min.area}$" "u_p_min_area" 3 "$p/\mu m^2$";
   figure "$\mu_{e.min}$" "u_e_min" 3 "$e^-$";
   figure "$\mu_{e.min.area}$" "u_e_min_area" 3 "$e^-/\mu m^2$";
   figure "$\mu_{p.sat}$" "u_p_sat" 0 "$p$";
   figure "$\mu_{p.sat.area}$" "u_p_sat_area" 3 "$p/\mu m^2$";
   figure "$\mu_{e.sat}$" "u_e_sat" 0 "$e^-$";
   figure "$\mu_{e.sat.area}$" "u_e_sat_area" 0 "$e^-/\mu m^2$";
   ratio "DR" "DR";
   figure "" "DR_dB" 1 "dB";
   figure "$DSNU_{1288}$" "DSNU1288" 1 "$e^-$";
   figure "$DSNU_{1288.row}$" "DSNU1288_row" 1 "$e^-$";
   figure "$DSNU_{1288.col}$" "DSNU1288_col" 1 "$e^-$";
   figure "$DSNU_{1288.pixel}$" "DSNU1288_pixel" 1 "$e^-$";
   figure "$PRNU_{1288}$" "PRNU1288" 1 "\%";
   figure "$PRNU_{1288.row}$" "PRNU1288_row" 1 "\%";
   figure "$PRNU_{1288.col}$" "PRNU1288_col" 1 "\%";
   figure "$PRNU_{1288.pixel}$" "PRNU1288_pixel" 1 "\%";
   figure "$LE_{min}$" "LE_min" 3 "\%";
   figure "$LE_{max}$" "LE_max" 3 "\%";
   figure "$\mu_{I.mean}$" "u_I_mean" 3 "$e^-/s$";
   figure "" "u_I_mean_DN" 3 "$DN/s$";
   figure "$\mu_{I.var}$" "u_I_var" 3 "$e^-/s$";
   figure "" "u_I_var_DN" 3 "$DN/s$"].

(** Quantities that may be missing. *)
Definition optional : list str := map lit
  ["u_p_min"; "u_p_min_area"; "u_e_min_area"; "u_p_sat_area"; "u_e_sat_area";
   "u_I_mean"; "u_I_mean_DN"; "u_I_var"; "u_I_var_DN"]%string.

(** A figure that has been measured; [Some x]: a float. *)
Definition measured := option pyfloat.

(** [t] shows [v] with [k] decimals; [dash]: a missing value is a dash. *)
Definition shows (k : nat) (dash : bool) (v : measured) (t : str) : Prop :=
  match v with
  | Some (FFin q) => written_with k q t
  | Some FNan => t = lit (if dash then "-" else "nan")
  | Some (FInf neg) => t = lit (if neg then "-inf" else "inf")
  | None => t = lit "-"
  end.

Definition line_shows (dash : str -> bool) (v : str -> measured) (l : line) (row : list str) : Prop :=
  exists t, row = l_symbol l :: t :: l_unit l /\ shows (l_places l) (dash (l_name l)) (v (l_name l)) t.

(** A text that does not change how the text around it is read. *)
Definition special : list ascii := lit "%&{}\".
Definition ordinary (s : str) : Prop := Forall (fun c => ~ In c special) s.
