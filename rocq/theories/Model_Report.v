(** The report (src/emva1288/report/report.py) and the collection of plots
    (Plotting1288 in src/emva1288/process/plotting.py).  Definitions only.

    Dictionaries handed to the report are shared with the caller: they live in a
    heap and are passed by reference (a number).  Drawing and file access are
    arguments that say whether they succeed. *)
From Coq Require Import Ascii String List Bool Arith ZArith QArith.
From Verif Require Import Base_Prelude Base_Str Base_Num Base_Order Base_Float Model_Path Model_Dataset.
Import ListNotations.
Open Scope nat_scope.

(** ** The filters *)

(** A value in a template.  [np_nan]: the float is the object [np.nan] itself. *)
Inductive fval : Type :=
| VNone
| VFloat (x : pyfloat) (np_nan : bool)
| VInt (n : Z)
| VText (s : str).

(** [value in (None, np.nan)]: the same object, or equal; NaN equals nothing. *)
Definition in_missing (v : fval) : bool :=
  match v with
  | VNone => true
  | VFloat FNan np_nan => np_nan
  | _ => false
  end.

(** ['{:.kf}'.format(x)] of a float; without digits there is no point. *)
Definition fmt_prec (k : nat) (x : pyfloat) : str :=
  match k, x with
  | O, FFin q =>
      let m := zdiv_rne (Z.abs (Qnum q)) (Zpos (Qden q)) in
      if (Qnum q <? 0)%Z then "-"%char :: dec m else dec m
  | _, _ => fmt_float k x
  end.

(** report.py:241-246 [missingnumber] *)
Definition missingnumber (precision : nat) (v : fval) : res str :=
  if in_missing v then Ok (lit "-")
  else match v with
       | VFloat x _ => Ok (fmt_prec precision x)
       | VInt n => match f_int n with
                   | FFin q => Ok (fmt_prec precision (FFin q))
                   | _ => Err OverflowError
                   end
       | _ => Err ValueError
       end.

(** report.py:248-252 [missingfilter] *)
Definition missingfilter (default v : fval) : fval :=
  if in_missing v then default else v.

(** ** Operation points *)

Section Ops.
Context {R : Type}.

Inductive oval : Type :=
| ONone
| OText (s : str)
| OResults (r : R)
| OPlots (names : dict str str)
| OOther (n : nat).

Definition op := dict str oval.
Definition oget (k : string) (d : op) : option oval := dget str_eqb (lit k) d.
Definition oset (k : string) (v : oval) (d : op) : op := dset str_eqb (lit k) v d.

(** [bool(v)] for the values a name can have. *)
Definition truthy (v : oval) : bool :=
  match v with ONone => false | OText [] => false | OOther O => false | OPlots [] => false | _ => true end.

(** [r_ops]: references to the points added; [r_files]: saved figure -> reference of
    the point whose [add] wrote it last. *)
Record report := mkReport
  { r_outdir : str;
    r_heap : nat -> op;
    r_ops : list nat;
    r_files : dict str nat }.

Definition hset (h : nat -> op) (r : nat) (d : op) : nat -> op :=
  fun x => if x =? r then d else h x.

(** A call of [add]: the dictionary, the section results of the given or computed
    Results1288, making the directory, drawing each plot. *)
Record call := mkCall
  { k_op : nat;
    k_results : res R;
    k_mkdir : res unit;
    k_draw : str -> res unit }.

(** plotting.py:793-808 [EVMA1288plots]: the class names. *)
Definition plot_names : list str := map lit
  ["PlotPTC"; "PlotSNR"; "PlotSensitivity"; "PlotUyDark"; "PlotLinearity"; "PlotDeviationLinearity";
   "PlotHorizontalSpectrogramPRNU"; "PlotHorizontalSpectrogramDSNU"; "PlotVerticalSpectrogramPRNU";
   "PlotVerticalSpectrogramDSNU"; "PlotLogarithmicHistogramDSNU"; "PlotLogarithmicHistogramPRNU";
   "PlotAccumulatedLogHistogramDSNU"; "PlotAccumulatedLogHistogramPRNU"; "PlotHorizontalProfile";
   "PlotVerticalProfile"]%string.

(** report.py:343-352: the loop of [_plots]; returns the files so far and the names. *)
Fixpoint draw_all (outdir id : str) (k : call) (cls : list str) (files : dict str nat)
    (names : dict str str) : dict str nat * res (dict str str) :=
  match cls with
  | [] => (files, Ok names)
  | c :: rest =>
      match k_draw k c with
      | Err e => (files, Err e)
      | Ok _ =>
          let fname := c ++ lit ".pdf" in
          let files := dset str_eqb (path_join (path_join outdir [id]) [fname]) (k_op k) files in
          draw_all outdir id k rest files (dset str_eqb c (path_join id [fname]) names)
      end
  end.

(** report.py:331-353 [_plots]; an existing directory is used. *)
Definition plots_of (outdir id : str) (k : call) (files : dict str nat)
  : dict str nat * res (dict str str) :=
  match k_mkdir k with
  | Ok _ | Err FileExistsError => draw_all outdir id k plot_names files []
  | Err e => (files, Err e)
  end.

(** report.py:355-384 [add] (the number written to the Results1288 object is not
    modelled). *)
Definition add (st : report) (k : call) : report * res unit :=
  let n := S (length (r_ops st)) in
  let id := lit "OP" ++ fmt_int (Z.of_nat n) in
  let d := oset "id" (OText id) (r_heap st (k_op k)) in
  let st1 d := mkReport (r_outdir st) (hset (r_heap st) (k_op k) d) (r_ops st) (r_files st) in
  match oget "name" d with
  | None => (st1 d, Err KeyError)
  | Some name =>
      let d := if truthy name then d else oset "name" (OText id) d in
      match k_results k with
      | Err e => (st1 d, Err e)
      | Ok r =>
          let d := oset "results" (OResults r) d in
          let '(files, p) := plots_of (r_outdir st) id k (r_files st) in
          match p with
          | Err e => (mkReport (r_outdir st) (hset (r_heap st) (k_op k) d) (r_ops st) files, Err e)
          | Ok names =>
              let d := oset "plots" (OPlots names) d in
              (mkReport (r_outdir st) (hset (r_heap st) (k_op k) d) (r_ops st ++ [k_op k]) files, Ok tt)
          end
      end
  end.

(** A history of calls; the caller carries on after an exception. *)
Definition add_all (st : report) (ks : list call) : report :=
  fold_left (fun st k => fst (add st k)) ks st.

End Ops.
Arguments oval : clear implicits.
Arguments op : clear implicits.
Arguments report : clear implicits.
Arguments call : clear implicits.

(** ** Files of the report *)

(** os.path.basename *)
Definition basename (p : str) : str := rev (let r := rev p in firstn (length r - length (to_sep r)) r).

(** os.path.abspath *)
Definition abspath (cwd p : str) : str :=
  if starts_with_sep p then normpath p else normpath (path_join cwd [p]).

(** [info]: the values of the dictionary; None for a missing value. *)
Definition info := dict str (option str).

(** A disk: absolute path -> content of the regular file there. *)
Definition disk (C : Type) : Type := str -> option C.
Definition put {C} (d : disk C) (path : str) (c : C) : disk C :=
  fun p => if str_eqb p path then Some c else d p.

(** report.py:279-287 [uploaded_file]; [shutil.copy] into a directory; copying a file
    onto itself is an error (links are ignored). *)
Definition uploaded_file {C} (cwd upload_dir : str) (d : disk C) (fname : option str) (default : str)
  : res (disk C * str) :=
  match fname with
  | None | Some [] => Ok (d, path_join (lit "files") [default])
  | Some f =>
      let src := abspath cwd f in
      let dst := path_join upload_dir [basename src] in
      match d src with
      | None => Err IOError
      | Some c => if str_eqb src dst then Err IOError
                  else Ok (put d dst c, path_join (lit "upload") [basename f])
      end
  end.

(** report.py:258-297 [_make_dirs], when the directories can be made or exist; [d] is
    the disk after the default files were copied.  [outdir] is absolute. *)
Definition make_dirs {C} (cwd outdir : str) (d : disk C) (marketing basic : info)
  : res (disk C * info * info) :=
  let upload_dir := path_join outdir [lit "upload"] in
  logo <- of_option KeyError (dget str_eqb (lit "logo") marketing) ;;
  '(d, logo) <- uploaded_file cwd upload_dir d logo (lit "missinglogo.pdf") ;;
  let marketing := dset str_eqb (lit "logo") (Some logo) marketing in
  plot <- of_option KeyError (dget str_eqb (lit "missingplot") marketing) ;;
  '(d, plot) <- uploaded_file cwd upload_dir d plot (lit "missingplot.pdf") ;;
  let marketing := dset str_eqb (lit "missingplot") (Some plot) marketing in
  qe <- of_option KeyError (dget str_eqb (lit "qe_plot") basic) ;;
  '(d, qe) <- uploaded_file cwd upload_dir d qe (lit "missingplot.pdf") ;;
  Ok (d, marketing, dset str_eqb (lit "qe_plot") (Some qe) basic).

(** ** Plotting1288 *)

(** plotting.py:839-851 [__init__]: identifiers are given to all tests, but the
    append is outside the loop; without tests its variable is unbound.  [addr]:
    [id(test)], never 0. *)
Record test := mkTest { t_addr : positive; t_id : option nat }.
Definition with_id (t : test) : test :=
  match t_id t with
  | None | Some O => mkTest (t_addr t) (Some (Pos.to_nat (t_addr t)))
  | Some _ => t
  end.
Definition make_plotting (tests : list test) : res (list test) :=
  match rev (map with_id tests) with
  | [] => Err NameError
  | t :: _ => Ok [t]
  end.

(** plotting.py:853-873 [plot]: the drawings made, figure by figure. *)
Definition plot_all (tests : list test) (plots : list str) : list (str * list test) :=
  map (fun cls => (cls, tests)) (match plots with [] => plot_names | _ => plots end).
