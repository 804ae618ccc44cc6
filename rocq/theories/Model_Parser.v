(** Model of src/emva1288/process/parser.py (class ParseEmvaDescriptorFile).

    Simplifications, for the whole file: logging is dropped (it has no effect on
    the result); a line is a list of Latin-1 characters; the file's decoded
    content is given as a text, or as [None] when decoding fails. *)
From Coq Require Import Ascii String List Bool Arith ZArith QArith.
From Verif Require Import Base_Prelude Base_Str Base_Num Model_Path.
Import ListNotations.
Open Scope nat_scope.

(** parser.py:92-104: the two kinds of data. *)
Inductive kind := Temporal | Spatial.

Definition kind_eqb (a b : kind) : bool :=
  match a, b with
  | Temporal, Temporal | Spatial, Spatial => true
  | _, _ => false
  end.

(** exposure -> photons -> file names (parser.py:41-43). *)
Definition photon_dict := dict pyfloat (list str).
Definition exposure_dict := dict pyfloat photon_dict.

(** Attributes of the parser object, parser.py:47-52 ([format] empty = None). *)
Record desc := mkDesc {
  d_version : option str;
  d_format : option (Z * Z * Z);   (* bits, width, height *)
  d_temporal : exposure_dict;
  d_spatial : exposure_dict
}.

Definition empty_desc : desc := mkDesc None None [] [].

(** self.images[kind] *)
Definition images_of (k : kind) (d : desc) : exposure_dict :=
  match k with Temporal => d_temporal d | Spatial => d_spatial d end.

Definition set_images (k : kind) (m : exposure_dict) (d : desc) : desc :=
  match k with
  | Temporal => mkDesc (d_version d) (d_format d) m (d_spatial d)
  | Spatial => mkDesc (d_version d) (d_format d) (d_temporal d) m
  end.

(** parser.py:234-237: strip the lines, keep those that are not empty and do not
    start with '#'. *)
Definition keep_line (x : str) : bool :=
  let s := strip x in
  match s with
  | [] => false
  | _ => negb (startswith (lit "#") s)
  end.

Definition load_lines (text : str) : list str :=
  map strip (filter keep_line (readlines text)).

(** parser.py:211-220 _split_line. *)
Definition split_line (line : str) : res (list str) :=
  let l := map strip (split_ws line) in
  if length l <? 2 then Err SyntaxError else Ok l.

Definition field (n : nat) (l : list str) : str := nth n l [].

(** parser.py:81-84: path of one image. *)
Definition image_path (path fname : str) : str :=
  path_join path (split_on BSL (normpath fname)).

(** parser.py:86-90: at least two images. *)
Definition finish_filenames (fnames : list str) (rest : list str)
  : res (list str * list str) :=
  if length fnames <? 2 then Err SyntaxError else Ok (fnames, rest).

(** parser.py:62-90 _get_images_filenames.  self._lines is reversed before use
    and popped from the end, i.e. read from the front here; the line that is
    pushed back (line 75) is simply not consumed. *)
Fixpoint get_images_filenames (path : str) (acc : list str) (lines : list str)
  : res (list str * list str) :=
  match lines with
  | [] => finish_filenames acc []
  | line :: rest =>
      l <- split_line line ;;
      if negb (str_eqb (field 0 l) (lit "i")) then finish_filenames acc lines
      else if negb (length l =? 2) then Err SyntaxError
      else get_images_filenames path (acc ++ [image_path path (field 1 l)]) rest
  end.

(** parser.py:92-104 _get_kind. *)
Definition get_kind (fnames : list str) : kind :=
  if length fnames =? 2 then Temporal else Spatial.

(** parser.py:114-127, on one of the two dictionaries: setdefault of the exposure,
    membership test of the photon count (SyntaxError), insertion.  A NaN exposure
    is never equal to a stored key, so it always opens a new entry, as in
    Python where every parsed NaN is a different object. *)
Fixpoint add_exposure (e p : pyfloat) (fnames : list str) (m : exposure_dict)
  : res exposure_dict :=
  match m with
  | [] => Ok [(e, [(p, fnames)])]
  | (e', inner) :: m' =>
      if feq e e'
      then if dmem feq p inner then Err SyntaxError
           else Ok ((e', inner ++ [(p, fnames)]) :: m')
      else r <- add_exposure e p fnames m' ;; Ok ((e', inner) :: r)
  end.

(** parser.py:106-127 _add_pcount. *)
Definition add_pcount (e p : pyfloat) (fnames : list str) (d : desc) : res desc :=
  let k := get_kind fnames in
  m <- add_exposure e p fnames (images_of k d) ;;
  Ok (set_images k m d).

(** float(x.replace(',', '.')), parser.py:182-183 and 200. *)
Definition read_float (s : str) : res pyfloat :=
  of_option ValueError (py_float (replace_chr "," "." s)).

Definition read_int (s : str) : res Z := of_option ValueError (py_int s).

(** Body of the while loop of _fill_info, parser.py:138-209, for the tokens [l] of
    the popped line and the lines [rest] still to be read. *)
Definition fill_step (path : str) (l : list str) (rest : list str) (d : desc)
  : res (desc * list str) :=
  let c := field 0 l in
  if str_eqb c (lit "v") then
    Ok (mkDesc (Some (field 1 l)) (d_format d) (d_temporal d) (d_spatial d), rest)
  else if str_eqb c (lit "n") then
    if negb (length l =? 4) then Err SyntaxError
    else match d_format d with
         | Some _ => Err SyntaxError
         | None =>
             b <- read_int (field 1 l) ;;
             w <- read_int (field 2 l) ;;
             h <- read_int (field 3 l) ;;
             Ok (mkDesc (d_version d) (Some (b, w, h)) (d_temporal d) (d_spatial d),
                 rest)
         end
  else if str_eqb c (lit "b") then
    if negb (length l =? 3) then Err SyntaxError
    else e <- read_float (field 1 l) ;;
         p <- read_float (field 2 l) ;;
         ' (fn, rest') <- get_images_filenames path [] rest ;;
         d' <- add_pcount e p fn d ;;
         Ok (d', rest')
  else if str_eqb c (lit "d") then
    if negb (length l =? 2) then Err SyntaxError
    else e <- read_float (field 1 l) ;;
         ' (fn, rest') <- get_images_filenames path [] rest ;;
         d' <- add_pcount e fzero fn d ;;
         Ok (d', rest')
  else Ok (d, rest).

(** parser.py:129-209 _fill_info.  The loop consumes at least one line per round;
    [fuel] is the number of lines, so it never runs out (Proofs_Parser). *)
Fixpoint fill_info (fuel : nat) (path : str) (lines : list str) (d : desc)
  : res desc :=
  match lines, fuel with
  | [], _ => Ok d
  | line :: rest, S fuel' =>
      l <- split_line line ;;
      ' (d', rest') <- fill_step path l rest d ;;
      fill_info fuel' path rest' d'
  | _ :: _, O => Ok d
  end.

Definition parse_lines (path : str) (lines : list str) : res desc :=
  fill_info (length lines) path lines empty_desc.

(** parser.py:25-60 and 222-241: __init__ and _load_file.  [content] is the decoded
    text of the file, [None] when decoding raises UnicodeDecodeError: the handler
    then constructs UnicodeDecodeError with one argument (line 240), which is itself
    a TypeError.  [path = None] means the descriptor's directory (line 231). *)
Definition parse_file (filename : str) (path : option str) (content : option str)
  : res desc :=
  let p := match path with Some p => p | None => dirname filename end in
  match content with
  | None => Err TypeError
  | Some text => parse_lines p (load_lines text)
  end.
