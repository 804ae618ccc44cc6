(** Printing and exporting results: src/emva1288/process/results.py, [print_results] and
    [xml], and the methods of Emva1288 (process/__init__.py) that call them.
    Definitions only. *)
From Coq Require Import Ascii String List Bool Arith ZArith QArith.
From Verif Require Import Base_Prelude Base_Str Base_Num Model_Info Model_Xml Model_Docs.
Import ListNotations.
Open Scope nat_scope.

(** '{:<n}' and '{:>n}' of a string: filled with blanks, never cut. *)
Definition ljust (n : nat) (s : str) : str := s ++ repeat " "%char (n - length s).
Definition rjust (n : nat) (s : str) : str := repeat " "%char (n - length s) ++ s.

(** results.py:1245-1256 [results] and [results_by_section]; [attr name] is the value of
    the quantity [name]. *)
Definition by_section (attr : str -> res pobj)
  : res (list (str * list (str * list (str * pobj)))) :=
  d <- obj_to_dict results_cls attr ;; sections_first d.

(** [str(info.get(k))] *)
Definition str_get (k : str) (info : list (str * pobj)) : str :=
  py_str (match oget k info with Some v => v | None => ONone end).

(** results.py:1271-1273.  [format] of None with a width is a TypeError; the entry 'short'
    is a text whenever it is there, because it comes from a doc string.  The text of a
    value that is an array is not modelled (no documented quantity is one). *)
Definition result_line (info : list (str * pobj)) : res str :=
  match oget (lit "short") info with
  | Some (OStr s) =>
      Ok (ljust 50 s ++ ljust 30 (str_get (lit "symbol") info) ++ rjust 10 (str_get (lit "value") info))
  | _ => Err TypeError
  end.

(** Lines printed, and how it ended: an exception leaves what was printed before it. *)
Definition printing := (list str * res unit)%type.
Definition and_then (p q : printing) : printing :=
  match p with
  | (ls, Ok _) => (ls ++ fst q, snd q)
  | (ls, Err e) => (ls, Err e)
  end.

Definition stars : str := repeat "*"%char 50.
Definition dashes : str := repeat "-"%char 50.

(** results.py:1267-1273: the results of a section. *)
Fixpoint print_attributes (attributes : list (str * list (str * pobj))) : printing :=
  match attributes with
  | [] => ([], Ok tt)
  | (_, info) :: rest =>
      match oget (lit "value") info with
      | None => print_attributes rest
      | Some _ =>
          match result_line info with
          | Ok l => and_then ([l], Ok tt) (print_attributes rest)
          | Err e => ([], Err e)
          end
      end
  end.

(** results.py:1262-1273: the sections. *)
Fixpoint print_sections (ss : list (str * list (str * list (str * pobj)))) : printing :=
  match ss with
  | [] => ([], Ok tt)
  | (section, attributes) :: rest =>
      and_then ([stars; section; dashes], Ok tt)
        (and_then (print_attributes attributes) (print_sections rest))
  end.

(** results.py:1258-1275 [print_results]; process/__init__.py:22-23 [Emva1288.results]. *)
Definition print_results (attr : str -> res pobj) : printing :=
  match by_section attr with
  | Err e => ([], Err e)
  | Ok ss => and_then (print_sections ss) ([stars; lit " "], Ok tt)
  end.

(** The nested dictionaries as one object. *)
Definition sections_obj (ss : list (str * list (str * list (str * pobj)))) : list (str * pobj) :=
  map (fun s => (fst s, ODict (map (fun r => (fst r, ODict (snd r))) (snd s)))) ss.

(** results.py:1226-1243 [xml], routines.py:446-450; process/__init__.py:29-30
    [Emva1288.xml].  Result: what is returned and the file written; None and '' as file
    name both mean that the text is returned.  [can_open name]: whether
    [open(name, 'w')] succeeds. *)
Definition export_xml (can_open : str -> bool) (attr : str -> res pobj) (filename : option str)
  : res (option elem * option (str * elem)) :=
  ss <- by_section attr ;;
  t <- dict_to_xml (lit "results") (sections_obj ss) ;;
  match filename with
  | None | Some [] => Ok (Some t, None)
  | Some f => if can_open f then Ok (None, Some (f, t)) else Err IOError
  end.
