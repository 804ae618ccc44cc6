(** XML export and import of results: src/emva1288/process/routines.py,
    [dict_to_xml], [xml_to_dict], [round_significant], [compare_xml].
    Definitions only.

    lxml is modelled at the level of element trees: a tag, a text and children
    (attributes, tails, comments and name spaces are not used by the code).
    Writing a tree to a file and parsing the file gives the tree back, except
    that an empty text is read as no text, and that elements with children get
    white space texts from [pretty_print] (never read). *)
From Coq Require Import Ascii String List Bool Arith ZArith QArith.
From Verif Require Import Base_Prelude Base_Str Base_Num Base_Repr Model_Info.
Import ListNotations.
Open Scope nat_scope.

Inductive elem : Type :=
| Elem (tag : str) (text : option str) (children : list elem).

Definition e_tag (e : elem) : str := let '(Elem t _ _) := e in t.
Definition e_text (e : elem) : option str := let '(Elem _ t _) := e in t.
Definition e_children (e : elem) : list elem := let '(Elem _ _ c) := e in c.

(** Tag names accepted by lxml (Latin-1 part of XML names, without ':'). *)
Definition name_start (c : ascii) : bool :=
  let n := nat_of_ascii c in
  ((65 <=? n) && (n <=? 90)) || ((97 <=? n) && (n <=? 122)) || (n =? 95)
  || ((192 <=? n) && negb (n =? 215) && negb (n =? 247)).
Definition name_char (c : ascii) : bool :=
  let n := nat_of_ascii c in
  name_start c || ((48 <=? n) && (n <=? 57)) || (n =? 45) || (n =? 46) || (n =? 183).
Definition xml_name (s : str) : bool :=
  match s with [] => false | c :: s' => name_start c && forallb name_char s' end.

(** Texts accepted by lxml: no control characters but TAB, LF and CR. *)
Definition xml_text (s : str) : bool :=
  forallb (fun c => let n := nat_of_ascii c in
                    (32 <=? n) || (n =? 9) || (n =? 10) || (n =? 13)) s.

Definition num_str (x : pnum) : str :=
  match x with NI n => fmt_int n | NF x => py_repr x end.

(** [str(o)] of what is neither a dictionary nor an array (those are handled by
    [key_to_xml] itself). *)
Definition py_str (o : pobj) : str :=
  match o with
  | ONone => lit "None"
  | OStr s => s
  | ONum x => num_str x
  | OArr _ | ODict _ => []
  end.

(** [e.text = s] *)
Definition set_text (s : str) : res (option str) :=
  if xml_text s then Ok (Some s) else Err ValueError.

(** routines.py:418-442 [key_to_xml]: the children made for the entries of a
    dictionary.  [etree.SubElement] refuses invalid names.  [r.append(e)] moves
    [e], already the last child of [r], to the end: no change. *)
Fixpoint key_to_xml (o : pobj) : res (list elem) :=
  match o with
  | ODict d =>
      (fix go (d : list (str * pobj)) : res (list elem) :=
         match d with
         | [] => Ok []
         | (k, v) :: d' =>
             if xml_name k
             then e <- (match v with
                        | ODict _ => c <- key_to_xml v ;; Ok (Elem k None c)
                        | OArr a => t <- set_text (join_on " " (map num_str a)) ;; Ok (Elem k t [])
                        | _ => t <- set_text (py_str v) ;; Ok (Elem k t [])
                        end) ;;
                  r <- go d' ;;
                  Ok (e :: r)
             else Err ValueError
         end) d
  | _ => Ok []
  end.

(** routines.py:413-450 [dict_to_xml]: the tree that is written. *)
Definition dict_to_xml (root : str) (d : list (str * pobj)) : res elem :=
  if xml_name root
  then c <- key_to_xml (ODict d) ;; Ok (Elem root None c)
  else Err ValueError.

(** What parsing the written file gives. *)
Fixpoint reload (e : elem) : elem :=
  match e with
  | Elem t x c =>
      Elem t (match x with Some [] => None | _ => x end) (map reload c)
  end.

(** The argument of [xml_to_dict]: the name of an existing file (with the tree
    it contains, [None] when it is not well formed), or any other text. *)
Inductive xml_source : Type :=
| XFile (tree : option elem)
| XText (text : str).

(** routines.py:471-486 [element_to_dict] *)
Fixpoint element_value (e : elem) : pobj :=
  match e with
  | Elem _ x [] => match x with None => ONone | Some s => OStr s end
  | Elem _ _ cs =>
      ODict (fold_left (fun d p => oset (fst p) (snd p) d)
               (map (fun c => (lower (e_tag c), element_value c)) cs) [])
  end.

Definition element_to_dict (e : elem) : list (str * pobj) :=
  fold_left (fun d p => oset (fst p) (snd p) d)
    (map (fun c => (lower (e_tag c), element_value c)) (e_children e)) [].

(** [float(v)] of a text: surrounding white space is ignored. *)
Definition float_of (s : str) : res pyfloat := of_option ValueError (py_float (strip s)).

(** routines.py:495-498: one entry of a data dictionary. *)
Definition read_array (v : pobj) : res pobj :=
  match v with
  | OStr s => a <- mapM float_of (split_ws (strip s)) ;; Ok (OArr (map NF a))
  | _ => Err AttributeError
  end.

(** routines.py:492-505: one result. *)
Definition read_result (value : pobj) : res pobj :=
  match value with
  | ODict d =>
      match oget (lit "data") d with
      | Some (ODict dd) =>
          dd' <- mapM (fun kv => a <- read_array (snd kv) ;; Ok (fst kv, a)) dd ;;
          Ok (ODict (oset (lit "data") (ODict dd') d))
      | Some (OStr []) => Ok value
      | Some _ => Err TypeError
      | None =>
          match oget (lit "value") d with
          | None => Err KeyError
          | Some ONone => Ok (ODict (oset (lit "value") ONone d))
          | Some (OStr s) =>
              if str_eqb s (lit "None") || str_eqb s (lit "none")
              then Ok (ODict (oset (lit "value") ONone d))
              else x <- float_of (replace_chr "," "." s) ;;
                   Ok (ODict (oset (lit "value") (ONum (NF x)) d))
          | Some _ => Err AttributeError
          end
      end
  | _ => Err TypeError
  end.

Definition read_section (method : pobj) : res pobj :=
  match method with
  | ODict ms => ms' <- mapM (fun kv => r <- read_result (snd kv) ;; Ok (fst kv, r)) ms ;;
                Ok (ODict ms')
  | _ => Err AttributeError
  end.

(** routines.py:453-506 [xml_to_dict].  A text that is not a file name is
    handed to [etree.ElementTree.fromstring]; [etree.ElementTree] is a function
    without such an attribute, the AttributeError is caught and None returned,
    whatever the text. *)
Definition xml_to_dict (x : xml_source) : res (option (list (str * pobj))) :=
  match x with
  | XText _ => Ok None
  | XFile None => Ok None
  | XFile (Some t) =>
      d <- mapM (fun kv => r <- read_section (snd kv) ;; Ok (fst kv, r)) (element_to_dict t) ;;
      Ok (Some d)
  end.

(** ** Comparison *)

(** Numeric environment of [round_significant]: whether this NumPy still has
    [np.int] (removed in 1.24); the integer part of log10 of a finite non-zero
    number; rounding a finite number to decimals ([round] of a Python float, the
    same call on a NumPy float). *)
Record numenv := mkNE
  { ne_np_int : bool;
    ne_log10 : Q -> Z;
    ne_round : Q -> Z -> res pyfloat;
    ne_np_round : Q -> Z -> res pyfloat }.

Definition num_float (x : pnum) : pyfloat :=
  match x with NI n => rnd64 (inject_Z n) | NF x => x end.

(** routines.py:509-515 [round_significant]; infinities and NaN fail when
    converted to an integer. *)
Definition round_significant (E : numenv) (np : bool) (v : pobj) : res pyfloat :=
  match v with
  | ONum n =>
      let x := num_float n in
      if feq x fzero then Ok fzero
      else if ne_np_int E
      then match x with
           | FFin q => (if np then ne_np_round E else ne_round E) q (7 - ne_log10 E q - 1)%Z
           | FInf _ => Err ValueError
           | FNan => Err ValueError
           end
      else Err AttributeError
  | _ => Err TypeError
  end.

(** [(a - b) == 0.0] of two floats. *)
Definition same_number (a b : pyfloat) : bool :=
  match a, b with FFin x, FFin y => Qeq_bool x y | _, _ => false end.

(** routines.py:575-578 *)
Definition values_equal (E : numenv) (v1 v2 : pobj) : bool :=
  match round_significant E false v1 with
  | Ok a => match round_significant E false v2 with
            | Ok b => same_number a b
            | Err _ => false
            end
  | Err _ => false
  end.

(** [np.max(np.abs(a - b)) == 0.0] with broadcasting of one-element arrays;
    [np.vectorize] and [np.max] refuse empty arrays. *)
Definition all_equal (a b : list pyfloat) : bool :=
  match a, b with
  | [], _ => false
  | _, [] => false
  | [x], _ => forallb (same_number x) b
  | _, [y] => forallb (fun x => same_number x y) a
  | _, _ => (length a =? length b)
            && forallb (fun p => same_number (fst p) (snd p)) (combine a b)
  end.

(** routines.py:594-598 *)
Definition arrays_equal (E : numenv) (v1 v2 : pobj) : bool :=
  match v1, v2 with
  | OArr a1, OArr a2 =>
      match mapM (fun x => round_significant E true (ONum x)) a1 with
      | Ok r1 => match mapM (fun x => round_significant E true (ONum x)) a2 with
                 | Ok r2 => all_equal r1 r2
                 | Err _ => false
                 end
      | Err _ => false
      end
  | _, _ => false
  end.

(** routines.py:583-602: [a1.keys()] fails for anything but a dictionary; with
    no keys at all [r] would be unbound (NameError). *)
Definition data_equal (E : numenv) (a1 a2 : pobj) : res bool :=
  match a1, a2 with
  | ODict d1, ODict d2 =>
      if forallb (fun k => dmem str_eqb k d2) (dkeys d1)
         && forallb (fun k => dmem str_eqb k d1) (dkeys d2)
      then match d1 with
           | [] => Err NameError
           | _ => Ok (forallb (fun k =>
                        match oget k d1, oget k d2 with
                        | Some x, Some y => arrays_equal E x y
                        | _, _ => false
                        end) (dkeys d1))
           end
      else Ok false
  | _, _ => Err AttributeError
  end.

(** routines.py:552-566: value and data of a method in one of the files. *)
Definition value_and_data (m : option pobj) : res (pobj * pobj) :=
  match m with
  | None => Ok (ONone, ONone)
  | Some (ODict d) =>
      Ok (match oget (lit "value") d with Some v => v | None => ONone end,
          match oget (lit "data") d with Some v => v | None => ONone end)
  | Some _ => Err AttributeError
  end.

Definition is_none (o : pobj) : bool := match o with ONone => true | _ => false end.

(** ['{0:<20}'.format(v)] fails for dictionaries and arrays. *)
Definition formattable (o : pobj) : bool :=
  match o with ODict _ | OArr _ => false | _ => true end.

(** routines.py:546-612: whether the line of one method says OK. *)
Definition compare_method (E : numenv) (m1 m2 : option pobj) : res bool :=
  p1 <- value_and_data m1 ;;
  p2 <- value_and_data m2 ;;
  let '(v1, a1) := p1 in
  let '(v2, a2) := p2 in
  if negb (is_none v1) && negb (is_none v2)
  then if formattable v1 && formattable v2 then Ok (values_equal E v1 v2) else Err TypeError
  else if negb (is_none a1) && negb (is_none a2) then data_equal E a1 a2
  else Ok false.

(** A line of the report: the category and either its PRESENT line (always
    FAIL), or a method with its verdict. *)
Inductive report_line : Type :=
| LPresent (category : str) (in1 in2 : bool)
| LMethod (category method : str) (ok : bool).

Definition compare_category (E : numenv) (f1 f2 : list (str * pobj)) (c : str)
  : res (list report_line) :=
  match oget c f1, oget c f2 with
  | Some (ODict s1), Some (ODict s2) =>
      mapM (fun m => ok <- compare_method E (oget m s1) (oget m s2) ;; Ok (LMethod c m ok))
           (str_sorted (str_nub (dkeys s1 ++ dkeys s2)))
  | Some _, Some _ => Err AttributeError
  | x, y => Ok [LPresent c (match x with Some _ => true | None => false end)
                           (match y with Some _ => true | None => false end)]
  end.

(** routines.py:521-620 [compare_xml]: the lines of the report (the layout with
    stars, names and values in columns is not modelled); no lines when a file
    cannot be loaded. *)
Definition compare_xml (E : numenv) (x1 x2 : xml_source) : res (list report_line) :=
  o1 <- xml_to_dict x1 ;;
  o2 <- xml_to_dict x2 ;;
  match o1, o2 with
  | Some f1, Some f2 =>
      ls <- mapM (compare_category E f1 f2) (str_sorted (str_nub (dkeys f1 ++ dkeys f2))) ;;
      Ok (concat ls)
  | _, _ => Ok []
  end.
