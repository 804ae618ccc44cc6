(** Result metadata: src/emva1288/process/routines.py, [cls_1288_info],
    [_sections_first], [obj_to_dict].  Definitions only.

    Python dictionaries with string keys are association lists.  A class is the
    list of its attribute names ([cls.__dict__]) with the doc string that
    [getattr(cls, name).__doc__] returns. *)
From Coq Require Import Ascii String List Bool Arith ZArith QArith.
From Verif Require Import Base_Prelude Base_Str Base_Num.
Import ListNotations.
Open Scope nat_scope.

(** Python or NumPy numbers. *)
Inductive pnum : Type :=
| NI (n : Z)
| NF (x : pyfloat).

(** Python objects occurring in results and in XML files. *)
Inductive pobj : Type :=
| ONone
| OStr (s : str)
| ONum (x : pnum)
| OArr (a : list pnum)                    (** one-dimensional array *)
| ODict (d : list (str * pobj)).

Definition oget (k : str) (d : list (str * pobj)) : option pobj := dget str_eqb k d.
Definition oset (k : str) (v : pobj) (d : list (str * pobj)) := dset str_eqb k v d.

(** Python string order: code point by code point. *)
Fixpoint str_ltb (a b : str) : bool :=
  match a, b with
  | [], [] => false
  | [], _ :: _ => true
  | _ :: _, [] => false
  | x :: a', y :: b' =>
      if nat_of_ascii x <? nat_of_ascii y then true
      else if nat_of_ascii y <? nat_of_ascii x then false else str_ltb a' b'
  end.

(** [sorted(l)] for strings (a stable insertion sort; equal strings are
    indistinguishable). *)
Fixpoint str_insert (x : str) (l : list str) : list str :=
  match l with
  | [] => [x]
  | y :: l' => if str_ltb y x then y :: str_insert x l' else x :: l
  end.
Definition str_sorted (l : list str) : list str := fold_right str_insert [] l.

(** [set(l)]: duplicates removed (the order of a Python set is unspecified; the
    code only iterates over sorted sets). *)
Fixpoint str_nub (l : list str) : list str :=
  match l with
  | [] => []
  | x :: l' => if existsb (str_eqb x) l' then str_nub l' else x :: str_nub l'
  end.

(** Characters at which [str.splitlines] breaks (Latin-1 part). *)
Definition is_break (c : ascii) : bool :=
  let n := nat_of_ascii c in
  ((10 <=? n) && (n <=? 13)) || ((28 <=? n) && (n <=? 30)) || (n =? 133).

(** [str.splitlines()]; [cur] is the line being read, reversed.  CR LF is one
    line end; no empty piece after the last line end. *)
Fixpoint splitlines_aux (cur : str) (s : str) : list str :=
  match s with
  | [] => match cur with [] => [] | _ => [rev cur] end
  | c :: s' =>
      if is_break c
      then rev cur ::
           (if chr_eqb c CR
            then match s' with
                 | c' :: s'' => if chr_eqb c' NL then splitlines_aux [] s''
                                else splitlines_aux [] s'
                 | [] => []
                 end
            else splitlines_aux [] s')
      else splitlines_aux (c :: cur) s'
  end.
Definition splitlines (s : str) : list str := splitlines_aux [] s.

(** [s.split(c, n)]: at most [n] splits. *)
Fixpoint split_max (c : ascii) (n : nat) (s : str) : list str :=
  match n with
  | O => [s]
  | S n' =>
      match cut (fun x => chr_eqb x c) s with
      | (a, None) => [a]
      | (a, Some b) => a :: split_max c n' b
      end
  end.

Definition marker : str := lit ".. emva1288::".

(** routines.py:340-351: the lines after a marker line up to a blank one. *)
Fixpoint tag_lines (flag : bool) (lines : list str) : list str :=
  match lines with
  | [] => []
  | line :: rest =>
      if startswith marker line then tag_lines true rest
      else if flag
      then match strip line with
           | [] => tag_lines false rest
           | _ => line :: tag_lines true rest
           end
      else tag_lines false rest
  end.

Definition nonempty (s : str) : bool := match s with [] => false | _ => true end.

(** routines.py:359: [[x.strip() for x in line.split(':', 2) if x.strip()]] *)
Definition tags_of (line : str) : list str :=
  filter nonempty (map strip (split_max ":" 2 line)).

(** routines.py:357-364 *)
Definition attribute_info (lines : list str) : dict str str :=
  fold_left (fun d line =>
    match tags_of line with
    | [k; v] => dset str_eqb (lower k) v d
    | _ => d
    end) lines [].

(** [d.setdefault(k, v)] *)
Definition setdefault (k v : str) (d : dict str str) : dict str str :=
  if dmem str_eqb k d then d else dset str_eqb k v d.

(** routines.py:328-368 for one attribute: [None] when it is skipped.
    [doc] is [None] or empty when there is no doc string. *)
Definition doc_info (doc : option str) : option (dict str str) :=
  match doc with
  | None | Some [] => None
  | Some t =>
      match tag_lines false (map strip (splitlines t)) with
      | [] => None
      | ls => Some (setdefault (lit "section") (lit "other") (attribute_info ls))
      end
  end.

(** routines.py:305-370 [cls_1288_info]; [cls] has distinct names. *)
Definition cls_1288_info (cls : list (str * option str)) : dict str (dict str str) :=
  flat_map (fun name =>
    match dget str_eqb name cls with
    | Some doc => match doc_info doc with Some i => [(name, i)] | None => [] end
    | None => []
    end) (str_sorted (map fst cls)).

(** routines.py:373-386 [_sections_first].  The info of one result is a
    dictionary whose 'section' entry is read with [v['section']] (KeyError when
    missing); values other than strings as sections are not modelled
    (TypeError). *)
Definition section_of (v : list (str * pobj)) : res str :=
  match oget (lit "section") v with
  | Some (OStr s) => Ok s
  | Some _ => Err TypeError
  | None => Err KeyError
  end.

Definition has_section (s : str) (kv : str * list (str * pobj)) : bool :=
  match section_of (snd kv) with Ok t => str_eqb t s | Err _ => false end.

Definition sections_first (dct : list (str * list (str * pobj)))
  : res (list (str * list (str * list (str * pobj)))) :=
  ss <- mapM section_of (map snd dct) ;;
  Ok (map (fun s => (s, fold_left (fun d kv => dset str_eqb (fst kv) (snd kv) d)
                                  (filter (has_section s) dct) []))
          (str_sorted (str_nub ss))).

(** routines.py:389-410 [obj_to_dict]: [attr name] is the value of the attribute,
    called when it is callable; the first failing attribute ends it. *)
Definition obj_to_dict (cls : list (str * option str)) (attr : str -> res pobj)
  : res (list (str * list (str * pobj))) :=
  mapM (fun ni : str * dict str str =>
    let '(name, info) := ni in
    v <- attr name ;;
    let i := map (fun kv => (fst kv, OStr (snd kv))) info in
    Ok (name, match v with
              | ODict _ => oset (lit "data") v i
              | _ => oset (lit "value") v i
              end)) (cls_1288_info cls).
