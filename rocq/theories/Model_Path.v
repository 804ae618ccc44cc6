(** posixpath functions used by the package (CPython 3.11 Lib/posixpath.py), on
    POSIX: the separator is '/'. *)
From Coq Require Import Ascii String List Bool Arith.
From Verif Require Import Base_Prelude Base_Str.
Import ListNotations.

Definition SEP : ascii := "/"%char.
Definition BSL : ascii := "\"%char.

Definition ends_with_sep (p : str) : bool :=
  match rev p with c :: _ => chr_eqb c SEP | [] => false end.

Definition starts_with_sep (p : str) : bool :=
  match p with c :: _ => chr_eqb c SEP | [] => false end.

(** One step of os.path.join. *)
Definition path_join2 (a b : str) : str :=
  if starts_with_sep b then b
  else match a with
       | [] => b
       | _ => if ends_with_sep a then a ++ b else a ++ SEP :: b
       end.

(** os.path.join(a, *bs) *)
Definition path_join (a : str) (bs : list str) : str := fold_left path_join2 bs a.

(** The component loop of os.path.normpath; [acc] is new_comps reversed. *)
Fixpoint norm_comps (initial : bool) (acc : list str) (comps : list str) : list str :=
  match comps with
  | [] => rev acc
  | c :: cs =>
      if str_eqb c [] || str_eqb c (lit ".") then norm_comps initial acc cs
      else if negb (str_eqb c (lit "..")) then norm_comps initial (c :: acc) cs
      else match acc with
           | [] => if initial then norm_comps initial [] cs
                   else norm_comps initial [c] cs
           | top :: acc' =>
               if str_eqb top (lit "..") then norm_comps initial (c :: acc) cs
               else norm_comps initial acc' cs
           end
  end.

(** os.path.normpath: one or two (exactly two) leading slashes are kept. *)
Definition normpath (p : str) : str :=
  match p with
  | [] => lit "."
  | _ =>
      let initial := starts_with_sep p in
      let two := startswith (lit "//") p && negb (startswith (lit "///") p) in
      let body := join_on SEP (norm_comps initial [] (split_on SEP p)) in
      let r := if two then SEP :: SEP :: body
               else if initial then SEP :: body else body in
      match r with [] => lit "." | _ => r end
  end.

(** Drops trailing separators ([s.rstrip('/')]). *)
Fixpoint drop_sep (s : str) : str :=
  match s with
  | c :: s' => if chr_eqb c SEP then drop_sep s' else s
  | [] => []
  end.
Definition rstrip_sep (s : str) : str := rev (drop_sep (rev s)).

(** Part of the reversed string from the last separator on. *)
Fixpoint to_sep (s : str) : str :=
  match s with
  | c :: s' => if chr_eqb c SEP then s else to_sep s'
  | [] => []
  end.

(** os.path.dirname *)
Definition dirname (p : str) : str :=
  let head := rev (to_sep (rev p)) in
  if forallb (fun c => chr_eqb c SEP) head then head else rstrip_sep head.
