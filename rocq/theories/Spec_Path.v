(** What a path string denotes: a directory tree walk.  A location is the list of
    directory names from the root, innermost first.  Symbolic links are ignored. *)
From Coq Require Import Ascii String List Bool.
From Verif Require Import Base_Str.
Import ListNotations.

(** Follow one name: the empty name and "." stay, ".." goes up. *)
Definition step (here : list str) (name : str) : list str :=
  if str_eqb name [] || str_eqb name (lit ".") then here
  else if str_eqb name (lit "..") then tl here
  else name :: here.

Definition walk (here : list str) (names : list str) : list str :=
  fold_left step names here.

(** The location a POSIX path denotes for a process in directory [cwd]. *)
Definition resolve (cwd : list str) (p : str) : list str :=
  match p with
  | c :: _ => if chr_eqb c "/" then walk [] (split_on "/" p) else walk cwd (split_on "/" p)
  | [] => cwd
  end.

(** The names in an image name as the author of a descriptor means them: both
    separators count. *)
Definition names_of (n : str) : list str := split_on "/" (replace_chr "\" "/" n).

Definition absolute (n : str) : Prop := exists r, n = "/"%char :: r.

(** Image names whose reading is not in doubt: one kind of separator only, or
    both kinds but no ".." and no "\" directly followed by "/". *)
Definition plain_name (n : str) : Prop :=
  ~ In "\"%char n \/
  ~ In "/"%char n \/
  (~ In (lit "..") (names_of n) /\
   forall u v, n <> u ++ "\"%char :: "/"%char :: v).
