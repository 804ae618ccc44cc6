(** What doc strings and grouped results mean. *)
From Coq Require Import Ascii String List Bool Arith ZArith.
From Verif Require Import Base_Prelude Base_Str Base_Num Model_Info Spec_Parser.
Import ListNotations.
Open Scope nat_scope.

(** ** Lines of a doc string *)

Definition no_break (l : str) : Prop := Forall (fun c => is_break c = false) l.

(** [b] ends a line that is followed by [t]. *)
Inductive line_end : str -> str -> Prop :=
| le_chr c t : is_break c = true -> c <> CR -> line_end [c] t
| le_cr t : hd_error t <> Some NL -> line_end [CR] t
| le_crlf t : line_end [CR; NL] t.

Inductive doc_text : str -> list str -> Prop :=
| dt_end : doc_text [] []
| dt_last l : l <> [] -> no_break l -> doc_text l [l]
| dt_line l b t ls : no_break l -> line_end b t -> doc_text t ls ->
                     doc_text (l ++ b ++ t) (l :: ls).

(** ** Blocks *)

(** A non-empty text without white space at its ends. *)
Definition tight (s : str) : Prop :=
  (exists c r, s = c :: r /\ is_space c = false) /\
  (exists r c, s = r ++ [c] /\ is_space c = false).

Definition directive : str := lit ".. emva1288::".

Definition marker_line (l : str) : Prop := exists b r, blank b /\ l = b ++ directive ++ r.

(** ':Key: value', white space anywhere around key and value. *)
Definition tag_line (l k v : str) : Prop :=
  exists b0 b1 b2 b3 b4,
    blank b0 /\ blank b1 /\ blank b2 /\ blank b3 /\ blank b4 /\
    tight k /\ tight v /\ ~ In ":"%char k /\
    l = b0 ++ ":"%char :: b1 ++ k ++ b2 ++ ":"%char :: b3 ++ v ++ b4.

(** [block inside ls tags]: reading the lines [ls], being inside a block or not,
    the blocks contain the tags [tags] ([None] stands for a line without any
    colon, which is no tag). *)
Inductive block : bool -> list str -> list (option (str * str)) -> Prop :=
| bl_end i : block i [] []
| bl_out l ls ts : ~ marker_line l -> block false ls ts -> block false (l :: ls) ts
| bl_mark i l ls ts : marker_line l -> block true ls ts -> block i (l :: ls) ts
| bl_tag l k v ls ts : tag_line l k v -> block true ls ts -> block true (l :: ls) (Some (k, v) :: ts)
| bl_note l ls ts : ~ blank l -> ~ In ":"%char l -> block true ls ts ->
                    block true (l :: ls) (None :: ts)
| bl_blank l ls ts : blank l -> block false ls ts -> block true (l :: ls) ts.

(** The last value given for a key, keys being compared in lower case. *)
Fixpoint last_value (k : str) (ts : list (option (str * str))) : option str :=
  match ts with
  | [] => None
  | t :: ts' =>
      match last_value k ts' with
      | Some v => Some v
      | None => match t with
                | Some (k', v) => if str_eq_dec (lower k') k then Some v else None
                | None => None
                end
      end
  end.

(** The metadata a doc string gives for a key. *)
Definition documented (ts : list (option (str * str))) (k : str) : option str :=
  match last_value k ts with
  | Some v => Some v
  | None => if str_eq_dec k (lit "section") then Some (lit "other") else None
  end.

(** ** Order of strings: the first difference decides, a proper prefix is
    smaller. *)
Inductive str_lt : str -> str -> Prop :=
| lt_prefix c s : str_lt [] (c :: s)
| lt_here x y a b : nat_of_ascii x < nat_of_ascii y -> str_lt (x :: a) (y :: b)
| lt_later x a b : str_lt a b -> str_lt (x :: a) (x :: b).

(** The section a result belongs to. *)
Definition in_section (s : str) (r : str * list (str * pobj)) : Prop :=
  oget (lit "section") (snd r) = Some (OStr s).

(** [l] lists some elements of [all], in the order of [all]. *)
Inductive in_order_of {A} : list A -> list A -> Prop :=
| io_nil : in_order_of [] []
| io_take a all l : in_order_of all l -> in_order_of (a :: all) (a :: l)
| io_skip a all l : in_order_of all l -> in_order_of (a :: all) l.
