(** What a descriptor file means, stated without reference to how the parser
    works: lines, words, blocks, entries, well-formedness. *)
From Coq Require Import Ascii String List Bool Arith ZArith QArith.
From Verif Require Import Base_Prelude Base_Str Base_Num Model_Path Model_Parser.
Import ListNotations.
Open Scope nat_scope.

(** ** Lines of a text *)

Definition no_eol (l : str) : Prop := forall c, In c l -> c <> NL /\ c <> CR.

(** [text_lines t ls]: [t] consists of the lines [ls], separated by LF, CR or
    CR LF. *)
Inductive text_lines : str -> list str -> Prop :=
| tl_last l : no_eol l -> text_lines l [l]
| tl_lf l t ls : no_eol l -> text_lines t ls -> text_lines (l ++ NL :: t) (l :: ls)
| tl_crlf l t ls :
    no_eol l -> text_lines t ls -> text_lines (l ++ CR :: NL :: t) (l :: ls)
| tl_cr l t ls :
    no_eol l -> text_lines t ls -> hd_error t <> Some NL ->
    text_lines (l ++ CR :: t) (l :: ls).

(** ** Words of a line *)

Definition blank (s : str) : Prop := Forall (fun c => is_space c = true) s.
Definition is_word (w : str) : Prop :=
  w <> [] /\ Forall (fun c => is_space c = false) w.

(** [spaced ws l]: [l] is the words [ws] with white space around them and
    non-empty white space between them. *)
Inductive spaced : list str -> str -> Prop :=
| sp_nil b : blank b -> spaced [] b
| sp_one b1 w b2 : blank b1 -> is_word w -> blank b2 -> spaced [w] (b1 ++ w ++ b2)
| sp_cons b1 w b2 w2 ws l :
    blank b1 -> is_word w -> blank b2 -> b2 <> [] ->
    spaced (w2 :: ws) l -> spaced (w :: w2 :: ws) (b1 ++ w ++ b2 ++ l).

(** A line that is blank or a comment: its first non-white character, if any,
    is '#'. *)
Definition comment_or_blank (l : str) : Prop :=
  blank l \/ exists b r, blank b /\ l = b ++ "#"%char :: r.

(** [content ls toks]: [toks] are the words of the meaningful lines of [ls]. *)
Inductive content : list str -> list (list str) -> Prop :=
| ct_nil : content [] []
| ct_skip l ls toks :
    comment_or_blank l -> content ls toks -> content (l :: ls) toks
| ct_line l w ws ls toks :
    spaced (w :: ws) l -> hd_error w <> Some "#"%char ->
    content ls toks -> content (l :: ls) ((w :: ws) :: toks).

(** The words of the meaningful lines of a whole text. *)
Definition text_content (t : str) (toks : list (list str)) : Prop :=
  exists ls, text_lines t ls /\ content ls toks.

(** ** Blocks *)

Definition cmd (l : list str) : str := nth 0 l [].
Definition is_image (l : list str) : bool := str_eqb (cmd l) (lit "i").
Definition is_header (l : list str) : bool :=
  str_eqb (cmd l) (lit "b") || str_eqb (cmd l) (lit "d").

(** The maximal run of image lines at the front. *)
Fixpoint image_run (ls : list (list str)) : list (list str) :=
  match ls with
  | l :: ls' => if is_image l then l :: image_run ls' else []
  | [] => []
  end.

(** Every 'b' or 'd' line together with the image lines directly after it. *)
Fixpoint blocks (ls : list (list str)) : list (list str * list (list str)) :=
  match ls with
  | [] => []
  | l :: ls' => if is_header l then (l, image_run ls') :: blocks ls' else blocks ls'
  end.

(** ** Entries *)

Record entry := mkEntry {
  e_kind : kind;
  e_exposure : pyfloat;
  e_photons : pyfloat;
  e_files : list str
}.

(** A number with either decimal separator. *)
Definition number_of (w : str) : option pyfloat :=
  py_float (map (fun c => if Ascii.eqb c "," then "."%char else c) w).

(** The entry described by a block: 2 images = temporal, more = spatial. *)
Definition block_denotes (path : str) (b : list str * list (list str)) (e : entry)
  : Prop :=
  let '(h, imgs) := b in
  number_of (nth 1 h []) = Some (e_exposure e) /\
  (cmd h = lit "b" -> number_of (nth 2 h []) = Some (e_photons e)) /\
  (cmd h = lit "d" -> e_photons e = FFin 0) /\
  e_files e = map (fun i => image_path path (nth 1 i [])) imgs /\
  e_kind e = (if length imgs =? 2 then Temporal else Spatial).

(** All entries of the parsed images dictionary. *)
Definition entries_of (k : kind) (m : exposure_dict) : list entry :=
  flat_map (fun em => map (fun pf => mkEntry k (fst em) (fst pf) (snd pf)) (snd em)) m.
Definition entries (d : desc) : list entry :=
  entries_of Temporal (d_temporal d) ++ entries_of Spatial (d_spatial d).

(** Two entries compete for the same place in the images dictionary. *)
Definition clash (x y : entry) : Prop :=
  e_kind x = e_kind y /\ feq (e_exposure x) (e_exposure y) = true /\
  feq (e_photons x) (e_photons y) = true.

(** ** Well-formed descriptors *)

Definition header_ok (h : list str) : Prop :=
  (cmd h = lit "b" ->
   length h = 3 /\ (exists e, number_of (nth 1 h []) = Some e) /\
   (exists p, number_of (nth 2 h []) = Some p)) /\
  (cmd h = lit "d" -> length h = 2 /\ exists e, number_of (nth 1 h []) = Some e).

Definition block_ok (b : list str * list (list str)) : Prop :=
  header_ok (fst b) /\ 2 <= length (snd b) /\
  Forall (fun i => length i = 2) (snd b).

Definition format_ok (l : list str) : Prop :=
  length l = 4 /\ (exists b, py_int (nth 1 l []) = Some b) /\
  (exists w, py_int (nth 2 l []) = Some w) /\ (exists h, py_int (nth 3 l []) = Some h).

Definition format_lines (toks : list (list str)) : list (list str) :=
  filter (fun l => str_eqb (cmd l) (lit "n")) toks.

Definition well_formed (path : str) (toks : list (list str)) : Prop :=
  Forall (fun l => 2 <= length l) toks /\
  length (format_lines toks) <= 1 /\
  Forall format_ok (format_lines toks) /\
  Forall block_ok (blocks toks) /\
  (forall es, Forall2 (block_denotes path) (blocks toks) es ->
              ForallOrdPairs (fun x y => ~ clash x y) es).

(** Version and format announced by a descriptor: the last 'v' line, the 'n' line. *)
Definition version_of (toks : list (list str)) : option str :=
  fold_left (fun v l => if str_eqb (cmd l) (lit "v") then Some (nth 1 l []) else v)
            toks None.

(** Some field that must be a number is not one. *)
Definition bad_number (toks : list (list str)) : Prop :=
  exists l, In l toks /\
   ((cmd l = lit "n" /\ exists i, 1 <= i <= 3 /\ py_int (nth i l []) = None) \/
    (cmd l = lit "b" /\ exists i, 1 <= i <= 2 /\ number_of (nth i l []) = None) \/
    (cmd l = lit "d" /\ number_of (nth 1 l []) = None)).

(** The directory against which image names are resolved. *)
Definition base_dir (filename : str) (path : option str) : str :=
  match path with Some p => p | None => dirname filename end.

(** Two lines that differ at most in the decimal separators of header numbers. *)
Definition comma_variant (l l' : list str) : Prop :=
  l = l' \/
  (is_header l = true /\ length l = length l' /\ cmd l = cmd l' /\
   Forall2 (fun w w' => map (fun c => if Ascii.eqb c "," then "."%char else c) w =
                        map (fun c => if Ascii.eqb c "," then "."%char else c) w')
           (tl l) (tl l')).

(** A descriptor made of preliminary lines followed by blocks. *)
Definition is_block (b : list str * list (list str)) : Prop :=
  is_header (fst b) = true /\ Forall (fun i => is_image i = true) (snd b).
Definition render_blocks (bs : list (list str * list (list str))) : list (list str) :=
  flat_map (fun b => fst b :: snd b) bs.

(** No image line is stray: each directly follows a header or another image line. *)
Definition no_stray (toks : list (list str)) : Prop :=
  forall a l b, toks = a ++ l :: b -> is_image l = true ->
  exists a' x, a = a' ++ [x] /\ (is_header x = true \/ is_image x = true).
