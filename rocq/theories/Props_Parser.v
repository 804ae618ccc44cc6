(** Properties C01-C07 of the descriptor parser. *)
From Coq Require Import Ascii String List Bool Arith ZArith QArith Permutation Lia.
From Verif Require Import Base_Prelude Base_Str Base_Num Model_Path Model_Parser
  Spec_Parser Proofs_Str Proofs_Parser Proofs_Parser2.
Import ListNotations.
Open Scope nat_scope.

(** A small descriptor used as example: comments, blank lines, decimal comma,
    Windows separators, three blocks. *)
Definition ex_text : str := lit "# comment
v 4.0
n 8 640 480

b 1000,5 2e3
i images\a.png
  # between images
i    images\b.png
d 1000.5
i c.png
i d.png
b 1000.5 1000
i e.png
i f.png
i g.png
".
Definition ex_file : str := lit "/data/set/d.txt".
Definition ex_toks : list (list str) := map split_ws (load_lines ex_text).

Example ex_content : text_content ex_text ex_toks.
Proof. apply text_content_compute. Qed.

Example ex_parses : exists d, parse_file ex_file None (Some ex_text) = Ok d /\
  length (entries d) = 3 /\ d_version d = Some (lit "4.0") /\ d_format d = Some (8, 640, 480)%Z.
Proof. eexists. split; [vm_compute; reflexivity|]. vm_compute. repeat split. Qed.

(** Every text has exactly one content, so the hypotheses [text_content t toks]
    below never restrict the text. *)
Theorem C01_every_text_has_content t :
  exists toks, text_content t toks /\ forall toks', text_content t toks' -> toks' = toks.
Proof.
  exact (match text_content_exists t with
         | ex_intro _ toks H =>
             ex_intro _ toks (conj H (fun toks' H' => text_content_unique t toks' toks H' H))
         end).
Qed.
Print Assumptions C01_every_text_has_content.

(** C01: the parsed images are exactly the entries denoted by the blocks. *)
Theorem C01_blocks_are_entries f p t toks d :
  text_content t toks -> parse_file f p (Some t) = Ok d ->
  exists es, Forall2 (block_denotes (base_dir f p)) (blocks toks) es /\
             Permutation (entries d) es.
Proof. exact (blocks_to_entries f p t toks d). Qed.
Print Assumptions C01_blocks_are_entries.

Example C01_example : length (blocks ex_toks) = 3.
Proof. vm_compute. reflexivity. Qed.

Theorem C01_version_and_format f p t toks d :
  text_content t toks -> parse_file f p (Some t) = Ok d ->
  d_version d = version_of toks /\
  (forall l, In l (format_lines toks) ->
     exists b w h, py_int (nth 1 l []) = Some b /\ py_int (nth 2 l []) = Some w /\
       py_int (nth 3 l []) = Some h /\ d_format d = Some (b, w, h)) /\
  (format_lines toks = [] -> d_format d = None).
Proof. exact (version_format f p t toks d). Qed.
Print Assumptions C01_version_and_format.

(** C02: success is well-formedness. *)
Theorem C02_accepts_iff_well_formed f p t toks :
  text_content t toks ->
  ((exists d, parse_file f p (Some t) = Ok d) <-> well_formed (base_dir f p) toks).
Proof. exact (accept_iff f p t toks). Qed.
Print Assumptions C02_accepts_iff_well_formed.

Example C02_example_ok : well_formed (base_dir ex_file None) ex_toks.
Proof.
  apply (C02_accepts_iff_well_formed ex_file None ex_text ex_toks ex_content).
  destruct ex_parses as (d & H & _). eauto.
Qed.

Example C02_example_bad : parse_file ex_file None (Some (lit "b 1 2
i only_one.png")) = Err SyntaxError.
Proof. vm_compute. reflexivity. Qed.

(** C02: a rejected file raises SyntaxError, or ValueError because of a field that is
    not a number; nothing else. *)
Theorem C02_rejection_class f p t toks e :
  text_content t toks -> parse_file f p (Some t) = Err e ->
  e = SyntaxError \/ (e = ValueError /\ bad_number toks).
Proof. exact (reject_class f p t toks e). Qed.
Print Assumptions C02_rejection_class.

Example C02_example_value_error : parse_file ex_file None (Some (lit "d 1x0
i a.png
i b.png")) = Err ValueError.
Proof. vm_compute. reflexivity. Qed.

(** Finding beside C02: an undecodable file raises TypeError, not the intended
    UnicodeDecodeError (parser.py:240 calls its constructor with one argument). *)
Theorem C02_undecodable_is_type_error f p : parse_file f p None = Err TypeError.
Proof. exact eq_refl. Qed.
Print Assumptions C02_undecodable_is_type_error.

(** C03: the outcome is a function of the words of the meaningful lines. *)
Theorem C03_only_content_matters f p t1 t2 toks :
  text_content t1 toks -> text_content t2 toks ->
  parse_file f p (Some t1) = parse_file f p (Some t2).
Proof. exact (same_content f p t1 t2 toks). Qed.
Print Assumptions C03_only_content_matters.

(** C03, the special case of inserting one comment or blank line anywhere. *)
Theorem C03_insert_comment f p t1 t2 a b c :
  comment_or_blank c ->
  text_lines t1 (a ++ b) -> text_lines t2 (a ++ c :: b) ->
  parse_file f p (Some t1) = parse_file f p (Some t2).
Proof. exact (insert_comment f p t1 t2 a b c). Qed.
Print Assumptions C03_insert_comment.

Example C03_example : exists a b c, comment_or_blank c /\
  text_lines (lit "d 1
i a
i b") (a ++ b) /\ text_lines (lit "d 1
i a
   # here
i b") (a ++ c :: b).
Proof.
  exists [lit "d 1"; lit "i a"], [lit "i b"], (lit "   # here"). split; [|split].
  - right. exists (lit "   "), (lit " here"). split; [repeat constructor|reflexivity].
  - apply (tl_lf (lit "d 1")); [|apply (tl_lf (lit "i a")); [|apply tl_last]];
      intros x Hx; simpl in Hx; intuition; subst; discriminate.
  - apply (tl_lf (lit "d 1")); [|apply (tl_lf (lit "i a"));
      [|apply (tl_lf (lit "   # here")); [|apply tl_last]]];
      intros x Hx; simpl in Hx; intuition; subst; discriminate.
Qed.

(** C04 *)
Theorem C04_decimal_comma f p t t' toks toks' :
  text_content t toks -> text_content t' toks' -> Forall2 comma_variant toks toks' ->
  parse_file f p (Some t) = parse_file f p (Some t').
Proof. exact (comma_parse f p t t' toks toks'). Qed.
Print Assumptions C04_decimal_comma.

Example C04_example :
  comma_variant [lit "b"; lit "10,25"; lit "3.5"] [lit "b"; lit "10.25"; lit "3,5"] /\
  number_of (lit "10,25") = Some (FFin (41 # 4)).
Proof.
  split; [|vm_compute; reflexivity]. right. split; [reflexivity|]. split; [reflexivity|].
  split; [reflexivity|]. repeat constructor.
Qed.

(** C05 *)
Theorem C05_kind_by_count f p t toks d :
  text_content t toks -> parse_file f p (Some t) = Ok d ->
  Forall (fun x => 2 <= length (e_files x) /\
                   (e_kind x = Temporal <-> length (e_files x) = 2) /\
                   (e_kind x = Spatial <-> 2 < length (e_files x))) (entries d).
Proof. exact (entry_kinds f p t toks d). Qed.
Print Assumptions C05_kind_by_count.

Theorem C05_no_clash f p t toks d :
  text_content t toks -> parse_file f p (Some t) = Ok d ->
  ForallOrdPairs (fun x y => ~ clash x y) (entries d).
Proof. exact (entries_distinct f p t toks d). Qed.
Print Assumptions C05_no_clash.

Theorem C05_duplicate_raises f p t toks es1 x es2 y es3 :
  text_content t toks ->
  Forall2 (block_denotes (base_dir f p)) (blocks toks) (es1 ++ x :: es2 ++ y :: es3) ->
  clash x y -> ~ bad_number toks ->
  parse_file f p (Some t) = Err SyntaxError.
Proof. exact (duplicate_rejected f p t toks es1 x es2 y es3). Qed.
Print Assumptions C05_duplicate_raises.

Theorem C05_fewer_than_two_rejected f p t toks h imgs :
  text_content t toks -> In (h, imgs) (blocks toks) -> length imgs < 2 ->
  exists e, parse_file f p (Some t) = Err e.
Proof. exact (few_images_rejected f p t toks h imgs). Qed.
Print Assumptions C05_fewer_than_two_rejected.

(** A dark block and a bright block with zero photons clash. *)
Example C05_example : parse_file ex_file None (Some (lit "d 5
i a
i b
b 5.0 0,0
i c
i d")) = Err SyntaxError.
Proof. vm_compute. reflexivity. Qed.

(** C06 *)
Theorem C06_block_order f p pre bs bs' t t' d :
  Forall (fun l => is_header l = false) pre ->
  Forall is_block bs -> Permutation bs bs' ->
  text_content t (pre ++ render_blocks bs) ->
  text_content t' (pre ++ render_blocks bs') ->
  parse_file f p (Some t) = Ok d ->
  exists d', parse_file f p (Some t') = Ok d' /\ Permutation (entries d) (entries d') /\
    d_version d' = d_version d /\ d_format d' = d_format d.
Proof. exact (block_order f p pre bs bs' t t' d). Qed.
Print Assumptions C06_block_order.

Example C06_example : exists pre bs, Forall (fun l => is_header l = false) pre /\
  Forall is_block bs /\ length bs = 3 /\ ex_toks = pre ++ render_blocks bs.
Proof.
  exists (firstn 2 ex_toks), (blocks ex_toks).
  split; [vm_compute; repeat constructor|].
  split; [vm_compute; repeat constructor|].
  split; vm_compute; reflexivity.
Qed.

(** C07 is false: an image line after, e.g., an unknown command is ignored. *)
Theorem C07_no_image_dropped_refuted :
  exists f p t toks d l, text_content t toks /\ parse_file f p (Some t) = Ok d /\
    In l toks /\ is_image l = true /\
    forall x, In x (entries d) -> ~ In (image_path (base_dir f p) (nth 1 l [])) (e_files x).
Proof. exact stray_dropped. Qed.
Print Assumptions C07_no_image_dropped_refuted.

(** C07, true version: when every image line directly follows a header or another
    image line, none is dropped. *)
Theorem C07_no_image_dropped_partial f p t toks d l :
  text_content t toks -> parse_file f p (Some t) = Ok d ->
  no_stray toks -> In l toks -> is_image l = true ->
  exists x, In x (entries d) /\ In (image_path (base_dir f p) (nth 1 l [])) (e_files x).
Proof. exact (image_kept f p t toks d l). Qed.
Print Assumptions C07_no_image_dropped_partial.

Example C07_example : no_stray ex_toks.
Proof. apply no_stray_check. vm_compute. reflexivity. Qed.
