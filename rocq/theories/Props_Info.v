(** Properties C43, C44, C65: documentation tags, sections, the results dictionary. *)
From Coq Require Import Ascii String List Bool Arith ZArith QArith Sorted Permutation.
From Verif Require Import Base_Prelude Base_Str Base_Num Model_Info Spec_Parser Spec_Info
  Proofs_Dict Proofs_Info Proofs_Info2.
Import ListNotations.
Open Scope nat_scope.

(** C43: an attribute has metadata exactly when its blocks contain lines, and then
    every key has the value of its last tag ('other' for a missing section). *)
Theorem C43_metadata cls name t ls tags :
  NoDup (map fst cls) -> In (name, Some t) cls ->
  doc_text t ls -> block false ls tags ->
  (tags = [] -> ~ In name (map fst (cls_1288_info cls))) /\
  (tags <> [] -> exists info,
     In (name, info) (cls_1288_info cls) /\ NoDup (map fst info) /\
     forall k v, In (k, v) info <-> documented tags k = Some v).
Proof. exact (metadata cls name t ls tags). Qed.
Print Assumptions C43_metadata.

Definition K_doc : str :=
  lit "Overall system gain." ++ [NL] ++ [] ++ [NL] ++
  lit "    .. emva1288::" ++ [NL] ++
  lit "        :Section: sensitivity " ++ [NL] ++
  lit "        :Short: System: gain" ++ [NL] ++
  lit "        :SECTION: quantum" ++ [NL] ++
  lit "        " ++ [NL] ++
  lit "    :Symbol: K".
Definition bare_doc : str :=
  lit ".. emva1288::" ++ [NL] ++ lit ":Unit: DN".
Definition K_class : list (str * option str) :=
  [(lit "s", None); (lit "b", Some bare_doc); (lit "K", Some K_doc); (lit "n", Some (lit ":Short: x"))].

Ltac all_chars := repeat (apply Forall_cons || apply Forall_nil); reflexivity.
Ltac no_marker := let H := fresh in intro H; apply marker_spec in H; vm_compute in H; discriminate.
Ltac ends := match goal with |- tight ?s =>
  split; [eexists; eexists; split; [reflexivity|reflexivity]
         |exists (removelast s), (last s NL); split; reflexivity] end.
Example C43_case :
  (exists ls, doc_text K_doc ls /\
     block false ls [Some (lit "Section", lit "sensitivity"); Some (lit "Short", lit "System: gain");
                     Some (lit "SECTION", lit "quantum")]) /\
  cls_1288_info K_class =
    [(lit "K", [(lit "section", lit "quantum"); (lit "short", lit "System: gain")]);
     (lit "b", [(lit "unit", lit "DN"); (lit "section", lit "other")])].
Proof.
  split; [|vm_compute; reflexivity]. eexists. split.
  - unfold K_doc. do 7 (apply dt_line; [all_chars|apply le_chr; [reflexivity|discriminate]|]).
    apply dt_last; [discriminate|all_chars].
  - apply bl_out; [no_marker|]. apply bl_out; [no_marker|].
    apply bl_mark. { exists (lit "    "), []. split; [all_chars|reflexivity]. }
    apply bl_tag.
    { exists (lit "        "), [], [], (lit " "), (lit " ").
      repeat (split; [all_chars|]). split; [ends|]. split; [ends|].
      split; [vm_compute; intuition discriminate|reflexivity]. }
    apply bl_tag.
    { exists (lit "        "), [], [], (lit " "), [].
      repeat (split; [all_chars|]). split; [ends|]. split; [ends|].
      split; [vm_compute; intuition discriminate|reflexivity]. }
    apply bl_tag.
    { exists (lit "        "), [], [], (lit " "), [].
      repeat (split; [all_chars|]). split; [ends|]. split; [ends|].
      split; [vm_compute; intuition discriminate|reflexivity]. }
    apply bl_blank; [all_chars|]. apply bl_out; [no_marker|]. apply bl_end.
Qed.

(** Attributes without a doc string are left out. *)
Theorem C43_undocumented cls name :
  NoDup (map fst cls) -> (In (name, None) cls \/ ~ In name (map fst cls)) ->
  ~ In name (map fst (cls_1288_info cls)).
Proof. exact (undocumented cls name). Qed.
Print Assumptions C43_undocumented.
Example C43_undocumented_case : NoDup (map fst K_class) /\ In (lit "s", None) K_class.
Proof.
  split; [|left; reflexivity].
  repeat (apply NoDup_cons || apply NoDup_nil); vm_compute; intuition discriminate.
Qed.

(** C44: the sections are sorted, each holds its own results in their original order,
    and together they are the results. *)
Theorem C44_grouped results out :
  NoDup (map fst results) -> sections_first results = Ok out ->
  StronglySorted str_lt (map fst out) /\
  (forall s, In s (map fst out) <-> exists r, In r results /\ in_section s r) /\
  (forall s rs, In (s, rs) out -> in_order_of results rs /\
     forall r, In r rs <-> In r results /\ in_section s r) /\
  Permutation (concat (map snd out)) results.
Proof. exact (grouped results out). Qed.
Print Assumptions C44_grouped.

(** It succeeds exactly when every result has a section. *)
Theorem C44_succeeds results :
  (exists out, sections_first results = Ok out) <->
  Forall (fun r => exists s, in_section s r) results.
Proof. exact (sections_first_ok results). Qed.
Print Assumptions C44_succeeds.

Definition some_results : list (str * list (str * pobj)) :=
  [(lit "R", [(lit "section", OStr (lit "sensitivity")); (lit "value", ONum (NI 3))]);
   (lit "DSNU", [(lit "section", OStr (lit "nonuniformity")); (lit "value", ONone)]);
   (lit "K", [(lit "section", OStr (lit "sensitivity"))])].
Example C44_case : NoDup (map fst some_results) /\
  exists out, sections_first some_results = Ok out /\
  map (fun s => (fst s, map fst (snd s))) out =
    [(lit "nonuniformity", [lit "DSNU"]); (lit "sensitivity", [lit "R"; lit "K"])].
Proof.
  split.
  - repeat (apply NoDup_cons || apply NoDup_nil); vm_compute; intuition discriminate.
  - eexists. split; vm_compute; reflexivity.
Qed.

(** C65: the results are the documented attributes in alphabetical order, each with its
    metadata plus the computed value or arrays. *)
Theorem C65_results cls attr out :
  NoDup (map fst cls) -> obj_to_dict cls attr = Ok out ->
  StronglySorted str_lt (map fst out) /\
  (forall name, In name (map fst out) <-> In name (map fst (cls_1288_info cls))) /\
  forall name r info v,
    In (name, r) out -> In (name, info) (cls_1288_info cls) -> attr name = Ok v ->
    oget (match v with ODict _ => lit "data" | _ => lit "value" end) r = Some v /\
    forall k, k <> lit "data" -> k <> lit "value" ->
      (forall t, In (k, t) info -> oget k r = Some (OStr t)) /\
      (~ In k (map fst info) -> oget k r = None).
Proof. exact (object_results cls attr out). Qed.
Print Assumptions C65_results.

(** They can be had exactly when every documented attribute can be computed. *)
Theorem C65_succeeds cls attr :
  (exists out, obj_to_dict cls attr = Ok out) <->
  Forall (fun name => exists v, attr name = Ok v) (map fst (cls_1288_info cls)).
Proof. exact (obj_to_dict_ok cls attr). Qed.
Print Assumptions C65_succeeds.
Example C65_case :
  let attr := fun name => if str_eqb name (lit "s") then Err ZeroDivisionError
                          else Ok (ONum (NF (FFin (1 # 2)))) in
  exists out, obj_to_dict K_class attr = Ok out /\ map fst out = [lit "K"; lit "b"] /\
  oget (lit "value") (snd (hd (lit "", []) out)) = Some (ONum (NF (FFin (1 # 2)))).
Proof. eexists. split; [vm_compute; reflexivity|]. split; vm_compute; reflexivity. Qed.
