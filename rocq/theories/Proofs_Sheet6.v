(** The general information and the report. *)
From Coq Require Import Ascii String List Bool Arith ZArith QArith Lia.
From Verif Require Import Proofs_Report2 Base_Prelude Base_Str Base_Num Spec_Num Model_Report Spec_Report Model_Info Model_Docs
  Model_Templates Model_Jinja Model_Sheet Spec_Parser Spec_Info Spec_Sheet Spec_Sheet2 Model_Dataset
  Proofs_Dict Proofs_Info Proofs_Info2 Proofs_Report Proofs_Sheet Proofs_Sheet2 Proofs_Sheet3
  Proofs_Sheet4 Proofs_Sheet5.
Import ListNotations.
Open Scope nat_scope.
Local Arguments lit : simpl never.

(** ** Pieces that show the basic information *)

(** basic.field|missing *)
Definition basic_field (e : expr) : option str :=
  match e with
  | EFilter f (EAttr (EVar b) n) None =>
      if str_eqb f (lit "missing") && str_eqb b (lit "basic") && negb (is_method n) then Some n else None
  | _ => None
  end.

Definition basic_text (basic : jdict) (n : str) : str :=
  match sget n basic with Some v => info_text v | None => [] end.

Definition basic_piece (ns : list node) :=
  match simple (fun _ => None) ns with
  | Some l => if forallb (fun e => match basic_field e with Some _ => true | None => false end) (vars l)
              then sread l else None
  | None => None
  end.

(** Blanks, the field, a text, blanks. *)
Fixpoint field_value (l : list (sym expr)) : option (str * str) :=
  match l with
  | C c :: l' => if is_space c then field_value l' else None
  | V e :: l' => match basic_field e, text_of l' with Some n, Some s => Some (n, s) | _, _ => None end
  | [] => None
  end.

Definition label_matches (l : string * string * string) (e : list (sym expr) * list (sym expr)) : bool :=
  let '(label, field, behind) := l in
  (match text_of (fst e) with Some s => str_eqb s (lit label) | None => false end) &&
  (match field_value (snd e) with
   | Some (n, s) => str_eqb n (lit field) &&
                    match after (lit behind) s with Some w => forallb is_space w | None => false end
   | None => false
   end).

Fixpoint labels_match (ls : list (string * string * string)) (es : list (list (sym expr) * list (sym expr))) : bool :=
  match ls, es with
  | [], [] => true
  | l :: ls, e :: es => label_matches l e && labels_match ls es
  | _, _ => false
  end.

Lemma after_app p s r : after p s = Some r -> s = p ++ r.
Proof.
  revert s. induction p as [|a p IH]; intros s E; cbn in E.
  - injection E as <-. reflexivity.
  - destruct s as [|b s]; [discriminate|]. destruct (chr_eqb a b) eqn:X; [|discriminate].
    apply chr_eqb_eq in X. subst. cbn. f_equal. apply IH, E.
Qed.

Section General.
Context (env : scope) (basic marketing : jdict).
Hypothesis Hb : jget (lit "basic") env = Some (JDict basic).
Hypothesis Hm : jget (lit "marketing") env = Some (JDict marketing).
Hypothesis Cb : clean_values basic.

Lemma basic_field_ok e n : basic_field e = Some n ->
  out env e = Ok (basic_text basic n) /\ ordinary (basic_text basic n).
Proof using Hb Cb.
  unfold basic_field. destruct e as [| | | | |f e arg| | |]; try discriminate.
  destruct e as [| | |e m| | | | |]; try discriminate. destruct e as [b| | | | | | | |]; try discriminate.
  destruct arg; try discriminate.
  destruct (str_eqb f (lit "missing") && str_eqb b (lit "basic") && negb (is_method m)) eqn:X; [|discriminate].
  intros E. injection E as <-. apply andb_true_iff in X. destruct X as [X X3]. apply andb_true_iff in X.
  destruct X as [X1 X2]. apply str_eqb_eq in X1, X2. subst. apply negb_true_iff in X3.
  assert (V : eval env (EAttr (EVar (lit "basic")) m) = Ok (match sget m basic with Some v => v | None => JUndef end)).
  { cbn [eval]. rewrite Hb. cbn [bind]. apply getattr_dict, X3. }
  unfold basic_text. destruct (sget m basic) as [v|] eqn:S.
  - assert (Cv : clean v) by (apply sget_some_in in S; exact (Cb _ _ S)).
    split; [exact (out_missing env _ _ V Cv)|exact (info_text_ordinary _ Cv)].
  - split; [exact (out_missing_undef env _ V)|constructor].
Qed.

Lemma ev_field e n : basic_field e = Some n -> ev env e = basic_text basic n.
Proof using Hb Cb. intros E. unfold ev. rewrite (proj1 (basic_field_ok _ _ E)). reflexivity. Qed.

Lemma basic_piece_ok fuel files ns g e t : basic_piece ns = Some (g, e, t) ->
  exists s, render_nodes (S fuel) files env ns = Ok s /\
    reads s (map (expand (ev env)) g) (map (entry_text (ev env)) e) (map (table_text (ev env)) t).
Proof using Hb Cb.
  unfold basic_piece. destruct (simple _ ns) as [l|] eqn:S; [|discriminate].
  destruct (forallb _ (vars l)) eqn:K; [|discriminate]. intros R. rewrite forallb_forall in K.
  eexists. split.
  - apply (simple_ok (fun _ => None) fuel files env ns l S); [discriminate|].
    apply Forall_forall. intros x Hx. specialize (K x Hx). destruct (basic_field x) as [n|] eqn:B; [|discriminate].
    eexists. exact (proj1 (basic_field_ok _ _ B)).
  - apply sread_ok; [|exact R]. apply Forall_forall. intros x Hx. specialize (K x Hx).
    destruct (basic_field x) as [n|] eqn:B; [|discriminate]. rewrite (ev_field _ _ B).
    exact (proj2 (basic_field_ok _ _ B)).
Qed.

Lemma field_value_ok l n s : field_value l = Some (n, s) ->
  exists b, blank b /\ expand (ev env) l = b ++ basic_text basic n ++ s.
Proof using Hb Cb.
  induction l as [|[c|e] l IH]; cbn [field_value]; intros E; [discriminate| |].
  - destruct (is_space c) eqn:S; [|discriminate]. destruct (IH E) as (b & B & X).
    exists (c :: b). split; [constructor; assumption|].
    change (expand (ev env) (C c :: l)) with (c :: expand (ev env) l). rewrite X. reflexivity.
  - destruct (basic_field e) as [m|] eqn:F; [|discriminate]. destruct (text_of l) as [r|] eqn:T; [|discriminate].
    injection E as <- <-. exists []. split; [constructor|].
    change (expand (ev env) (V e :: l)) with (ev env e ++ expand (ev env) l).
    rewrite (ev_field _ _ F), (text_of_ok _ _ _ T). reflexivity.
Qed.

Lemma label_ok l e : label_matches l e = true -> entry_text (ev env) e = labelled basic l.
Proof using Hb Cb.
  unfold label_matches, entry_text, labelled. destruct l as [[label field] behind]. intros E.
  apply andb_true_iff in E. destruct E as [E1 E2].
  destruct (text_of (fst e)) as [s|] eqn:T; [|discriminate]. apply str_eqb_eq in E1. subst s.
  destruct (field_value (snd e)) as [[n s]|] eqn:F; [|discriminate]. apply andb_true_iff in E2. destruct E2 as [E2 E3].
  apply str_eqb_eq in E2. subst n. destruct (after (lit behind) s) as [w|] eqn:A; [|discriminate].
  apply after_app in A. subst s. destruct (field_value_ok _ _ _ F) as (b & B & X).
  rewrite (text_of_ok _ _ _ T), X. f_equal. unfold entry. fold (basic_text basic (lit field)).
  rewrite (app_assoc (basic_text basic (lit field))). apply strip_blanks; [exact B|].
  rewrite forallb_forall in E3. apply Forall_forall. exact E3.
Qed.

Lemma labels_ok ls es : labels_match ls es = true -> map (entry_text (ev env)) es = map (labelled basic) ls.
Proof using Hb Cb.
  revert es. induction ls as [|l ls IH]; intros [|e es] E; try discriminate; [reflexivity|].
  cbn [labels_match] in E. apply andb_true_iff in E. destruct E as [E1 E2]. cbn [map].
  rewrite (label_ok _ _ E1), (IH _ E2). reflexivity.
Qed.

(** A piece that shows the fields of some labels. *)
Definition label_piece (ls : list (string * string * string)) (ns : list node) : bool :=
  match basic_piece ns with
  | Some ([], e, []) => labels_match ls e
  | _ => false
  end.

Lemma label_piece_ok fuel files ls ns : label_piece ls ns = true ->
  exists s, render_nodes (S fuel) files env ns = Ok s /\ reads s [] (map (labelled basic) ls) [].
Proof using Hb Cb.
  unfold label_piece. destruct (basic_piece ns) as [[[[|] e] [|]]|] eqn:P; try discriminate.
  intros E. destruct (basic_piece_ok fuel files _ _ _ _ P) as (s & T & R). exists s. split; [exact T|].
  rewrite (labels_ok _ _ E) in R. exact R.
Qed.

(** *** The sensor *)

Definition ccd_nodes := Eval vm_compute in branch (at_node 17 general_ast) true.
Definition cmos_nodes := Eval vm_compute in branch (hd (NText []) (branch (at_node 17 general_ast) false)) true.
Definition sensor_type : expr := EAttr (EVar (lit "basic")) (lit "sensor_type").

Lemma sensor_shape : at_node 17 general_ast
  = NIf (EEq sensor_type (EStr (lit "CCD"))) ccd_nodes [NIf (EEq sensor_type (EStr (lit "CMOS"))) cmos_nodes []].
Proof. vm_compute. reflexivity. Qed.

Lemma sensor_ok fuel files :
  exists s, render_node (S (S (S fuel))) files env (at_node 17 general_ast) = Ok s /\
    reads s [] (map (labelled basic) (sensor_labels basic)) [].
Proof using Hb Cb.
  rewrite sensor_shape.
  destruct (label_piece_ok (S fuel) files ccd_labels ccd_nodes) as (s1 & T1 & R1); [vm_compute; reflexivity|].
  destruct (label_piece_ok fuel files cmos_labels cmos_nodes) as (s2 & T2 & R2); [vm_compute; reflexivity|].
  assert (E : eval env sensor_type = Ok (match sget (lit "sensor_type") basic with Some v => v | None => JUndef end)).
  { unfold sensor_type. cbn [eval]. rewrite Hb. cbn [bind]. apply getattr_dict. reflexivity. }
  set (v := match sget (lit "sensor_type") basic with Some v => v | None => JUndef end) in *.
  assert (Q : forall t, eval env (EEq sensor_type (EStr t))
             = Ok (JBool (match v with JStr s => str_eqb s t | _ => false end))).
  { intros t. cbn [eval]. rewrite E. reflexivity. }
  assert (L : sensor_labels basic = match v with
    | JStr s => if str_eqb s (lit "CCD") then ccd_labels else if str_eqb s (lit "CMOS") then cmos_labels else []
    | _ => [] end).
  { unfold sensor_labels, entry, v. destruct (sget (lit "sensor_type") basic); reflexivity. }
  rewrite L. set (b1 := match v with JStr s => str_eqb s (lit "CCD") | _ => false end).
  set (b2 := match v with JStr s => str_eqb s (lit "CMOS") | _ => false end).
  assert (L2 : match v with
    | JStr s => if str_eqb s (lit "CCD") then ccd_labels else if str_eqb s (lit "CMOS") then cmos_labels else []
    | _ => [] end = if b1 then ccd_labels else if b2 then cmos_labels else []).
  { unfold b1, b2. destruct v; reflexivity. }
  rewrite L2.
  assert (X : exists s, render_nodes (S (S fuel)) files env
    (if b1 then ccd_nodes else [NIf (EEq sensor_type (EStr (lit "CMOS"))) cmos_nodes []]) = Ok s /\
    reads s [] (map (labelled basic) (if b1 then ccd_labels else if b2 then cmos_labels else [])) []).
  { destruct b1; [exists s1; split; assumption|].
    assert (Y : exists s, render_nodes (S fuel) files env (if b2 then cmos_nodes else []) = Ok s /\
      reads s [] (map (labelled basic) (if b2 then cmos_labels else [])) []).
    { destruct b2; [exists s2; split; assumption|]. exists []. split; [reflexivity|apply reads_nil]. }
    destruct Y as (s & T & R). exists s. split; [|exact R]. apply render_nodes_1.
    exact (render_if _ _ _ _ _ _ _ _ (Q (lit "CMOS")) T). }
  destruct X as (s & T & R). exists s. split; [|exact R].
  exact (render_if _ _ _ _ _ _ _ _ (Q (lit "CCD")) T).
Qed.

(** *** The setup *)

Definition setup_nodes := Eval vm_compute in branch (at_node 25 general_ast) true.
Definition setup_syms := Eval vm_compute in match simple (fun _ => None) setup_nodes with Some l => l | None => [] end.
Definition value_missing : expr := EFilter (lit "missing") (EVar (lit "value")) None.

Lemma setup_item fuel files kv : ordinary (fst kv) -> clean (snd kv) ->
  exists t, render_nodes (S fuel) files (item_env kv env) setup_nodes = Ok t /\ reads t [] [info_entry kv] [].
Proof using.
  intros Hk Cv.
  destruct (item_ok fuel files env setup_nodes setup_syms value_missing kv NL (info_text (snd kv))) as (t & T & R);
    [vm_compute; reflexivity|vm_compute; reflexivity|vm_compute; reflexivity|reflexivity|exact Hk| |exact (info_text_ordinary _ Cv)|].
  - apply out_missing; [reflexivity|exact Cv].
  - exists t. split; [exact T|exact R].
Qed.

Context (setup : jdict).
Hypothesis Hs : jget (lit "setup") env = Some (JDict setup).
Hypothesis Cs : clean_items setup.

Lemma setup_shape : at_node 25 general_ast
  = NFor [lit "key"; lit "value"] (ECall (EAttr (EVar (lit "setup")) (lit "items"))) setup_nodes.
Proof. vm_compute. reflexivity. Qed.

Lemma setup_ok fuel files :
  exists s, render_node (S (S fuel)) files env (at_node 25 general_ast) = Ok s /\ reads s [] (map info_entry setup) [].
Proof using Hs Cs.
  rewrite setup_shape. apply items_ok; [|reflexivity|].
  - cbn [eval]. rewrite Hs. reflexivity.
  - intros [k v] I. destruct (Cs k v I). apply setup_item; assumption.
Qed.

(** *** The picture of the quantum efficiency *)

Context (qe : str).
Hypothesis Hq : sget (lit "qe_plot") basic = Some (JStr qe).
Hypothesis Cq : ordinary qe.

Definition qe_nodes := Eval vm_compute in skipn 28 general_ast.
Definition qe_syms := Eval vm_compute in match simple (fun _ => None) qe_nodes with Some l => l | None => [] end.
Definition qe_expr : expr :=
  EFilter (lit "missing") (EAttr (EVar (lit "basic")) (lit "qe_plot")) (Some (EAttr (EVar (lit "marketing")) (lit "missingplot"))).

Lemma qe_out : out env qe_expr = Ok qe.
Proof using Hb Hm Hq.
  unfold out, qe_expr. cbn [eval]. rewrite Hb, Hm. cbn [bind]. rewrite !getattr_dict by reflexivity.
  change (jget (lit "qe_plot") basic) with (sget (lit "qe_plot") basic). rewrite Hq. reflexivity.
Qed.

Lemma qe_ok fuel files :
  exists s, render_nodes (S fuel) files env qe_nodes = Ok s /\ reads s [qe] [] [].
Proof using Hb Hm Hq Cq.
  assert (E : ev env qe_expr = qe) by (unfold ev; rewrite qe_out; reflexivity).
  assert (Vq : vars qe_syms = [qe_expr]) by (vm_compute; reflexivity).
  eexists. split.
  - apply (simple_ok (fun _ => None) fuel files env qe_nodes qe_syms); [vm_compute; reflexivity|discriminate|].
    rewrite Vq. constructor; [eexists; exact qe_out|constructor].
  - assert (R : sread qe_syms = Some ([[V qe_expr]], [], [])) by (vm_compute; reflexivity).
    assert (Pl : plain (ev env) qe_syms) by (unfold plain; rewrite Vq; constructor; [rewrite E; exact Cq|constructor]).
    pose proof (sread_ok (ev env) _ _ _ _ Pl R) as X. cbn [map expand flat_map ex1] in X.
    rewrite app_nil_r, E in X. exact X.
Qed.

(** *** The list of operation points *)

Definition describing (d : jval) (ip : str * point) : Prop :=
  (forall env, op_env ((lit "op", d) :: env) (fst ip) (snd ip)) /\ ordinary (fst ip) /\ clean_point (snd ip).

Lemma ops_loop fuel files e body ds (pts : list (str * point)) g en (tab : str * point -> list (list (list str)) -> Prop) :
  eval env e = Ok (JList ds) -> Forall2 describing ds pts ->
  (forall d ip, describing d ip -> exists s u, render_nodes fuel files ((lit "op", d) :: env) body = Ok s /\
     tab ip u /\ reads s (g ip) (en ip) u) ->
  exists s us, render_node (S fuel) files env (NFor [lit "op"] e body) = Ok s /\
    Forall2 tab pts us /\ reads s (concat (map g pts)) (concat (map en pts)) (concat us).
Proof using.
  intros E F B. cbn [render_node]. rewrite E. cbn [bind iterate bind_targets].
  assert (X : exists ss us, mapM (fun x => render_nodes fuel files ((lit "op", x) :: env) body) ds = Ok ss /\
    Forall2 tab pts us /\ reads (concat ss) (concat (map g pts)) (concat (map en pts)) (concat us)).
  { clear E. induction F as [|d ip ds pts Hd _ (ss & us & M & T & R)].
    - exists [], []. split; [reflexivity|]. split; [constructor|apply reads_nil].
    - destruct (B d ip Hd) as (s & u & Ts & Tu & Ru). exists (s :: ss), (u :: us). split; [|split].
      + rewrite mapM_cons, Ts. cbn [bind]. rewrite M. reflexivity.
      + constructor; assumption.
      + cbn [concat map]. apply reads_app; assumption. }
  destruct X as (ss & us & M & T & R). exists (concat ss), us. split; [|split; assumption].
  transitivity (ss <- mapM (fun x => render_nodes fuel files ((lit "op", x) :: env) body) ds ;; Ok (concat ss)); [reflexivity|].
  rewrite M. reflexivity.
Qed.

Context (ds : list jval) (pts : list (str * point)).
Hypothesis Ho : jget (lit "operation_points") env = Some (JList ds).
Hypothesis Hd : Forall2 describing ds pts.

Definition point_nodes := Eval vm_compute in branch (at_node 27 general_ast) true.
Definition point_head := Eval vm_compute in firstn 5 point_nodes.
Definition point_tail := Eval vm_compute in skipn 6 point_nodes.
Lemma point_shape : at_node 27 general_ast = NFor [lit "op"] (EVar (lit "operation_points"))
  (point_head ++ [NInclude (lit "op_header.tex")] ++ point_tail).
Proof. vm_compute. reflexivity. Qed.

Lemma point_head_piece : piece point_head = Some ([], [], []). Proof. vm_compute. reflexivity. Qed.

Lemma points_ok fuel :
  exists s, render_node (S (S (S (S fuel)))) template_files env (at_node 27 general_ast) = Ok s /\
    reads s [] (concat (map (fun ip => point_entries (snd ip)) pts)) [].
Proof using Ho Hd.
  rewrite point_shape.
  destruct (ops_loop (S (S (S fuel))) template_files (EVar (lit "operation_points"))
    (point_head ++ [NInclude (lit "op_header.tex")] ++ point_tail) ds pts (fun _ => [])
    (fun ip => point_entries (snd ip)) (fun _ u => u = [])) as (s & us & T & F & R).
  - cbn [eval]. rewrite Ho. reflexivity.
  - exact Hd.
  - intros d [id p] (He & Hid & Hp). cbn [fst snd] in *. specialize (He env).
    destruct (piece_ok _ _ _ He Hid Hp (S (S fuel)) template_files _ _ _ _ point_head_piece) as (s0 & T0 & R0).
    destruct (header_include _ _ _ He Hp fuel) as (s1 & T1 & R1).
    destruct (quiet_ok (S (S fuel)) template_files ((lit "op", d) :: env) point_tail) as (s2 & T2 & R2); [vm_compute; reflexivity|].
    eexists. exists []. split; [|split; [reflexivity|]].
    + apply render_nodes_app; [exact T0|]. apply render_nodes_app; [exact (render_nodes_1 _ _ _ _ _ T1)|exact T2].
    + eapply reads_eq; [exact (reads_app _ _ _ _ _ _ _ _ R0 (reads_app _ _ _ _ _ _ _ _ R1 R2))|reflexivity| |reflexivity].
      cbn [map app]. apply app_nil_r.
  - exists s. split; [exact T|]. eapply reads_eq; [exact R|apply concat_nils|reflexivity|].
    clear -F. induction F as [|ip u pts us -> _ IH]; [reflexivity|exact IH].
Qed.

Lemma general_shape : general_ast = firstn 17 general_ast ++ [at_node 17 general_ast] ++
  firstn 7 (skipn 18 general_ast) ++ [at_node 25 general_ast] ++ [at_node 26 general_ast] ++
  [at_node 27 general_ast] ++ qe_nodes.
Proof. vm_compute. reflexivity. Qed.

Lemma general_ok fuel :
  exists s, render_nodes (S (S (S (S fuel)))) template_files env general_ast = Ok s /\
    reads s [qe] (general_entries basic setup ++ concat (map (fun ip => point_entries (snd ip)) pts)) [].
Proof using All.
  rewrite general_shape.
  destruct (label_piece_ok (S (S (S fuel))) template_files general_labels (firstn 17 general_ast)) as (s0 & T0 & R0);
    [vm_compute; reflexivity|].
  destruct (sensor_ok (S fuel) template_files) as (s1 & T1 & R1).
  destruct (label_piece_ok (S (S (S fuel))) template_files more_labels (firstn 7 (skipn 18 general_ast))) as (s2 & T2 & R2);
    [vm_compute; reflexivity|].
  destruct (setup_ok (S (S fuel)) template_files) as (s3 & T3 & R3).
  destruct (quiet_ok (S (S (S fuel))) template_files env [at_node 26 general_ast]) as (s4 & T4 & R4); [vm_compute; reflexivity|].
  destruct (points_ok fuel) as (s5 & T5 & R5).
  destruct (qe_ok (S (S (S fuel))) template_files) as (s6 & T6 & R6).
  eexists. split.
  - apply render_nodes_app; [exact T0|]. apply render_nodes_app; [exact (render_nodes_1 _ _ _ _ _ T1)|].
    apply render_nodes_app; [exact T2|]. apply render_nodes_app; [exact (render_nodes_1 _ _ _ _ _ T3)|].
    apply render_nodes_app; [exact T4|]. apply render_nodes_app; [exact (render_nodes_1 _ _ _ _ _ T5)|exact T6].
  - eapply reads_eq; [exact (reads_app _ _ _ _ _ _ _ _ R0 (reads_app _ _ _ _ _ _ _ _ R1
      (reads_app _ _ _ _ _ _ _ _ R2 (reads_app _ _ _ _ _ _ _ _ R3 (reads_app _ _ _ _ _ _ _ _ R4
      (reads_app _ _ _ _ _ _ _ _ R5 R6))))))|reflexivity| |reflexivity].
    unfold general_entries. rewrite !map_app, <- !app_assoc, app_nil_r. reflexivity.
Qed.

(** *** The report *)

Context (cover : jval).
Hypothesis Hc : jget (lit "cover_page") env = Some cover.
Hypothesis Cm : clean_values marketing.
Hypothesis Cc : clean cover.

(** One value between two texts. *)
Definition wrapped (e : expr) (ns : list node) : Prop :=
  exists l, simple (fun _ => None) ns = Some l /\ vars l = [e] /\ sread l = Some ([], [], []).

Lemma wrapped_ok fuel files e ns v : wrapped e ns -> eval env e = Ok v -> clean v ->
  exists s, render_nodes (S fuel) files env ns = Ok s /\ reads s [] [] [].
Proof using.
  intros (l & S & Vl & R) E (s & Hs' & O).
  assert (Oe : out env e = Ok s) by (unfold out; rewrite E; exact Hs').
  eexists. split.
  - apply (simple_ok (fun _ => None) fuel files env ns l S); [discriminate|]. rewrite Vl.
    constructor; [eexists; exact Oe|constructor].
  - apply (sread_ok (ev env) l [] [] []); [|exact R]. unfold plain. rewrite Vl.
    constructor; [unfold ev; rewrite Oe; exact O|constructor].
Qed.

Lemma if_wrapped fuel files e ns v : wrapped e ns -> eval env e = Ok v -> (truth v = true -> clean v) ->
  exists s, render_node (S (S fuel)) files env (NIf e ns []) = Ok s /\ reads s [] [] [].
Proof using.
  intros W E Cv.
  assert (X : exists s, render_nodes (S fuel) files env (if truth v then ns else []) = Ok s /\ reads s [] [] []).
  { destruct (truth v) eqn:T; [exact (wrapped_ok _ _ _ _ _ W E (Cv eq_refl))|]. exists []. split; [reflexivity|apply reads_nil]. }
  destruct X as (s & T & R). exists s. split; [|exact R]. exact (render_if _ _ _ _ _ _ _ _ E T).
Qed.

Definition watermark : expr := EAttr (EVar (lit "marketing")) (lit "watermark").
Definition cover_expr : expr := EVar (lit "cover_page").
Definition watermark_nodes := Eval vm_compute in branch (at_node 1 report_ast) true.
Definition cover_nodes := Eval vm_compute in branch (at_node 3 report_ast) true.
Definition page_nodes := Eval vm_compute in branch (at_node 7 report_ast) true.

Lemma report_shape : report_ast = [at_node 0 report_ast] ++ [NIf watermark watermark_nodes []] ++ [at_node 2 report_ast] ++
  [NIf cover_expr cover_nodes []] ++ [at_node 4 report_ast] ++ [NInclude (lit "general_info.tex")] ++ [at_node 6 report_ast] ++
  [NFor [lit "op"] (EVar (lit "operation_points"))
     ([at_node 0 page_nodes] ++ [NInclude (lit "op.tex")] ++ [at_node 2 page_nodes])] ++ [at_node 8 report_ast].
Proof. vm_compute. reflexivity. Qed.

Definition sheet_of (ip : str * point) (u : list (list (list str))) : Prop :=
  exists tab, u = [tab] /\ Forall2 (line_shows (dash_of (snd ip)) (value_of (snd ip))) sheet tab.

Lemma report_ok fuel :
  exists s us, render_nodes (S (S (S (S (S fuel))))) template_files env report_ast = Ok s /\
    Forall2 sheet_of pts us /\
    reads s (qe :: concat (map (fun ip => pictures (fst ip) (snd ip)) pts))
      (general_entries basic setup ++ concat (map (fun ip => point_entries (snd ip)) pts) ++
       concat (map (fun ip => point_entries (snd ip)) pts)) (concat us).
Proof using All.
  rewrite report_shape.
  destruct (quiet_ok (S (S (S (S fuel)))) template_files env [at_node 0 report_ast]) as (s0 & T0 & R0); [vm_compute; reflexivity|].
  destruct (if_wrapped (S (S (S fuel))) template_files watermark watermark_nodes
    (match sget (lit "watermark") marketing with Some v => v | None => JUndef end)) as (s1 & T1 & R1).
  { eexists. split; [vm_compute; reflexivity|]. split; vm_compute; reflexivity. }
  { unfold watermark. cbn [eval]. rewrite Hm. cbn [bind]. apply getattr_dict. reflexivity. }
  { intros T. destruct (sget (lit "watermark") marketing) as [v|] eqn:S; [|discriminate T].
    apply sget_some_in in S. exact (Cm _ _ S). }
  destruct (quiet_ok (S (S (S (S fuel)))) template_files env [at_node 2 report_ast]) as (s2 & T2 & R2); [vm_compute; reflexivity|].
  destruct (if_wrapped (S (S (S fuel))) template_files cover_expr cover_nodes cover) as (s3 & T3 & R3).
  { eexists. split; [vm_compute; reflexivity|]. split; vm_compute; reflexivity. }
  { unfold cover_expr. cbn [eval]. rewrite Hc. reflexivity. }
  { intros _. exact Cc. }
  destruct (quiet_ok (S (S (S (S fuel)))) template_files env [at_node 4 report_ast]) as (s4 & T4 & R4); [vm_compute; reflexivity|].
  destruct (general_ok fuel) as (s5 & T5 & R5).
  pose proof (render_include _ _ _ _ _ _ _ file_general general_parse T5) as T5'.
  destruct (quiet_ok (S (S (S (S fuel)))) template_files env [at_node 6 report_ast]) as (s6 & T6 & R6); [vm_compute; reflexivity|].
  destruct (ops_loop (S (S (S (S fuel)))) template_files (EVar (lit "operation_points"))
    ([at_node 0 page_nodes] ++ [NInclude (lit "op.tex")] ++ [at_node 2 page_nodes]) ds pts
    (fun ip => pictures (fst ip) (snd ip)) (fun ip => point_entries (snd ip)) sheet_of) as (s7 & us & T7 & F7 & R7).
  - cbn [eval]. rewrite Ho. reflexivity.
  - exact Hd.
  - intros d [id p] (He & Hid & Hp). cbn [fst snd] in *. specialize (He env).
    destruct (quiet_ok (S (S (S fuel))) template_files ((lit "op", d) :: env) [at_node 0 page_nodes]) as (p0 & P0 & Q0); [vm_compute; reflexivity|].
    destruct (op_ok _ _ _ He Hid Hp fuel) as (p1 & tab & P1 & Q1 & L1).
    pose proof (render_include _ _ _ _ _ _ _ file_op op_parse P1) as P1'.
    destruct (quiet_ok (S (S (S fuel))) template_files ((lit "op", d) :: env) [at_node 2 page_nodes]) as (p2 & P2 & Q2); [vm_compute; reflexivity|].
    eexists. exists [tab]. split; [|split].
    + apply render_nodes_app; [exact P0|]. apply render_nodes_app; [exact (render_nodes_1 _ _ _ _ _ P1')|exact P2].
    + exists tab. split; [reflexivity|exact L1].
    + eapply reads_eq; [exact (reads_app _ _ _ _ _ _ _ _ Q0 (reads_app _ _ _ _ _ _ _ _ Q1 Q2))| | |];
        cbn [app]; rewrite ?app_nil_r; reflexivity.
  - destruct (quiet_ok (S (S (S (S fuel)))) template_files env [at_node 8 report_ast]) as (s8 & T8 & R8); [vm_compute; reflexivity|].
    eexists. exists us. split; [|split; [exact F7|]].
    + apply render_nodes_app; [exact T0|]. apply render_nodes_app; [exact (render_nodes_1 _ _ _ _ _ T1)|].
      apply render_nodes_app; [exact T2|]. apply render_nodes_app; [exact (render_nodes_1 _ _ _ _ _ T3)|].
      apply render_nodes_app; [exact T4|]. apply render_nodes_app; [exact (render_nodes_1 _ _ _ _ _ T5')|].
      apply render_nodes_app; [exact T6|]. apply render_nodes_app; [exact (render_nodes_1 _ _ _ _ _ T7)|exact T8].
    + eapply reads_eq; [exact (reads_app _ _ _ _ _ _ _ _ R0 (reads_app _ _ _ _ _ _ _ _ R1
        (reads_app _ _ _ _ _ _ _ _ R2 (reads_app _ _ _ _ _ _ _ _ R3 (reads_app _ _ _ _ _ _ _ _ R4
        (reads_app _ _ _ _ _ _ _ _ R5 (reads_app _ _ _ _ _ _ _ _ R6 (reads_app _ _ _ _ _ _ _ _ R7 R8))))))))| | |];
        cbn [app]; rewrite ?app_nil_r, <- ?app_assoc; reflexivity.
Qed.

End General.
