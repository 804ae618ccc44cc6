(** The report as a whole. *)
From Coq Require Import Ascii String List Bool Arith ZArith QArith Lia.
From Verif Require Import Base_Prelude Base_Str Base_Num Spec_Num Model_Report Spec_Report Model_Info Model_Docs
  Model_Templates Model_Jinja Model_Sheet Spec_Parser Spec_Info Spec_Sheet Spec_Sheet2 Model_Dataset
  Proofs_Dict Proofs_Info Proofs_Info2 Proofs_Report Proofs_Sheet Proofs_Sheet2 Proofs_Sheet3 Proofs_Sheet4.
Import ListNotations.
Open Scope nat_scope.
Local Arguments lit : simpl never.

Definition op_ast := Eval vm_compute in ast op_tex.
Definition header_ast := Eval vm_compute in ast op_header_tex.
Definition general_ast := Eval vm_compute in ast general_info_tex.
Definition report_ast := Eval vm_compute in ast report_tex.

Lemma op_parse : parse op_tex = Some op_ast. Proof. vm_compute. reflexivity. Qed.
Lemma header_parse : parse op_header_tex = Some header_ast. Proof. vm_compute. reflexivity. Qed.
Lemma general_parse : parse general_info_tex = Some general_ast. Proof. vm_compute. reflexivity. Qed.
Lemma report_parse : parse report_tex = Some report_ast. Proof. vm_compute. reflexivity. Qed.

Lemma file_op : sget (lit "op.tex") template_files = Some op_tex. Proof. reflexivity. Qed.
Lemma file_header : sget (lit "op_header.tex") template_files = Some op_header_tex. Proof. reflexivity. Qed.
Lemma file_general : sget (lit "general_info.tex") template_files = Some general_info_tex. Proof. reflexivity. Qed.
Lemma file_report : sget (lit "report.tex") template_files = Some report_tex. Proof. reflexivity. Qed.

(** ** Text without variables *)

Definition quiet (ns : list node) : bool :=
  match simple (fun _ => None) ns with
  | Some l => match vars l with [] => match sread l with Some ([], [], []) => true | _ => false end | _ => false end
  | None => false
  end.

Lemma quiet_ok fuel files env ns : quiet ns = true ->
  exists s, render_nodes (S fuel) files env ns = Ok s /\ reads s [] [] [].
Proof.
  unfold quiet. destruct (simple _ ns) as [l|] eqn:S; [|discriminate].
  destruct (vars l) eqn:Vl; [|discriminate]. destruct (sread l) as [[[[|] [|]] [|]]|] eqn:R; try discriminate.
  intros _. eexists. split.
  - apply (simple_ok (fun _ => None) fuel files env ns l S); [discriminate|rewrite Vl; constructor].
  - apply (sread_ok (ev env) l [] [] []); [unfold plain; rewrite Vl; constructor|exact R].
Qed.

(** ** One item of a list of settings *)

Definition item_env (kv : str * jval) (env : scope) : scope :=
  (lit "key", JStr (fst kv)) :: (lit "value", snd kv) :: env.

Lemma item_ok fuel files env ns l v kv c s :
  simple (fun _ => None) ns = Some l ->
  vars l = [EVar (lit "key"); v] ->
  sread l = Some ([], [([V (EVar (lit "key"))], [V v; C c])], []) ->
  is_space c = true ->
  ordinary (fst kv) ->
  out (item_env kv env) v = Ok s -> ordinary s ->
  exists t, render_nodes (S fuel) files (item_env kv env) ns = Ok t /\
    reads t [] [(fst kv, strip s)] [].
Proof.
  intros S Vl R Hc Ok1 Hv Os.
  assert (Hk : out (item_env kv env) (EVar (lit "key")) = Ok (fst kv)) by reflexivity.
  eexists. split.
  - apply (simple_ok (fun _ => None) fuel files _ ns l S); [discriminate|]. rewrite Vl.
    constructor; [eexists; exact Hk|constructor; [eexists; exact Hv|constructor]].
  - assert (Ek : ev (item_env kv env) (EVar (lit "key")) = fst kv) by (unfold ev; rewrite Hk; reflexivity).
    assert (Ev : ev (item_env kv env) v = s) by (unfold ev; rewrite Hv; reflexivity).
    pose proof (fun P => sread_ok (ev (item_env kv env)) l _ _ _ P R) as X.
    cbn [map] in X. unfold entry_text in X. cbn [fst snd expand flat_map ex1 app] in X.
    rewrite app_nil_r, Ek, Ev in X.
    assert (B : strip (s ++ [c]) = strip s)
      by (apply (strip_blanks [] s [c]); [constructor|constructor; [exact Hc|constructor]]).
    rewrite B in X.
    apply X. unfold plain. rewrite Vl. constructor; [rewrite Ek; exact Ok1|constructor; [rewrite Ev; exact Os|constructor]].
Qed.

Definition value_entry (kv : str * jval) : str * str := (fst kv, strip (text (snd kv))).
Definition info_entry (kv : str * jval) : str * str := (fst kv, strip (info_text (snd kv))).

Lemma concat_single {A B} (f : A -> B) l : concat (map (fun x => [f x]) l) = map f l.
Proof. induction l as [|x l IH]; [reflexivity|]. cbn. rewrite IH. reflexivity. Qed.
Lemma concat_nils {A B} (l : list A) : concat (map (fun _ => @nil B) l) = [].
Proof. induction l as [|x l IH]; [reflexivity|exact IH]. Qed.

(** A loop over the items of a dictionary. *)
Lemma mapM_each {A B} (f : A -> res B) (P : A -> B -> Prop) l :
  (forall a, In a l -> exists b, f a = Ok b /\ P a b) ->
  exists bs, mapM f l = Ok bs /\ Forall2 P l bs.
Proof.
  induction l as [|a l IH]; intros H.
  - exists []. split; [reflexivity|constructor].
  - destruct (H a (or_introl eq_refl)) as (b & Hb & Pb).
    destruct (IH (fun x Hx => H x (or_intror Hx))) as (bs & Hbs & Pbs).
    exists (b :: bs). split; [|constructor; assumption]. rewrite mapM_cons, Hb. cbn [bind]. rewrite Hbs. reflexivity.
Qed.

Lemma reads_forall2 {A} (g : A -> list str) (e : A -> list (str * str)) (t : A -> list (list (list str)) -> Prop) l ss :
  Forall2 (fun a s => exists u, t a u /\ reads s (g a) (e a) u) l ss ->
  exists us, Forall2 t l us /\ reads (concat ss) (concat (map g l)) (concat (map e l)) (concat us).
Proof.
  induction 1 as [|a s l ss (u & Hu & R) _ (us & Hus & IH)].
  - exists []. split; [constructor|apply reads_nil].
  - exists (u :: us). split; [constructor; assumption|]. cbn [concat map]. apply reads_app; assumption.
Qed.

Lemma items_ok fuel files env x body d (en : str * jval -> str * str) e :
  eval env e = Ok (JDict d) ->
  x = [lit "key"; lit "value"] ->
  (forall kv, In kv d -> exists t, render_nodes fuel files (item_env kv env) body = Ok t /\ reads t [] [en kv] []) ->
  exists s, render_node (S fuel) files env (NFor x (ECall (EAttr e (lit "items"))) body) = Ok s /\
    reads s [] (map en d) [].
Proof.
  intros E -> H. set (P := fun (kv : str * jval) t => reads t [] [en kv] []).
  destruct (mapM_each (fun kv => render_nodes fuel files (item_env kv env) body) P d H) as (ss & M & F).
  exists (concat ss). split.
  - cbn [render_node eval]. rewrite E. cbn [bind].
    change (getattr (JDict d) (lit "items")) with (Ok (JItems d)). cbn [bind jcall iterate].
    rewrite mapM_map.
    transitivity (ss <- mapM (fun kv => render_nodes fuel files (item_env kv env) body) d ;; Ok (concat ss)); [reflexivity|].
    rewrite M. reflexivity.
  - clear -F. induction F as [|kv t l ss R _ IH]; [apply reads_nil|].
    cbn [concat map]. exact (reads_app _ _ _ _ _ _ _ _ R IH).
Qed.

(** ** The settings of a point *)

Definition set_loop := Eval vm_compute in at_node 1 header_ast.
Definition par_loop := Eval vm_compute in at_node 3 header_ast.
Definition item_nodes := Eval vm_compute in branch (at_node 1 header_ast) true.

Definition item_syms := Eval vm_compute in match simple (fun _ => None) item_nodes with Some l => l | None => [] end.

Lemma render_nodes_1 fuel files env n s : render_node fuel files env n = Ok s ->
  render_nodes fuel files env [n] = Ok s.
Proof. intros H. rewrite <- (app_nil_r s). apply render_nodes_cons; [exact H|reflexivity]. Qed.

Lemma reads_eq t g e ts g' e' ts' : reads t g e ts -> g = g' -> e = e' -> ts = ts' -> reads t g' e' ts'.
Proof. intros H <- <- <-. exact H. Qed.

Lemma setting_item fuel files env kv : ordinary (fst kv) -> clean (snd kv) ->
  exists t, render_nodes (S fuel) files (item_env kv env) item_nodes = Ok t /\ reads t [] [value_entry kv] [].
Proof.
  intros Hk (s & Hs & Os).
  destruct (item_ok fuel files env item_nodes item_syms (EVar (lit "value")) kv NL s) as (t & T & R);
    [vm_compute; reflexivity|vm_compute; reflexivity|vm_compute; reflexivity|reflexivity|exact Hk| |exact Os|].
  - unfold out. cbn [eval]. change (jget (lit "value") (item_env kv env)) with (Some (snd kv)). exact Hs.
  - exists t. split; [exact T|]. unfold value_entry, text. rewrite Hs. exact R.
Qed.

Section Point.
Context (env : scope) (id : str) (p : point).
Hypothesis H : op_env env id p.
Hypothesis Hid : ordinary id.
Hypothesis Hp : clean_point p.

Lemma header_ok fuel files :
  exists s, render_nodes (S (S fuel)) files env header_ast = Ok s /\ reads s [] (point_entries p) [].
Proof using H Hp.
  destruct Hp as (C1 & C2 & C3 & C4).
  change header_ast with ([at_node 0 header_ast] ++ [at_node 1 header_ast] ++ [at_node 2 header_ast] ++
    [at_node 3 header_ast] ++ [at_node 4 header_ast]).
  destruct (quiet_ok (S fuel) files env [at_node 0 header_ast]) as (s0 & T0 & R0); [vm_compute; reflexivity|].
  destruct (quiet_ok (S fuel) files env [at_node 2 header_ast]) as (s2 & T2 & R2); [vm_compute; reflexivity|].
  destruct (quiet_ok (S fuel) files env [at_node 4 header_ast]) as (s4 & T4 & R4); [vm_compute; reflexivity|].
  destruct (settings_ok env id p H) as [E1 E2].
  destruct (items_ok (S fuel) files env [lit "key"; lit "value"] item_nodes (p_settings p) value_entry _ E1 eq_refl) as (s1 & T1 & R1).
  { intros [k v] I. destruct (C2 k v I). apply setting_item; assumption. }
  destruct (items_ok (S fuel) files env [lit "key"; lit "value"] item_nodes (p_parameters p) value_entry _ E2 eq_refl) as (s3 & T3 & R3).
  { intros [k v] I. destruct (C3 k v I). apply setting_item; assumption. }
  eexists. split.
  - apply render_nodes_app; [exact T0|]. apply render_nodes_app; [exact (render_nodes_1 _ _ _ _ _ T1)|].
    apply render_nodes_app; [exact T2|]. apply render_nodes_app; [exact (render_nodes_1 _ _ _ _ _ T3)|exact T4].
  - eapply reads_eq; [exact (reads_app _ _ _ _ _ _ _ _ R0 (reads_app _ _ _ _ _ _ _ _ R1
      (reads_app _ _ _ _ _ _ _ _ R2 (reads_app _ _ _ _ _ _ _ _ R3 R4))))|reflexivity| |reflexivity].
    cbn [app]. rewrite app_nil_r. unfold point_entries. rewrite map_app. reflexivity.
Qed.

Lemma header_include fuel :
  exists s, render_node (S (S (S fuel))) template_files env (NInclude (lit "op_header.tex")) = Ok s /\
    reads s [] (point_entries p) [].
Proof using H Hp.
  destruct (header_ok fuel template_files) as (s & T & R). exists s. split; [|exact R].
  exact (render_include _ _ _ _ _ _ _ file_header header_parse T).
Qed.

Definition op_head := Eval vm_compute in firstn 11 op_ast.
Definition op_sheet := Eval vm_compute in firstn 207 (skipn 12 op_ast).
Definition op_more := Eval vm_compute in branch (at_node 219 op_ast) true.

Definition read_of (ns : list node) := match piece ns with Some r => r | None => ([], [], []) end.
Definition sheet_read := Eval vm_compute in read_of op_sheet.
Definition more_read := Eval vm_compute in read_of op_more.

Lemma op_shape : op_ast = op_head ++ [NInclude (lit "op_header.tex")] ++ op_sheet ++
  [NIf (ENot (EAttr (EVar (lit "op")) (lit "summary_only"))) op_more []].
Proof. vm_compute. reflexivity. Qed.

Lemma head_piece : piece op_head = Some ([], [], []). Proof. vm_compute. reflexivity. Qed.
Lemma sheet_piece : piece op_sheet = Some sheet_read. Proof. vm_compute. reflexivity. Qed.
Lemma more_piece : piece op_more = Some more_read. Proof. vm_compute. reflexivity. Qed.

Lemma sheet_pictures : map picture_of (fst (fst sheet_read)) = map Some (map lit ["PlotPTC"; "PlotSNR"]%string).
Proof. vm_compute. reflexivity. Qed.
Lemma more_pictures : map picture_of (fst (fst more_read)) = map Some (skipn 2 plot_names).
Proof. vm_compute. reflexivity. Qed.
Definition sheet_rows := Eval vm_compute in hd [] (snd sheet_read).
Lemma sheet_tables : snd sheet_read = [sheet_rows]. Proof. vm_compute. reflexivity. Qed.
Lemma sheet_matches : rows_match sheet sheet_rows = true. Proof. vm_compute. reflexivity. Qed.

Lemma op_ok fuel :
  exists s tab, render_nodes (S (S (S fuel))) template_files env op_ast = Ok s /\
    reads s (pictures id p) (point_entries p) [tab] /\
    Forall2 (line_shows (dash_of p) (value_of p)) sheet tab.
Proof using H Hid Hp.
  rewrite op_shape.
  destruct (piece_ok env id p H Hid Hp (S (S fuel)) template_files _ _ _ _ head_piece) as (s0 & T0 & R0).
  destruct (header_include fuel) as (s1 & T1 & R1).
  destruct (piece_ok env id p H Hid Hp (S (S fuel)) template_files op_sheet _ _ _ sheet_piece) as (s2 & T2 & R2).
  fold (fst sheet_read) in R2.
  change (map (expand (ev env)) _) with (map (expand (ev env)) (fst (fst sheet_read))) in R2.
  rewrite (pictures_ok env id p H Hp _ _ sheet_pictures) in R2.
  change (map (table_text (ev env)) _) with (map (table_text (ev env)) (snd sheet_read)) in R2.
  rewrite sheet_tables in R2. cbn [map] in R2.
  assert (X : exists s3, render_node (S (S (S fuel))) template_files env
      (NIf (ENot (EAttr (EVar (lit "op")) (lit "summary_only"))) op_more []) = Ok s3 /\
    reads s3 (if p_summary p then [] else map (fun c => id ++ lit "/" ++ c ++ lit ".pdf") (skipn 2 plot_names)) [] []).
  { destruct (summary_ok env id p H) as (v & Ev & Tv).
    destruct (piece_ok env id p H Hid Hp (S fuel) template_files op_more _ _ _ more_piece) as (s3 & T3 & R3).
    assert (Ec : eval env (ENot (EAttr (EVar (lit "op")) (lit "summary_only"))) = Ok (JBool (negb (p_summary p)))).
    { cbn [eval]. cbn [eval] in Ev. rewrite Ev. cbn [bind]. rewrite Tv. reflexivity. }
    destruct (p_summary p).
    - exists []. split; [|apply reads_nil]. apply (render_if _ _ _ _ _ _ _ _ Ec). reflexivity.
    - exists s3. split; [apply (render_if _ _ _ _ _ _ _ _ Ec); exact T3|].
      eapply reads_eq; [exact R3| | |].
      + change (map (expand (ev env)) (fst (fst more_read)) = map (fun c => id ++ lit "/" ++ c ++ lit ".pdf") (skipn 2 plot_names)).
        exact (pictures_ok env id p H Hp _ _ more_pictures).
      + reflexivity.
      + reflexivity. }
  destruct X as (s3 & T3 & R3).
  eexists. exists (table_text (ev env) sheet_rows). split; [|split].
  - apply render_nodes_app; [exact T0|]. apply render_nodes_app; [exact (render_nodes_1 _ _ _ _ _ T1)|].
    apply render_nodes_app; [exact T2|]. exact (render_nodes_1 _ _ _ _ _ T3).
  - eapply reads_eq; [exact (reads_app _ _ _ _ _ _ _ _ R0 (reads_app _ _ _ _ _ _ _ _ R1
      (reads_app _ _ _ _ _ _ _ _ R2 R3)))| | |reflexivity].
    + unfold pictures. destruct (p_summary p); reflexivity.
    + cbn [map app]. rewrite app_nil_r. reflexivity.
  - exact (rows_ok env id p H Hid Hp sheet sheet_rows sheet_matches (incl_refl _)).
Qed.

End Point.
