(** The style sheet, and what the report does not show. *)
From Coq Require Import Ascii String List Bool Arith ZArith QArith Lia.
From Verif Require Import Proofs_Report2 Base_Prelude Base_Str Base_Num Spec_Num Model_Report Spec_Report Model_Info Model_Docs
  Model_Templates Model_Jinja Model_Sheet Spec_Parser Spec_Info Spec_Sheet Spec_Sheet2 Model_Dataset
  Proofs_Dict Proofs_Info Proofs_Info2 Proofs_Report Proofs_Sheet Proofs_Sheet2 Proofs_Sheet3
  Proofs_Sheet4 Proofs_Sheet5 Proofs_Sheet6 Proofs_Sheet7.
Import ListNotations.
Open Scope nat_scope.
Local Arguments lit : simpl never.

Definition sty_ast := Eval vm_compute in ast emvadatasheet_sty.
Lemma sty_parse : parse emvadatasheet_sty = Some sty_ast. Proof. vm_compute. reflexivity. Qed.

Definition sty_syms := Eval vm_compute in match simple (fun _ => None) sty_ast with Some l => l | None => [] end.
Lemma sty_simple : simple (fun _ => None) sty_ast = Some sty_syms. Proof. vm_compute. reflexivity. Qed.

Definition e_vendor : expr := EAttr (EVar (lit "marketing")) (lit "vendor").
Definition e_model : expr := EFilter (lit "missing") (EAttr (EVar (lit "basic")) (lit "model")) None.
Definition e_logo : expr := EAttr (EVar (lit "marketing")) (lit "logo").

Lemma sty_vars : vars sty_syms = [e_vendor; e_model; e_logo]. Proof. vm_compute. reflexivity. Qed.
Lemma sty_read : sread sty_syms = Some ([map C (lit "files/EMVA1288Logo.pdf"); [V e_logo]], [], []).
Proof. vm_compute. reflexivity. Qed.

Section Style.
Context (marketing basic : jdict) (logo : str).
Hypothesis Cm : clean_values marketing.
Hypothesis Cb : clean_values basic.
Hypothesis Hl : entry "logo" marketing = Some (JStr logo).

Let env : scope := [(lit "marketing", JDict marketing); (lit "basic", JDict basic)].

Lemma market_out n : is_method n = false ->
  exists s, out env (EAttr (EVar (lit "marketing")) n) = Ok s /\ ordinary s /\
    forall v, sget n marketing = Some v -> show v = Ok s.
Proof using Cm.
  intros M. unfold out. cbn [eval]. change (jget (lit "marketing") env) with (Some (JDict marketing)). cbn [bind].
  rewrite getattr_dict by exact M. change (jget n marketing) with (sget n marketing). cbn [bind].
  destruct (sget n marketing) as [v|] eqn:S.
  - destruct (Cm n v (sget_some_in _ _ _ S)) as (s & E & O). exists s. split; [exact E|]. split; [exact O|].
    intros v' X. injection X as <-. exact E.
  - exists []. split; [reflexivity|]. split; [constructor|]. intros v X. discriminate X.
Qed.

Lemma style_ok : exists style, stylesheet marketing basic = Ok style /\
  graphics style = [lit "files/EMVA1288Logo.pdf"; logo].
Proof using Cm Cb Hl.
  destruct (market_out (lit "vendor") eq_refl) as (s1 & E1 & O1 & _).
  destruct (market_out (lit "logo") eq_refl) as (s3 & E3 & O3 & X3).
  specialize (X3 _ Hl). injection X3 as X3. subst s3.
  destruct (basic_field_ok env basic eq_refl Cb e_model (lit "model") eq_refl) as [E2 O2].
  assert (HV : Forall (fun e => exists s, out env e = Ok s /\ ordinary s) (vars sty_syms)).
  { rewrite sty_vars. constructor; [exists s1; split; assumption|].
    constructor; [eexists; split; [exact E2|exact O2]|]. constructor; [exists logo; split; assumption|constructor]. }
  eexists. split.
  - unfold stylesheet, render. fold env.
    change (dget str_eqb (lit "emvadatasheet.sty") template_files) with (Some emvadatasheet_sty). cbn [of_option bind].
    rewrite sty_parse. cbn [of_option bind].
    apply (simple_ok (fun _ => None) 9 template_files env sty_ast sty_syms sty_simple); [discriminate|].
    eapply Forall_impl; [|exact HV]. intros e (s & E & _). exists s. exact E.
  - assert (Pl : plain (ev env) sty_syms).
    { unfold plain. eapply Forall_impl; [|exact HV]. intros e (s & E & O). unfold ev. rewrite E. exact O. }
    destruct (reads_all _ _ _ _ (sread_ok (ev env) _ _ _ _ Pl sty_read)) as (G & _ & _).
    rewrite G. cbn [map]. rewrite expand_text. f_equal. change (expand (ev env) [V e_logo]) with (ev env e_logo ++ []).
    rewrite app_nil_r. unfold ev. change e_logo with (EAttr (EVar (lit "marketing")) (lit "logo")). rewrite E3. reflexivity.
Qed.
End Style.

(** The header of the pages does not depend on the vendor of the camera. *)
Lemma sget_jset_other k k' v d : k <> k' -> sget k (jset k' v d) = sget k d.
Proof. intros H. apply sget_sset_other. exact H. Qed.

Lemma mapM_same {A B} (f g : A -> res B) l : (forall a, In a l -> f a = g a) -> mapM f l = mapM g l.
Proof.
  induction l as [|a l IH]; intros H; [reflexivity|]. rewrite !mapM_cons, H by (left; reflexivity).
  rewrite IH by (intros x Hx; apply H; right; exact Hx). reflexivity.
Qed.

Lemma vendor_lost marketing basic vendor :
  stylesheet marketing (jset (lit "vendor") vendor basic) = stylesheet marketing basic.
Proof.
  unfold stylesheet, render.
  change (dget str_eqb (lit "emvadatasheet.sty") template_files) with (Some emvadatasheet_sty). cbn [of_option bind].
  rewrite sty_parse. cbn [of_option bind]. unfold render_nodes.
  assert (X : forall n, In n sty_ast ->
    render_node depth template_files [(lit "marketing", JDict marketing); (lit "basic", JDict (jset (lit "vendor") vendor basic))] n
    = render_node depth template_files [(lit "marketing", JDict marketing); (lit "basic", JDict basic)] n).
  { intros n I.
    assert (A : (exists s, n = NText s) \/ n = NOut e_vendor \/ n = NOut e_model \/ n = NOut e_logo).
    { unfold sty_ast in I. cbn [In] in I.
      repeat (destruct I as [<-|I]; [first [left; eexists; reflexivity | right; left; reflexivity
        | right; right; left; reflexivity | right; right; right; reflexivity]|]). destruct I. }
    destruct A as [(s & ->)|[-> |[-> | ->]]]; try reflexivity.
    unfold depth, e_model. cbn [render_node eval].
    change (jget (lit "basic") [(lit "marketing", JDict marketing); (lit "basic", JDict (jset (lit "vendor") vendor basic))])
      with (Some (JDict (jset (lit "vendor") vendor basic))).
    change (jget (lit "basic") [(lit "marketing", JDict marketing); (lit "basic", JDict basic)]) with (Some (JDict basic)).
    cbn [bind]. rewrite !getattr_dict by reflexivity.
    change (jget (lit "model") (jset (lit "vendor") vendor basic)) with (sget (lit "model") (jset (lit "vendor") vendor basic)).
    rewrite sget_jset_other by (apply key_ne; reflexivity). reflexivity. }
  rewrite (mapM_same _ _ _ X). reflexivity.
Qed.

(** ** Witnesses *)

Definition a_marketing : jdict := jset (lit "logo") (JStr (lit "files/missinglogo.pdf")) (info_marketing []).
Definition a_basic (kwargs : jdict) : jdict :=
  jset (lit "qe_plot") (JStr (lit "files/missingplot.pdf")) (info_basic kwargs).
Definition no_points : report jval := mkReport (lit "/out") (fun _ => []) [] [].

Definition got {A} (r : res (list A)) : list A := match r with Ok l => l | Err _ => [] end.
Definition the_text (marketing basic : jdict) : str :=
  got (report_tex_text (fun _ => JNone) no_points marketing basic (info_setup []) (JBool false)).

Lemma percent_lost :
  exists model text, model = lit "100% HD" /\
    report_tex_text (fun _ => JNone) no_points a_marketing (a_basic [(lit "model", JStr model)]) (info_setup []) (JBool false) = Ok text /\
    In (lit "Model", lit "100") (entries text) /\ ~ In (lit "Model", model) (entries text).
Proof.
  exists (lit "100% HD"), (the_text a_marketing (a_basic [(lit "model", JStr (lit "100% HD"))])).
  split; [reflexivity|]. split; [vm_compute; reflexivity|].
  assert (E : entries (the_text a_marketing (a_basic [(lit "model", JStr (lit "100% HD"))]))
    = general_entries (a_basic [(lit "model", JStr (lit "100"))]) (info_setup [])) by (vm_compute; reflexivity).
  rewrite E. split.
  - vm_compute. tauto.
  - intros I. assert (X : existsb (fun e => str_eqb (fst e) (lit "Model") && str_eqb (snd e) (lit "100% HD"))
      (general_entries (a_basic [(lit "model", JStr (lit "100"))]) (info_setup [])) = true)
      by (apply existsb_exists; eexists; split; [exact I|rewrite !str_eqb_refl; reflexivity]).
    vm_compute in X. discriminate X.
Qed.

Lemma cover_ignored :
  exists marketing text, entry "cover_page" marketing = Some (JStr (lit "cover.tex")) /\
    report_tex_text (fun _ => JNone) no_points marketing (a_basic []) (info_setup []) (JBool false) = Ok text /\
    report_tex_text (fun _ => JNone) no_points a_marketing (a_basic []) (info_setup []) (JBool false) = Ok text.
Proof.
  exists (jset (lit "cover_page") (JStr (lit "cover.tex")) a_marketing), (the_text a_marketing (a_basic [])).
  split; [reflexivity|]. split; vm_compute; reflexivity.
Qed.

Lemma absent_empty :
  exists basic text, entry "vendor" basic = None /\
    report_tex_text (fun _ => JNone) no_points a_marketing basic (info_setup []) (JBool false) = Ok text /\
    In (lit "Vendor", []) (entries text) /\ ~ In (lit "Vendor", lit "-") (entries text).
Proof.
  set (b := [(lit "qe_plot", JStr (lit "files/missingplot.pdf"))]).
  exists b, (the_text a_marketing b). split; [reflexivity|]. split; [vm_compute; reflexivity|].
  assert (E : entries (the_text a_marketing b) = general_entries b (info_setup [])) by (vm_compute; reflexivity).
  rewrite E. split.
  - vm_compute. tauto.
  - intros I. assert (X : existsb (fun e => str_eqb (fst e) (lit "Vendor") && str_eqb (snd e) (lit "-"))
      (general_entries b (info_setup [])) = true)
      by (apply existsb_exists; eexists; split; [exact I|rewrite !str_eqb_refl; reflexivity]).
    vm_compute in X. discriminate X.
Qed.

(** ** The files that are written *)

Section Files.
Context (other : nat -> jval) (outdir : str) (heap : nat -> op jval) (ks : list (call jval)) (ps : list point).
Hypothesis Hn : NoDup (map k_op ks).
Hypothesis Ha : Forall2 (adds other heap) ks ps.
Hypothesis Cp : forall p, In p ps -> clean_point p.
Context (marketing basic setup : jdict) (cover : jval) (qe logo : str).
Hypothesis Cm : clean_values marketing.
Hypothesis Cb : clean_values basic.
Hypothesis Cs : clean_items setup.
Hypothesis Cc : clean cover.
Hypothesis Hq : entry "qe_plot" basic = Some (JStr qe).
Hypothesis Hl : entry "logo" marketing = Some (JStr logo).

Lemma latex_files :
  let st := add_all (mkReport outdir heap [] []) ks in
  exists files style text ids, latex other st marketing basic setup cover = Ok files /\
    map fst files = map lit ["emvadatasheet.sty"; "report.tex"]%string /\
    entry "emvadatasheet.sty" files = Some style /\ entry "report.tex" files = Some text /\
    graphics style = [lit "files/EMVA1288Logo.pdf"; logo] /\
    length ids = length ps /\ (forall i id, nth_error ids i = Some id -> op_label (S i) id) /\
    graphics text = qe :: concat (map (fun ip => pictures (fst ip) (snd ip)) (combine ids ps)) /\
    entries text = general_entries basic setup ++ concat (map point_entries ps) ++ concat (map point_entries ps) /\
    Forall2 (fun p tab => Forall2 (line_shows (dash_of p) (value_of p)) sheet tab) ps (tables text).
Proof using All.
  intros st. destruct (style_ok marketing basic logo Cm Cb Hl) as (style & S & G).
  destruct (report_reads other outdir heap ks ps Hn Ha Cp marketing basic setup cover qe Cm Cb Cs Cc Hq)
    as (text & ids & T & L1 & L2 & R). fold st in T.
  exists [(lit "emvadatasheet.sty", style); (lit "report.tex", text)], style, text, ids.
  split; [unfold latex; rewrite S; cbn [bind]; rewrite T; reflexivity|].
  split; [reflexivity|]. split; [reflexivity|]. split; [reflexivity|]. split; [exact G|].
  split; [exact L1|]. split; [intros i id E; exact (labels_nth ids 1 L2 i id E)|]. exact R.
Qed.

Lemma latex_tables :
  let st := add_all (mkReport outdir heap [] []) ks in
  exists files text, latex other st marketing basic setup cover = Ok files /\ entry "report.tex" files = Some text /\
    Forall2 (fun p tab => Forall2 (line_shows (dash_of p) (value_of p)) sheet tab) ps (tables text).
Proof using All.
  destruct latex_files as (files & style & text & ids & H1 & _ & _ & H4 & _ & _ & _ & _ & _ & H10).
  exists files, text. split; [exact H1|]. split; [exact H4|exact H10].
Qed.

Lemma latex_graphics :
  let st := add_all (mkReport outdir heap [] []) ks in
  exists files style text ids, latex other st marketing basic setup cover = Ok files /\
    entry "emvadatasheet.sty" files = Some style /\ entry "report.tex" files = Some text /\
    graphics style = [lit "files/EMVA1288Logo.pdf"; logo] /\
    length ids = length ps /\ (forall i id, nth_error ids i = Some id -> op_label (S i) id) /\
    graphics text = qe :: concat (map (fun ip => pictures (fst ip) (snd ip)) (combine ids ps)).
Proof using All.
  destruct latex_files as (files & style & text & ids & H1 & _ & H3 & H4 & H5 & H6 & H7 & H8 & _ & _).
  exists files, style, text, ids. repeat (split; [assumption|]). exact H8.
Qed.

Lemma latex_entries :
  let st := add_all (mkReport outdir heap [] []) ks in
  exists files text, latex other st marketing basic setup cover = Ok files /\ entry "report.tex" files = Some text /\
    entries text = general_entries basic setup ++ concat (map point_entries ps) ++ concat (map point_entries ps).
Proof using All.
  destruct latex_files as (files & style & text & ids & H1 & _ & _ & H4 & _ & _ & _ & _ & H9 & _).
  exists files, text. split; [exact H1|]. split; [exact H4|exact H9].
Qed.
End Files.

Lemma header_vendor :
  exists marketing basic v1 v2,
    v1 <> v2 /\ entry "logo" marketing <> None /\
    (exists s, stylesheet marketing (jset (lit "vendor") v1 basic) = Ok s) /\
    stylesheet marketing (jset (lit "vendor") v1 basic) = stylesheet marketing (jset (lit "vendor") v2 basic).
Proof.
  exists a_marketing, (a_basic []), (JStr (lit "One")), (JStr (lit "Other")).
  split; [discriminate|]. split; [discriminate|]. split; [eexists; vm_compute; reflexivity|].
  rewrite !vendor_lost. reflexivity.
Qed.
