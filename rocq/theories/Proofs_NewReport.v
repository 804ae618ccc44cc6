(** Proofs for C99 and C100. *)
From Coq Require Import Ascii String List Bool Arith Lia.
From Verif Require Import Base_Prelude Base_Str Base_Num Model_Path Model_Report Spec_Report Model_Info Model_Jinja Model_Sheet
  Model_NewReport Spec_Sheet Spec_Sheet2 Spec_NewReport Model_Dataset Proofs_Dict Proofs_Path Proofs_Report Proofs_Report2
  Proofs_Sheet7 Proofs_Sheet8.
Import ListNotations.
Local Arguments lit : simpl never.

Lemma or_default_handed given (names : list string) default :
  default = map (fun n => (lit n, JNone)) names -> or_default given default = handed given names.
Proof. intros ->. destruct given as [[|e d]|]; reflexivity. Qed.

Section Uploads.
Context {C : Type} (cwd outdir : str) (d : disk C).
Let up := path_join outdir [lit "upload"].

Lemma uploads logo plot qe :
  (forall f, In f (given logo ++ given plot ++ given qe) -> can_copy cwd outdir d f) ->
  NoDup (map file_name (given logo ++ given plot ++ given qe)) ->
  exists d1 d2 d3 v1 v2 v3,
    uploaded_file cwd up d logo (lit "missinglogo.pdf") = Ok (d1, v1) /\
    uploaded_file cwd up d1 plot (lit "missingplot.pdf") = Ok (d2, v2) /\
    uploaded_file cwd up d2 qe (lit "missingplot.pdf") = Ok (d3, v3) /\
    leads_to cwd outdir d d3 logo (lit "missinglogo.pdf") v1 /\
    leads_to cwd outdir d d3 plot (lit "missingplot.pdf") v2 /\
    leads_to cwd outdir d d3 qe (lit "missingplot.pdf") v3.
Proof.
  intros U ND.
  destruct (files_lead cwd outdir d [(lit "logo", logo); (lit "missingplot", plot)] [(lit "qe_plot", qe)] logo plot qe
    eq_refl eq_refl eq_refl U ND) as (d' & m & b & v1 & v2 & v3 & E & L1 & L2 & L3 & A1 & A2 & A3 & _).
  unfold make_dirs in E. cbv zeta in E. fold up in E.
  change (dget str_eqb (lit "logo") [(lit "logo", logo); (lit "missingplot", plot)]) with (Some logo) in E.
  cbn [of_option bind] in E.
  destruct (uploaded_file cwd up d logo (lit "missinglogo.pdf")) as [(d1, w1)|e] eqn:E1; [|discriminate E]. cbn [bind] in E.
  change (dset str_eqb (lit "logo") (Some w1) [(lit "logo", logo); (lit "missingplot", plot)])
    with [(lit "logo", Some w1); (lit "missingplot", plot)] in E.
  change (dget str_eqb (lit "missingplot") [(lit "logo", Some w1); (lit "missingplot", plot)]) with (Some plot) in E.
  cbn [of_option bind] in E.
  destruct (uploaded_file cwd up d1 plot (lit "missingplot.pdf")) as [(d2, w2)|e] eqn:E2; [|discriminate E]. cbn [bind] in E.
  change (dget str_eqb (lit "qe_plot") [(lit "qe_plot", qe)]) with (Some qe) in E. cbn [of_option bind] in E.
  destruct (uploaded_file cwd up d2 qe (lit "missingplot.pdf")) as [(d3, w3)|e] eqn:E3; [|discriminate E]. cbn [bind] in E.
  injection E as E4 Em Eb. subst d' m b.
  change (Some (Some w1) = Some (Some v1)) in L1. change (Some (Some w2) = Some (Some v2)) in L2.
  change (Some (Some w3) = Some (Some v3)) in L3. injection L1 as ->. injection L2 as ->. injection L3 as ->.
  exists d1, d2, d3, v1, v2, v3. split; [reflexivity|]. repeat (split; [assumption|]). assumption.
Qed.

Lemma entry_uploaded (e : disk C) k default (dict : jdict) f d1 v :
  names_file dict k f -> uploaded_file cwd up e f default = Ok (d1, v) ->
  upload_entry cwd up e (lit k) default dict = Ok (d1, jset (lit k) (JStr v) dict).
Proof.
  intros [[E ->]|(s & E & ->)] U; unfold upload_entry; change (jget (lit k) dict) with (entry k dict); rewrite E;
    cbn [of_option bind]; unfold file_entry; cbn [truth bind].
  - rewrite U. reflexivity.
  - destruct s; cbn [bind]; [|rewrite U; reflexivity].
    cbn [uploaded_file] in U |- *. rewrite U. reflexivity.
Qed.
End Uploads.

Lemma entry_set_other k k' v (d : jdict) : lit k <> lit k' -> entry k (jset (lit k') v d) = entry k d.
Proof. intros N. exact (sget_sset_other _ _ _ _ N). Qed.
Lemma entry_set_same k v (d : jdict) : entry k (jset (lit k) v d) = Some v.
Proof. exact (sget_sset_same _ _ _). Qed.

Lemma in_set k v k' v' (d : jdict) : In (k', v') (jset k v d) -> (k' = k /\ v' = v) \/ In (k', v') d.
Proof.
  induction d as [|(a, x) d IH]; simpl.
  - intros [E|[]]. inversion E. auto.
  - destruct (str_eqb k a) eqn:Q.
    + intros [E|I]; [|auto]. inversion E. subst. left. split; [|reflexivity].
      apply str_eqb_eq in Q. congruence.
    + intros [E|I]; [auto|]. destruct (IH I); auto.
Qed.
Lemma clean_set k v (d : jdict) : clean v -> clean_values d -> clean_values (jset k v d).
Proof. intros H D k' v' I. destruct (in_set _ _ _ _ _ I) as [[_ ->]|J]; [exact H|exact (D _ _ J)]. Qed.

Lemma labelled_set v (b : jdict) l : lit (snd (fst l)) <> lit "qe_plot" ->
  labelled (jset (lit "qe_plot") v b) l = labelled b l.
Proof. destruct l as [[label field] behind]. intros N. unfold labelled. rewrite entry_set_other by exact N. reflexivity. Qed.

Lemma general_set v (b s : jdict) : general_entries (jset (lit "qe_plot") v b) s = general_entries b s.
Proof.
  unfold general_entries. f_equal.
  assert (S : sensor_labels (jset (lit "qe_plot") v b) = sensor_labels b).
  { unfold sensor_labels. rewrite entry_set_other by discriminate. reflexivity. }
  rewrite S. apply map_ext_in. intros l I. apply labelled_set.
  assert (A : forallb (fun l => negb (str_eqb (lit (snd (fst l))) (lit "qe_plot")))
    (general_labels ++ (ccd_labels ++ cmos_labels) ++ more_labels) = true) by (vm_compute; reflexivity).
  rewrite forallb_forall in A. specialize (A l).
  assert (I' : In l (general_labels ++ (ccd_labels ++ cmos_labels) ++ more_labels)).
  { rewrite !in_app_iff in *. destruct I as [I|[I|I]]; auto. right. left. unfold sensor_labels in I.
    destruct (entry "sensor_type" b) as [[]|]; try contradiction.
    destruct (str_eqb s0 (lit "CCD")); [auto|]. destruct (str_eqb s0 (lit "CMOS")); [auto|contradiction]. }
  specialize (A I'). intros E. rewrite E in A. vm_compute in A. discriminate A.
Qed.

Lemma ordinary_lit s : forallb (fun c => negb (existsb (chr_eqb c) special)) s = true -> ordinary s.
Proof.
  intros F. apply Forall_forall. intros c I. rewrite forallb_forall in F. specialize (F c I).
  intros J. apply negb_true_iff in F. assert (T : existsb (chr_eqb c) special = true).
  { apply existsb_exists. exists c. split; [exact J|apply chr_eqb_refl]. }
  congruence.
Qed.

Lemma last_in' {A} (l : list A) x : l <> [] -> In (last l x) l.
Proof.
  induction l as [|a [|b l] IH]; intros H; [contradiction|left; reflexivity|]. right. apply IH. discriminate.
Qed.
Lemma ordinary_suffix (s : str) : ordinary s -> ordinary (file_name s).
Proof.
  intros O. unfold ordinary in *. rewrite Forall_forall in *. intros c I. apply O. unfold file_name in I.
  exact (in_split_on _ _ _ _ (last_in' _ _ (split_on_nonnil "/" s)) I).
Qed.
Lemma ordinary_app a b : ordinary a -> ordinary b -> ordinary (a ++ b).
Proof. intros A B. apply Forall_app. split; assumption. Qed.
Lemma clean_str s : clean (JStr s) <-> ordinary s.
Proof.
  split; [intros (t & E & O); injection E as <-; exact O|intros O; exists s; split; [reflexivity|exact O]].
Qed.

Lemma leads_clean {C} cwd outdir (d d' : disk C) (dict : jdict) k f default v :
  clean_values dict -> names_file dict k f -> ordinary default ->
  leads_to cwd outdir d d' f default v -> clean (JStr v).
Proof.
  intros CL NF OD L. apply clean_str. unfold leads_to in L.
  assert (P1 : ordinary (lit "files/")) by (apply ordinary_lit; reflexivity).
  assert (P2 : ordinary (lit "upload/")) by (apply ordinary_lit; reflexivity).
  destruct NF as [[E ->]|(s & E & ->)]; cbn [given] in L.
  - destruct L as (-> & _). apply ordinary_app; assumption.
  - destruct s as [|c s]; cbn [given] in L; destruct L as (-> & _); apply ordinary_app; try assumption.
    apply ordinary_suffix. apply clean_str. apply (CL (lit k)). exact (sget_some_in _ _ _ E).
Qed.

Lemma clean_blank names : clean_values (map (fun n => (lit n, JNone)) names).
Proof.
  intros k v I. apply in_map_iff in I. destruct I as (n & E & _). inversion E.
  exists (lit "None"). split; [reflexivity|]. apply ordinary_lit. reflexivity.
Qed.

Lemma whole_report {C} cwd outdir (d : disk C) heap other setup basic marketing cover ks ps logo plot qe :
  let M := handed marketing marketing_names in
  let B := handed basic basic_names in
  let S := handed setup setup_names in
  let out := abspath cwd outdir in
  clean_values M -> clean_values B -> clean_items S -> clean cover ->
  names_file M "logo" logo -> names_file M "missingplot" plot -> names_file B "qe_plot" qe ->
  (forall f, In f (given logo ++ given plot ++ given qe) -> can_copy cwd out d f) ->
  NoDup (map file_name (given logo ++ given plot ++ given qe)) ->
  NoDup (map k_op ks) -> Forall2 (adds other heap) ks ps -> (forall p, In p ps -> clean_point p) ->
  exists d' r files style text ids v1 v3,
    new_report cwd outdir heap d setup basic marketing cover = Ok (d', r) /\
    write_report other r ks = Ok files /\
    entry "emvadatasheet.sty" files = Some style /\ entry "report.tex" files = Some text /\
    leads_to cwd out d d' logo (lit "missinglogo.pdf") v1 /\
    leads_to cwd out d d' qe (lit "missingplot.pdf") v3 /\
    graphics style = [lit "files/EMVA1288Logo.pdf"; v1] /\
    length ids = length ps /\ (forall i id, nth_error ids i = Some id -> op_label (Datatypes.S i) id) /\
    graphics text = v3 :: concat (map (fun ip => pictures (fst ip) (snd ip)) (combine ids ps)) /\
    entries text = general_entries B S ++ concat (map point_entries ps) ++ concat (map point_entries ps) /\
    Forall2 (fun p tab => Forall2 (line_shows (dash_of p) (value_of p)) sheet tab) ps (tables text).
Proof.
  intros M B S out CM CB CS CC NL NP NQ UC ND NK FA CP.
  destruct (uploads cwd out d logo plot qe UC ND) as (d1 & d2 & d3 & v1 & v2 & v3 & E1 & E2 & E3 & L1 & L2 & L3).
  set (M1 := jset (lit "logo") (JStr v1) M). set (M2 := jset (lit "missingplot") (JStr v2) M1).
  set (B1 := jset (lit "qe_plot") (JStr v3) B).
  assert (CM2 : clean_values M2).
  { apply clean_set; [|apply clean_set; [|exact CM]].
    - apply (leads_clean cwd out d d3 M "missingplot" plot (lit "missingplot.pdf") v2 CM NP); [|exact L2].
      apply ordinary_lit. reflexivity.
    - apply (leads_clean cwd out d d3 M "logo" logo (lit "missinglogo.pdf") v1 CM NL); [|exact L1].
      apply ordinary_lit. reflexivity. }
  assert (CB1 : clean_values B1).
  { apply clean_set; [|exact CB].
    apply (leads_clean cwd out d d3 B "qe_plot" qe (lit "missingplot.pdf") v3 CB NQ); [|exact L3].
    apply ordinary_lit. reflexivity. }
  assert (EL : entry "logo" M2 = Some (JStr v1)).
  { unfold M2. rewrite entry_set_other by discriminate. apply entry_set_same. }
  destruct (latex_files other out heap ks ps NK FA CP M2 B1 S cover v3 v1 CM2 CB1 CS CC (entry_set_same _ _ _) EL)
    as (files & style & text & ids & H1 & _ & H3 & H4 & H5 & H6 & H7 & H8 & H9 & H10).
  exists d3, (mkReporter M2 B1 S cover (mkReport out heap [] [])), files, style, text, ids, v1, v3.
  split.
  - unfold new_report. cbv zeta. fold out.
    rewrite (or_default_handed marketing marketing_names) by reflexivity.
    rewrite (or_default_handed basic basic_names) by reflexivity.
    rewrite (or_default_handed setup setup_names) by reflexivity. fold M B S.
    rewrite (entry_uploaded cwd out d "logo" (lit "missinglogo.pdf") M logo d1 v1 NL E1). cbn [bind]. fold M1.
    rewrite (entry_uploaded cwd out d1 "missingplot" (lit "missingplot.pdf") M1 plot d2 v2); [|
      unfold names_file, M1; rewrite entry_set_other by discriminate; exact NP|exact E2]. cbn [bind].
    rewrite (entry_uploaded cwd out d2 "qe_plot" (lit "missingplot.pdf") B qe d3 v3 NQ E3). reflexivity.
  - split; [exact H1|]. split; [exact H3|]. split; [exact H4|]. split; [exact L1|]. split; [exact L3|].
    split; [exact H5|]. split; [exact H6|]. split; [exact H7|]. split; [exact H8|]. split; [|exact H10].
    rewrite H9. unfold B1. rewrite general_set. reflexivity.
Qed.

(** Nothing given. *)
Lemma handed_nothing o names : nothing o -> handed o names = map (fun n => (lit n, JNone)) names.
Proof. intros [E|E]; subst o; reflexivity. Qed.
Lemma blank_report {C} cwd outdir (d : disk C) heap other setup basic marketing cover :
  nothing setup -> nothing basic -> nothing marketing -> clean cover ->
  exists d' r files style text,
    new_report cwd outdir heap d setup basic marketing cover = Ok (d', r) /\
    write_report other r [] = Ok files /\
    entry "emvadatasheet.sty" files = Some style /\ entry "report.tex" files = Some text /\
    graphics style = [lit "files/EMVA1288Logo.pdf"; lit "files/missinglogo.pdf"] /\
    graphics text = [lit "files/missingplot.pdf"] /\ entries text = dashes /\ tables text = [].
Proof.
  intros NS NB NM CC.
  pose proof (whole_report cwd outdir d heap other setup basic marketing cover [] [] None None None) as H. cbv zeta in H.
  rewrite !(handed_nothing _ _ NS), !(handed_nothing _ _ NB), !(handed_nothing _ _ NM) in H.
  destruct H as (d' & r & files & style & text & ids & v1 & v3 & H1 & H2 & H3 & H4 & L1 & L3 & H5 & H6 & _ & H8 & H9 & H10).
  - apply clean_blank.
  - apply clean_blank.
  - intros k v I. split; [|exact (clean_blank _ _ _ I)].
    apply in_map_iff in I. destruct I as (n & E & I). inversion E. subst k v. apply ordinary_lit.
    assert (A : forallb (fun n => forallb (fun c => negb (existsb (chr_eqb c) special)) (lit n)) setup_names = true)
      by (vm_compute; reflexivity).
    rewrite forallb_forall in A. exact (A n I).
  - exact CC.
  - left. split; reflexivity.
  - left. split; reflexivity.
  - left. split; reflexivity.
  - intros f [].
  - constructor.
  - constructor.
  - constructor.
  - intros p [].
  - exists d', r, files, style, text. repeat (split; [assumption|]).
    destruct L1 as (-> & _). destruct L3 as (-> & _). split; [exact H5|].
    destruct ids; [|discriminate H6]. split; [exact H8|]. split; [rewrite H9; vm_compute; reflexivity|].
    inversion H10. reflexivity.
Qed.

(** The values of the keyword arguments. *)
Lemma update_get kwargs (d : jdict) k : NoDup (map fst kwargs) ->
  sget k (update kwargs d) = match sget k kwargs with Some v => Some v | None => sget k d end.
Proof.
  unfold update. revert d. induction kwargs as [|(a, v) kw IH]; intros d ND; [reflexivity|].
  inversion ND as [|x l NI ND']. subst. cbn [fold_left fst snd]. rewrite IH by exact ND'.
  change (sget k ((a, v) :: kw)) with (if str_eqb k a then Some v else sget k kw).
  change (jset a v d) with (sset a v d). destruct (str_eqb k a) eqn:E.
  - apply str_eqb_eq in E. subst a. assert (N : sget k kw = None) by (apply (sget_none k kw); exact NI).
    rewrite N. exact (sget_sset_same k v d).
  - apply str_eqb_neq in E. destruct (sget k kw); [reflexivity|]. exact (sget_sset_other k a v d E).
Qed.
Lemma blank_get names k : sget (lit k) (blanks names) = if existsb (fun n => str_eqb (lit k) (lit n)) names then Some JNone else None.
Proof.
  unfold sget, blanks. induction names as [|n names IH]; [reflexivity|]. cbn [map dget existsb fst].
  destruct (str_eqb (lit k) (lit n)); [reflexivity|exact IH].
Qed.
Lemma blank_get_in names k : In k names -> sget (lit k) (blanks names) = Some JNone.
Proof.
  intros I. rewrite blank_get. replace (existsb _ _) with true; [reflexivity|]. symmetry. apply existsb_exists.
  exists k. split; [exact I|apply str_eqb_refl].
Qed.
Lemma keyword_values kwargs k : NoDup (map fst kwargs) ->
  (In k setup_names -> entry k (info_setup kwargs) = Some (match entry k kwargs with Some v => v | None => JNone end)) /\
  (In k basic_names -> entry k (info_basic kwargs) = Some (match entry k kwargs with Some v => v | None => JNone end)) /\
  (In k marketing_names -> entry k (info_marketing kwargs) = Some (match entry k kwargs with Some v => v | None => JNone end)).
Proof.
  intros ND.
  assert (G : forall names, In k names ->
    sget (lit k) (update kwargs (blanks names)) = Some (match sget (lit k) kwargs with Some v => v | None => JNone end)).
  { intros names I. rewrite update_get by exact ND. destruct (sget (lit k) kwargs); [reflexivity|].
    apply blank_get_in. exact I. }
  split; [exact (G setup_names)|]. split; [exact (G basic_names)|exact (G marketing_names)].
Qed.

(** A dictionary without the entry of a file. *)
Lemma incomplete {C} cwd outdir (d : disk C) heap setup basic marketing cover e :
  basic = Some e -> e <> [] -> entry "qe_plot" e = None -> nothing marketing ->
  new_report cwd outdir heap d setup basic marketing cover = Err KeyError.
Proof.
  intros -> N E NM. unfold new_report. cbv zeta. rewrite (or_default_handed marketing marketing_names) by reflexivity.
  rewrite (handed_nothing _ _ NM).
  rewrite (entry_uploaded cwd (abspath cwd outdir) d "logo" (lit "missinglogo.pdf")
    (map (fun n => (lit n, JNone)) marketing_names) None d (path_join (lit "files") [lit "missinglogo.pdf"]));
    [|left; split; reflexivity|reflexivity]. cbn [bind].
  rewrite (entry_uploaded cwd (abspath cwd outdir) d "missingplot" (lit "missingplot.pdf") _ None d
    (path_join (lit "files") [lit "missingplot.pdf"]));
    [|left; split; [rewrite entry_set_other by discriminate|]; reflexivity|reflexivity]. cbn [bind].
  unfold upload_entry. destruct e as [|x e]; [contradiction|]. cbn [or_default].
  change (jget (lit "qe_plot") (x :: e)) with (entry "qe_plot" (x :: e)). rewrite E. reflexivity.
Qed.
