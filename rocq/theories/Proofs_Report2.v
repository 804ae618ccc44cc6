(** Files of a report; shared dictionaries; the collection of plots. *)
From Coq Require Import Ascii String List Bool Arith ZArith QArith Lia.
From Verif Require Import Base_Prelude Base_Str Base_Num Base_Float Model_Path Model_Dataset Model_Report
  Spec_Num Spec_Report Proofs_Str Proofs_Dict Proofs_Path Proofs_Report.
Import ListNotations.
Open Scope nat_scope.

(** ** Names *)

Lemma last_sep p : (~ In SEP p) \/ exists a b, p = a ++ SEP :: b /\ ~ In SEP b.
Proof.
  induction p as [|c p IH] using rev_ind; [left; auto|].
  destruct (chr_eqb c SEP) eqn:E.
  - apply chr_eqb_eq in E. subst. right. exists p, []. split; auto.
  - apply chr_eqb_neq in E. destruct IH as [N|(a & b & -> & N)].
    + left. intro H. apply in_app_or in H as [H|[H|[]]]; auto.
    + right. exists a, (b ++ [c]). split; [rewrite <- app_assoc; reflexivity|].
      intro H. apply in_app_or in H as [H|[H|[]]]; auto.
Qed.

Lemma to_sep_none s : ~ In SEP s -> to_sep s = [].
Proof.
  induction s as [|c s IH]; intro H; auto. simpl.
  destruct (chr_eqb c SEP) eqn:E; [apply chr_eqb_eq in E; subst; exfalso; apply H; left; auto|].
  apply IH. intro X. apply H. right. exact X.
Qed.

Lemma to_sep_app s t : ~ In SEP s -> to_sep (s ++ SEP :: t) = SEP :: t.
Proof.
  induction s as [|c s IH]; intro H; simpl.
  - reflexivity.
  - destruct (chr_eqb c SEP) eqn:E; [apply chr_eqb_eq in E; subst; exfalso; apply H; left; auto|].
    apply IH. intro X. apply H. right. exact X.
Qed.

Lemma basename_plain p : ~ In SEP p -> basename p = p.
Proof.
  intro H. unfold basename. rewrite to_sep_none by (intro X; apply H, in_rev, X). cbn [length].
  rewrite Nat.sub_0_r, firstn_all, rev_involutive. reflexivity.
Qed.

Lemma basename_app a b : ~ In SEP b -> basename (a ++ SEP :: b) = b.
Proof.
  intro H. unfold basename.
  replace (rev (a ++ SEP :: b)) with (rev b ++ SEP :: rev a).
  2:{ rewrite rev_app_distr. cbn [rev]. rewrite <- app_assoc. reflexivity. }
  cbv zeta. rewrite to_sep_app by (intro X; apply H, in_rev, X).
  rewrite app_length. replace (length (rev b) + _ - _) with (length (rev b)) by lia.
  rewrite firstn_app, firstn_all, Nat.sub_diag. cbn [firstn]. rewrite app_nil_r. apply rev_involutive.
Qed.

Lemma basename_name p : basename p = file_name p.
Proof.
  unfold file_name. destruct (last_sep p) as [N|(a & b & -> & N)].
  - rewrite basename_plain by exact N. fold SEP. rewrite split_on_notin by exact N. reflexivity.
  - rewrite basename_app by exact N. fold SEP. rewrite split_on_app, (split_on_notin SEP b) by exact N.
    symmetry. apply last_last.
Qed.

Lemma file_name_no_sep p : ~ In SEP (file_name p).
Proof.
  unfold file_name. fold SEP. eapply split_on_pieces with (s := p).
  pose proof (split_on_nonnil SEP p) as N. destruct (exists_last N) as (l & x & E). rewrite E, last_last.
  apply in_or_app. right. left. reflexivity.
Qed.

Lemma norm_snoc initial c : c <> [] -> c <> lit "." -> c <> lit ".." ->
  forall cs acc, norm_comps initial acc (cs ++ [c]) = norm_comps initial acc cs ++ [c].
Proof.
  intros N1 N2 N3. induction cs as [|x cs IH]; intro acc; cbn [app norm_comps].
  - apply str_eqb_neq in N1. apply str_eqb_neq in N2. apply str_eqb_neq in N3. rewrite N1, N2, N3.
    reflexivity.
  - destruct (str_eqb x [] || str_eqb x (lit ".")); auto.
    destruct (negb (str_eqb x (lit ".."))); auto.
    destruct acc as [|top acc]; [destruct initial; auto|].
    destruct (str_eqb top (lit "..")); auto.
Qed.

Lemma last_app {A} (l l' : list A) x d : last (l ++ l' ++ [x]) d = x.
Proof. rewrite app_assoc. apply last_last. Qed.

Lemma normpath_name p : proper p -> file_name (normpath p) = file_name p.
Proof.
  intros (P1 & P2 & P3).
  assert (N : p <> []) by (intros ->; apply P1; reflexivity).
  destruct (split_normpath p N) as (k & _ & H). cbv zeta in H.
  pose proof (split_on_nonnil SEP p) as NN. destruct (exists_last NN) as (l & x & E).
  assert (F : file_name p = x) by (unfold file_name; fold SEP; rewrite E; apply last_last).
  rewrite E, norm_snoc in H by (rewrite <- F; auto).
  destruct H as [(S & _)|(X & _)].
  - unfold file_name. fold SEP. rewrite S, last_app. symmetry. rewrite E. apply last_last.
  - apply app_eq_nil in X as (_ & X). discriminate.
Qed.

Lemma join_name cwd f : proper f -> file_name (path_join cwd [f]) = file_name f.
Proof.
  intro P. unfold path_join. cbn [fold_left]. unfold path_join2.
  destruct (starts_with_sep f); [reflexivity|]. destruct cwd as [|c cwd]; [reflexivity|].
  destruct (ends_with_sep (c :: cwd)) eqn:E.
  - apply ends_with_sep_true in E as (b & ->). rewrite <- app_assoc. cbn [app].
    unfold file_name. fold SEP. rewrite split_on_app.
    pose proof (split_on_nonnil SEP f) as NN. destruct (exists_last NN) as (l & x & ->).
    rewrite last_app, last_last. reflexivity.
  - unfold file_name. fold SEP. rewrite split_on_app.
    pose proof (split_on_nonnil SEP f) as NN. destruct (exists_last NN) as (l & x & ->).
    rewrite last_app, last_last. reflexivity.
Qed.

Lemma abspath_name cwd f : proper f -> basename (abspath cwd f) = file_name f.
Proof.
  intro P. rewrite basename_name. unfold abspath. destruct (starts_with_sep f).
  - apply normpath_name; exact P.
  - rewrite normpath_name; [apply join_name; exact P|].
    unfold proper. rewrite (join_name cwd f P). exact P.
Qed.

Lemma upload_plain : ~ In SEP (lit "upload").
Proof. simpl. intro H. repeat (destruct H as [H|H]; [discriminate|]). exact H. Qed.
Lemma files_plain : ~ In SEP (lit "files").
Proof. simpl. intro H. repeat (destruct H as [H|H]; [discriminate|]). exact H. Qed.

Definition upload_path (outdir name : str) : str := inside (inside outdir (lit "upload")) name.

Lemma nested outdir a : a <> [] -> ~ In SEP a -> forall name,
  inside (inside outdir a) name = inside outdir (a ++ lit "/" ++ name).
Proof.
  intros N H name. destruct (inside_prefix outdir) as [pre P]. rewrite !P.
  destruct (inside_nested outdir a name N H) as (pre' & G & E).
  unfold inside at 1. rewrite rev_app_distr.
  destruct (rev a) as [|c l] eqn:Ra.
  - apply (f_equal (@rev ascii)) in Ra. rewrite rev_involutive in Ra. contradiction.
  - cbn [app]. destruct (chr_eqb c "/") eqn:F.
    + exfalso. apply chr_eqb_eq in F. subst. apply H. apply in_rev. rewrite Ra. left. reflexivity.
    + rewrite <- app_assoc. reflexivity.
Qed.

Lemma upload_inj outdir a b : upload_path outdir a = upload_path outdir b -> a = b.
Proof.
  unfold upload_path. destruct (inside_prefix (inside outdir (lit "upload"))) as [pre P].
  rewrite !P. apply app_inv_head.
Qed.

Lemma files_not_upload outdir a b : inside outdir (lit "files/" ++ a) <> upload_path outdir b.
Proof.
  unfold upload_path. rewrite (nested outdir (lit "upload")) by (discriminate || apply upload_plain).
  destruct (inside_prefix outdir) as [pre P]. rewrite !P. intro E. apply app_inv_head in E. discriminate.
Qed.

Lemma nodup_right {A} (l l' : list A) : NoDup (l ++ l') -> NoDup l'.
Proof. induction l as [|x l IH]; intro H; auto. inversion H; subst. apply IH. assumption. Qed.

Section Files.
Context {C : Type}.
Implicit Types d : disk C.

Lemma put_same d p c : put d p c p = Some c.
Proof. unfold put. rewrite str_eqb_refl. reflexivity. Qed.
Lemma put_other d p c q : q <> p -> put d p c q = d q.
Proof. intro H. unfold put. apply str_eqb_neq in H. rewrite H. reflexivity. Qed.

(** The files for which the report's upload directory is used. *)
Definition usable (cwd outdir : str) d (f : str) : Prop :=
  proper f /\ (exists c, d (abspath cwd f) = Some c) /\
  forall name, abspath cwd f <> upload_path outdir name.

Lemma upload_value f : path_join (lit "upload") [basename f] = lit "upload/" ++ file_name f.
Proof.
  rewrite basename_name, join_inside by apply file_name_no_sep.
  rewrite inside_plain; [reflexivity|discriminate|apply upload_plain].
Qed.

Lemma files_value n : ~ In SEP n -> path_join (lit "files") [n] = lit "files/" ++ n.
Proof.
  intro H. rewrite join_inside by exact H.
  rewrite inside_plain; [reflexivity|discriminate|apply files_plain].
Qed.

Lemma upload_dst outdir cwd f : proper f ->
  path_join (path_join outdir [lit "upload"]) [basename (abspath cwd f)] = upload_path outdir (file_name f).
Proof.
  intro P. rewrite (abspath_name cwd f P), !join_inside by (apply file_name_no_sep || apply upload_plain).
  reflexivity.
Qed.

(** One file: the disk changes only at its place in the upload directory. *)
Lemma uploaded_spec cwd outdir d o default :
  ~ In SEP default ->
  (forall f, In f (given o) -> usable cwd outdir d f) ->
  exists d' v, uploaded_file cwd (path_join outdir [lit "upload"]) d o default = Ok (d', v) /\
    match given o with
    | f :: _ => v = lit "upload/" ++ file_name f /\ d' (upload_path outdir (file_name f)) = d (abspath cwd f)
    | [] => v = lit "files/" ++ default
    end /\
    forall p, (forall f, In f (given o) -> p <> upload_path outdir (file_name f)) -> d' p = d p.
Proof.
  intros D H. destruct o as [[|c s]|].
  - exists d, (lit "files/" ++ default). cbn [uploaded_file given]. rewrite files_value by exact D. auto.
  - set (f := c :: s) in *. assert (U : usable cwd outdir d f) by (apply H; left; reflexivity).
    destruct U as (P & (x & X) & N).
    exists (put d (upload_path outdir (file_name f)) x), (lit "upload/" ++ file_name f).
    unfold uploaded_file. unfold f at 1. cbv iota. fold f. rewrite (upload_dst outdir cwd f P), X, upload_value.
    pose proof (N (file_name f)) as N'. apply str_eqb_neq in N'. rewrite N'.
    split; [reflexivity|]. cbn [given]. fold f. split.
    + split; [reflexivity|]. rewrite put_same. symmetry. exact X.
    + intros p G. apply put_other. apply G. left. reflexivity.
  - exists d, (lit "files/" ++ default). cbn [uploaded_file given]. rewrite files_value by exact D. auto.
Qed.

Lemma plain_default s : forallb (fun x => negb (chr_eqb x SEP)) s = true -> ~ In SEP s.
Proof. intros F H. rewrite forallb_forall in F. specialize (F _ H). discriminate. Qed.

Lemma inside_files outdir v name : v = lit "files/" ++ name -> forall b, inside outdir v <> upload_path outdir b.
Proof. intros -> b. apply files_not_upload. Qed.

Lemma inside_upload outdir v name : v = lit "upload/" ++ name -> inside outdir v = upload_path outdir name.
Proof.
  intros ->. unfold upload_path. rewrite (nested outdir (lit "upload")) by (discriminate || apply upload_plain).
  reflexivity.
Qed.

Lemma given_one o f : In f (given o) -> given o = [f].
Proof. destruct o as [[|c s]|]; simpl; intros []; subst; auto; contradiction. Qed.

Lemma files_lead cwd outdir d marketing basic logo plot qe :
  dget str_eqb (lit "logo") marketing = Some logo ->
  dget str_eqb (lit "missingplot") marketing = Some plot ->
  dget str_eqb (lit "qe_plot") basic = Some qe ->
  (forall f, In f (given logo ++ given plot ++ given qe) -> usable cwd outdir d f) ->
  NoDup (map file_name (given logo ++ given plot ++ given qe)) ->
  exists d' m b v1 v2 v3,
    make_dirs cwd outdir d marketing basic = Ok (d', m, b) /\
    dget str_eqb (lit "logo") m = Some (Some v1) /\
    dget str_eqb (lit "missingplot") m = Some (Some v2) /\
    dget str_eqb (lit "qe_plot") b = Some (Some v3) /\
    leads_to cwd outdir d d' logo (lit "missinglogo.pdf") v1 /\
    leads_to cwd outdir d d' plot (lit "missingplot.pdf") v2 /\
    leads_to cwd outdir d d' qe (lit "missingplot.pdf") v3 /\
    (forall p, (forall name, p <> upload_path outdir name) -> d' p = d p).
Proof.
  intros L P Q U ND. unfold make_dirs. cbv zeta. rewrite L. cbn [of_option bind].
  destruct (uploaded_spec cwd outdir d logo (lit "missinglogo.pdf")) as (d1 & v1 & E1 & V1 & F1).
  { apply plain_default. reflexivity. }
  { intros f F. apply U. apply in_or_app. left. exact F. }
  rewrite E1. cbn [bind]. rewrite sget_sset_other by discriminate. rewrite P. cbn [of_option bind].
  assert (K1 : forall p, (forall name, p <> upload_path outdir name) -> d1 p = d p).
  { intros p H. apply F1. intros f _. apply H. }
  destruct (uploaded_spec cwd outdir d1 plot (lit "missingplot.pdf")) as (d2 & v2 & E2 & V2 & F2).
  { apply plain_default. reflexivity. }
  { intros f F. destruct (U f) as (A & B & D).
    { apply in_or_app. right. apply in_or_app. left. exact F. }
    split; [exact A|split; [|exact D]]. rewrite K1 by exact D. exact B. }
  rewrite E2. cbn [bind]. rewrite Q. cbn [of_option bind].
  assert (K2 : forall p, (forall name, p <> upload_path outdir name) -> d2 p = d p).
  { intros p H. rewrite F2 by (intros f _; apply H). apply K1, H. }
  destruct (uploaded_spec cwd outdir d2 qe (lit "missingplot.pdf")) as (d3 & v3 & E3 & V3 & F3).
  { apply plain_default. reflexivity. }
  { intros f F. destruct (U f) as (A & B & D).
    { apply in_or_app. right. apply in_or_app. right. exact F. }
    split; [exact A|split; [|exact D]]. rewrite K2 by exact D. exact B. }
  rewrite E3. cbn [bind].
  assert (K3 : forall p, (forall name, p <> upload_path outdir name) -> d3 p = d p).
  { intros p H. rewrite F3 by (intros f _; apply H). apply K2, H. }
  eexists d3, _, _, v1, v2, v3. split; [reflexivity|].
  split; [rewrite sget_sset_other by discriminate; apply sget_sset_same|].
  split; [apply sget_sset_same|]. split; [apply sget_sset_same|].
  assert (UA : forall o f, In f (given o) -> incl (given o) (given logo ++ given plot ++ given qe) ->
               forall name, abspath cwd f <> upload_path outdir name).
  { intros o f F I. apply (U f), I, F. }
  rewrite !map_app in ND.
  split; [|split; [|split; [|exact K3]]].
  - unfold leads_to. destruct (given logo) as [|f r] eqn:G.
    + split; [exact V1|]. apply K3. eapply inside_files. exact V1.
    + destruct V1 as (V & W). split; [exact V|]. rewrite (inside_upload _ _ _ V).
      assert (r = []) by (destruct logo as [[|? ?]|]; inversion G; reflexivity). subst r. cbn [map app] in ND.
      rewrite F3, F2; [exact W| |].
      * intros g I X. apply upload_inj in X. inversion ND as [|? ? N _]; subst. apply N. rewrite X.
        apply in_or_app. left. apply in_map. exact I.
      * intros g I X. apply upload_inj in X. inversion ND as [|? ? N _]; subst. apply N. rewrite X.
        apply in_or_app. right. apply in_map. exact I.
  - apply nodup_right in ND. unfold leads_to. destruct (given plot) as [|f r] eqn:G.
    + split; [exact V2|]. apply K3. eapply inside_files. exact V2.
    + destruct V2 as (V & W). split; [exact V|]. rewrite (inside_upload _ _ _ V).
      assert (r = []) by (destruct plot as [[|? ?]|]; inversion G; reflexivity). subst r. cbn [map app] in ND.
      rewrite F3.
      * rewrite W. apply K1. apply (U f). apply in_or_app. right. left. reflexivity.
      * intros g I X. apply upload_inj in X. inversion ND as [|? ? N _]; subst. apply N. rewrite X.
        apply in_map. exact I.
  - unfold leads_to. destruct (given qe) as [|f r] eqn:G.
    + split; [exact V3|]. apply K3. eapply inside_files. exact V3.
    + destruct V3 as (V & W). split; [exact V|]. rewrite (inside_upload _ _ _ V).
      rewrite W. apply K2. apply (U f). apply in_or_app. right. apply in_or_app. right. left. reflexivity.
Qed.

(** A report made again with the dictionary of an earlier one, which had no logo. *)
Lemma reused cwd outdir cwd2 outdir2 d d2 marketing basic basic2 d' m b :
  make_dirs cwd outdir d marketing basic = Ok (d', m, b) ->
  (dget str_eqb (lit "logo") marketing = Some None \/ dget str_eqb (lit "logo") marketing = Some (Some [])) ->
  d2 (abspath cwd2 (lit "files/missinglogo.pdf")) = None ->
  make_dirs cwd2 outdir2 d2 m basic2 = Err IOError.
Proof.
  intros E L N.
  assert (M : dget str_eqb (lit "logo") m = Some (Some (lit "files/missinglogo.pdf"))).
  { unfold make_dirs in E. cbv zeta in E.
    destruct L as [L|L]; rewrite L in E; cbn [of_option bind uploaded_file] in E;
      destruct (dget str_eqb (lit "missingplot") _) as [p|] in E; cbn [of_option bind] in E; try discriminate;
      destruct (uploaded_file _ _ _ p _) as [[d1 v1]|] in E; cbn [bind] in E; try discriminate;
      destruct (dget str_eqb (lit "qe_plot") basic) as [q|] in E; cbn [of_option bind] in E; try discriminate;
      destruct (uploaded_file _ _ _ q _) as [[d3 v3]|] in E; cbn [bind] in E; try discriminate;
      inversion E; subst; rewrite sget_sset_other by discriminate; apply sget_sset_same. }
  unfold make_dirs. cbv zeta. rewrite M. cbn [of_option bind].
  unfold uploaded_file. change (lit "files/missinglogo.pdf") with ("f"%char :: lit "iles/missinglogo.pdf").
  cbv iota. change ("f"%char :: lit "iles/missinglogo.pdf") with (lit "files/missinglogo.pdf").
  rewrite N. reflexivity.
Qed.
End Files.

(** ** Witnesses *)

Definition demo_disk : disk nat := fun p =>
  if str_eqb p (lit "/home/a/logo.pdf") then Some 1
  else if str_eqb p (lit "/home/b/plot.pdf") then Some 2
  else if str_eqb p (lit "/home/b/logo.pdf") then Some 3
  else if str_eqb p (lit "/home/out/files/missingplot.pdf") then Some 4
  else None.

Lemma same_name_lost :
  exists cwd outdir (d : disk nat) marketing basic d' m b,
    (forall f, In f [lit "a/logo.pdf"; lit "b/logo.pdf"] -> usable cwd outdir d f) /\
    dget str_eqb (lit "logo") marketing = Some (Some (lit "a/logo.pdf")) /\
    dget str_eqb (lit "missingplot") marketing = Some (Some (lit "b/logo.pdf")) /\
    make_dirs cwd outdir d marketing basic = Ok (d', m, b) /\
    dget str_eqb (lit "logo") m = Some (Some (lit "upload/logo.pdf")) /\
    d (abspath cwd (lit "a/logo.pdf")) = Some 1 /\
    d' (inside outdir (lit "upload/logo.pdf")) = Some 3.
Proof.
  exists (lit "/home"), (lit "/home/out"), demo_disk,
    [(lit "logo", Some (lit "a/logo.pdf")); (lit "missingplot", Some (lit "b/logo.pdf"))],
    [(lit "qe_plot", None)].
  eexists _, _, _. split; [|split; [reflexivity|split; [reflexivity|split; [reflexivity|]]]].
  - intros f [<-|[<-|[]]]; (split; [split; [|split]; vm_compute; discriminate|]);
      (split; [eexists; vm_compute; reflexivity|]); intro name; unfold upload_path;
      destruct (inside_prefix (inside (lit "/home/out") (lit "upload"))) as [pre P];
      pose proof (P []) as P0; rewrite app_nil_r in P0; rewrite P, <- P0;
      vm_compute; discriminate.
  - vm_compute. auto.
Qed.

(** ** One dictionary for two points, and a second try *)

Definition fine (r : nat) : call nat := mkCall r (Ok r) (Ok tt) (fun _ => Ok tt).
Definition no_figure (r : nat) : call nat := mkCall r (Ok r) (Ok tt) (fun _ => Err ValueError).
Definition blank : nat -> op nat := fun _ => [(lit "name", ONone); (lit "id", ONone)].

Lemma fine_works r : works (blank r) (fine r).
Proof.
  split; [eexists; reflexivity|]. split; [eexists; reflexivity|]. split; [left; reflexivity|].
  intros c _. eexists. reflexivity.
Qed.

Lemma shared_dictionary :
  exists (heap : nat -> op nat) k1 k2,
    works (heap (k_op k1)) k1 /\ works (heap (k_op k2)) k2 /\ k_op k1 = k_op k2 /\
    let st := add_all (mkReport (lit "/out") heap [] []) [k1; k2] in
    map (fun r => dget str_eqb (lit "id") (r_heap st r)) (r_ops st)
    = [Some (OText (lit "OP2")); Some (OText (lit "OP2"))].
Proof.
  exists blank, (fine 0), (fine 0). split; [apply fine_works|split; [apply fine_works|]].
  split; [reflexivity|]. vm_compute. reflexivity.
Qed.

Lemma second_try :
  exists (heap : nat -> op nat) k1 k2 k3,
    k_op k1 = k_op k3 /\ k_op k1 <> k_op k2 /\
    dget str_eqb (lit "name") (heap (k_op k1)) = Some ONone /\
    works (heap (k_op k2)) k2 /\ works (heap (k_op k3)) k3 /\
    let st := add_all (mkReport (lit "/out") heap [] []) [k1; k2; k3] in
    map (fun r => (dget str_eqb (lit "id") (r_heap st r), dget str_eqb (lit "name") (r_heap st r))) (r_ops st)
    = [(Some (OText (lit "OP1")), Some (OText (lit "OP1")));
       (Some (OText (lit "OP2")), Some (OText (lit "OP1")))].
Proof.
  exists blank, (no_figure 0), (fine 1), (fine 0). split; [reflexivity|split; [discriminate|split; [reflexivity|]]].
  split; [apply fine_works|split; [apply fine_works|]]. vm_compute. reflexivity.
Qed.

(** ** Plotting1288 *)

Lemma last_drawn tests t plots :
  exists l t', make_plotting (tests ++ [t]) = Ok l /\ l = [t'] /\
    t_addr t' = t_addr t /\ (exists n, t_id t' = Some (S n)) /\
    (forall n, t_id t = Some (S n) -> t_id t' = Some (S n)) /\
    forall fig drawn, In (fig, drawn) (plot_all l plots) -> drawn = [t'].
Proof.
  exists [with_id t], (with_id t). unfold make_plotting. rewrite map_app, rev_app_distr. cbn [map rev app].
  split; [reflexivity|]. split; [reflexivity|]. split; [|split; [|split]].
  - unfold with_id. destruct (t_id t) as [[|n]|]; reflexivity.
  - unfold with_id. destruct (t_id t) as [[|n]|] eqn:E; cbn [t_id]; eauto;
      destruct (Pos2Nat.is_succ (t_addr t)) as [m ->]; eauto.
  - intros n E. unfold with_id. rewrite E. exact E.
  - intros fig drawn I. unfold plot_all in I. apply in_map_iff in I as (x & E & _). inversion E. reflexivity.
Qed.

Lemma figures tests plots : map fst (plot_all tests plots) = match plots with [] => plot_names | _ => plots end.
Proof. unfold plot_all. rewrite map_map. cbn [fst]. apply map_id. Qed.

Lemma first_lost :
  exists t1 t2 l, t_addr t1 <> t_addr t2 /\ make_plotting [t1; t2] = Ok l /\
    forall plots fig drawn t, In (fig, drawn) (plot_all l plots) -> In t drawn -> t_addr t <> t_addr t1.
Proof.
  exists (mkTest 1 (Some 1)), (mkTest 2 (Some 2)), [mkTest 2 (Some 2)].
  split; [discriminate|split; [reflexivity|]].
  intros plots fig drawn t I J. unfold plot_all in I. apply in_map_iff in I as (x & E & _).
  inversion E; subst. destruct J as [<-|[]]. discriminate.
Qed.

Lemma no_tests : make_plotting [] = Err NameError.
Proof. reflexivity. Qed.

(** ** NaN *)
Lemma nan_shown : exists v, v = VFloat FNan false /\ forall k, missingnumber k v = Ok (lit "nan").
Proof. eexists. split; [reflexivity|]. intro k. destruct k; reflexivity. Qed.
