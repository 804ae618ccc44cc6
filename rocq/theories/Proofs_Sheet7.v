(** The report of any history of additions. *)
From Coq Require Import Ascii String List Bool Arith ZArith QArith Lia.
From Verif Require Import Proofs_Report2 Base_Prelude Base_Str Base_Num Spec_Num Model_Report Spec_Report Model_Info Model_Docs
  Model_Templates Model_Jinja Model_Sheet Spec_Parser Spec_Info Spec_Sheet Spec_Sheet2 Model_Dataset
  Proofs_Dict Proofs_Info Proofs_Info2 Proofs_Report Proofs_Sheet Proofs_Sheet2 Proofs_Sheet3
  Proofs_Sheet4 Proofs_Sheet5 Proofs_Sheet6.
Import ListNotations.
Open Scope nat_scope.
Local Arguments lit : simpl never.

Lemma kept_all {A} (P : A -> Prop) l l' : kept P l l' -> (forall x, In x l -> P x) -> l' = l.
Proof.
  induction 1 as [|x l l' Hx _ IH|x l l' Hx _ IH]; intros H; [reflexivity| |].
  - f_equal. apply IH. intros y Hy. apply H. right. exact Hy.
  - destruct Hx. apply H. left. reflexivity.
Qed.

Lemma key_ne (a b : string) : str_eqb (lit a) (lit b) = false -> lit a <> lit b.
Proof. intros H E. rewrite E, str_eqb_refl in H. discriminate. Qed.

Lemma presented_env other id d0 r d p : presented id d0 r d -> describes other d0 p ->
  results_by_section (fun n => Ok (p_figures p n)) (p_np p) = Ok r ->
  forall env, op_env ((lit "op", jval_of_op other d) :: env) id p.
Proof.
  intros (P1 & P2 & P3 & P4 & (ps & P5 & P6 & P7) & P8) [D1 D2 D3 D4] R env. constructor.
  exists (map (fun kv => (fst kv, jval_of_entry other (snd kv))) d), r, (map (fun kv => (fst kv, JStr (snd kv))) ps).
  split; [reflexivity|].
  assert (G : forall k, jget k (map (fun kv => (fst kv, jval_of_entry other (snd kv))) d)
                        = option_map (jval_of_entry other) (dget str_eqb k d)) by (intros k; apply jget_map).
  assert (K : forall a, str_eqb (lit a) (lit "id") = false -> str_eqb (lit a) (lit "name") = false ->
     str_eqb (lit a) (lit "results") = false -> str_eqb (lit a) (lit "plots") = false ->
     dget str_eqb (lit a) d = dget str_eqb (lit a) d0).
  { intros a A1 A2 A3 A4. apply P8; apply key_ne; assumption. }
  rewrite !G, P1, P4, P5, (K "camera_settings"%string), (K "test_parameters"%string), (K "summary_only"%string) by reflexivity. cbn [option_map jval_of_entry].
  split; [|split; [reflexivity|split; [reflexivity|split; [exact R|split; [reflexivity|split; [|split; [|split]]]]]]].
  - unfold title. destruct D1 as [[D1 N]|D1].
    + rewrite N. rewrite (P2 _ D1); [reflexivity|left; reflexivity].
    + destruct (p_name p) as [|c s].
      * rewrite (P2 _ D1); [reflexivity|right; reflexivity].
      * rewrite (P3 _ _ D1). reflexivity.
  - intros c I. rewrite jget_map. rewrite <- P6 in I. apply in_map_iff in I. destruct I as ([c' q] & E & I).
    cbn [fst] in E. subst c'. assert (X : exists q, sget c ps = Some q).
    { destruct (sget c ps) as [q'|] eqn:S; [eauto|]. exfalso. apply sget_none in S. apply S.
      apply in_map_iff. exists (c, q). split; [reflexivity|exact I]. }
    destruct X as (q' & X). rewrite X. cbn [option_map]. rewrite (P7 _ _ X). reflexivity.
  - destruct D2 as (n & E1 & E2). unfold entry in E1. rewrite E1. cbn [option_map jval_of_entry]. rewrite E2. reflexivity.
  - destruct D3 as (n & E1 & E2). unfold entry in E1. rewrite E1. cbn [option_map jval_of_entry]. rewrite E2. reflexivity.
  - rewrite D4. unfold entry. destruct (dget str_eqb (lit "summary_only") d0); reflexivity.
Qed.

Lemma forall2_nth {A B} (P : A -> B -> Prop) l m : Forall2 P l m ->
  forall i b, nth_error m i = Some b -> exists a, nth_error l i = Some a /\ P a b.
Proof.
  induction 1 as [|a b l m Hab _ IH]; intros [|i] x E; try discriminate.
  - injection E as <-. exists a. split; [reflexivity|exact Hab].
  - exact (IH i x E).
Qed.

(** The labels of the points, in order. *)
Fixpoint labels_from (n : nat) (ids : list str) : Prop :=
  match ids with [] => True | id :: r => op_label n id /\ labels_from (S n) r end.

Lemma labels_nth ids : forall n, labels_from n ids -> forall i id, nth_error ids i = Some id -> op_label (n + i) id.
Proof.
  induction ids as [|x ids IH]; intros n H [|i] id E; try discriminate; destruct H as [H1 H2].
  - injection E as <-. rewrite Nat.add_0_r. exact H1.
  - rewrite <- Nat.add_succ_comm. exact (IH (S n) H2 i id E).
Qed.

Section History.
Context (other : nat -> jval) (outdir : str) (heap : nat -> op jval) (ks : list (call jval)) (ps : list point).
Hypothesis Hn : NoDup (map k_op ks).
Hypothesis Ha : Forall2 (adds other heap) ks ps.
Hypothesis Cp : forall p, In p ps -> clean_point p.

Lemma history_points :
  let st := add_all (mkReport outdir heap [] []) ks in
  exists ids, length ids = length ps /\ labels_from 1 ids /\
    Forall2 describing (map (fun r => jval_of_op other (r_heap st r)) (r_ops st)) (combine ids ps).
Proof using Hn Ha Cp.
  intros st. destruct (points_in_order outdir heap ks Hn) as (done & K & R & N). fold st in R, N.
  assert (E : done = ks).
  { apply (kept_all _ _ _ K). intros k I. apply In_nth_error in I. destruct I as (i & I).
    pose proof Ha as A. clear -A I. revert i I. induction A as [|k' p ks ps (_ & W & _) _ IH]; intros [|i] I; try discriminate.
    - injection I as <-. exact W.
    - exact (IH i I). }
  subst done. rewrite R. clear K R.
  assert (N' : forall i k, nth_error ks i = Some k -> exists id x, op_label (1 + i) id /\ k_results k = Ok x /\
    presented id (heap (k_op k)) x (r_heap st (k_op k))).
  { intros i k I. destruct (N i k I) as (id & x & L & X & P & _). eauto. }
  clear N. pose proof Ha as A. pose proof Cp as Q. clear Ha Cp Hn. clearbody st.
  generalize dependent 1. induction A as [|k p ks' ps' Hk _ IH]; intros m N.
  - exists []. split; [reflexivity|]. split; [exact I|constructor].
  - destruct (N 0 k eq_refl) as (id & x & L & X & P). rewrite Nat.add_0_r in L.
    destruct (IH (fun q Hq => Q q (or_intror Hq)) (S m)) as (ids & L1 & L2 & F).
    { intros i k' E. rewrite Nat.add_succ_comm. exact (N (S i) k' E). }
    exists (id :: ids). split; [cbn; rewrite L1; reflexivity|]. split; [split; assumption|].
    cbn [map combine]. constructor; [|exact F].
    destruct Hk as (D & _ & E). rewrite X in E. split; [|split].
    + cbn [fst snd]. exact (presented_env other id _ x _ p P D (eq_sym E)).
    + exact (label_ordinary _ _ L).
    + apply Q. left. reflexivity.
Qed.

Context (marketing basic setup : jdict) (cover : jval) (qe : str).
Hypothesis Cm : clean_values marketing.
Hypothesis Cb : clean_values basic.
Hypothesis Cs : clean_items setup.
Hypothesis Cc : clean cover.
Hypothesis Hq : entry "qe_plot" basic = Some (JStr qe).

Lemma map_combine_snd {B} (f : point -> B) (ids : list str) (l : list point) : length ids = length l ->
  map (fun ip => f (snd ip)) (combine ids l) = map f l.
Proof.
  revert l. induction ids as [|i ids IH]; intros [|p l] E; try discriminate; [reflexivity|].
  cbn. f_equal. apply IH. injection E. auto.
Qed.

Lemma report_reads :
  let st := add_all (mkReport outdir heap [] []) ks in
  exists text ids, report_tex_text other st marketing basic setup cover = Ok text /\
    length ids = length ps /\ labels_from 1 ids /\
    graphics text = qe :: concat (map (fun ip => pictures (fst ip) (snd ip)) (combine ids ps)) /\
    entries text = general_entries basic setup ++ concat (map point_entries ps) ++ concat (map point_entries ps) /\
    Forall2 (fun p tab => Forall2 (line_shows (dash_of p) (value_of p)) sheet tab) ps (tables text).
Proof using All.
  intros st. destruct history_points as (ids & L1 & L2 & F). fold st in F.
  set (ds := map (fun r => jval_of_op other (r_heap st r)) (r_ops st)) in *.
  set (env := [(lit "marketing", JDict marketing); (lit "basic", JDict basic); (lit "setup", JDict setup);
     (lit "operation_points", JList ds); (lit "cover_page", cover)]).
  assert (Cq : ordinary qe).
  { assert (X : clean (JStr qe)) by (apply sget_some_in in Hq; exact (Cb _ _ Hq)).
    destruct X as (s & E & O). injection E as <-. exact O. }
  destruct (report_ok env basic marketing eq_refl eq_refl Cb setup eq_refl Cs qe Hq Cq ds (combine ids ps) eq_refl F
    cover eq_refl Cm Cc 5) as (text & us & T & Fu & R).
  exists text, ids. split; [|split; [exact L1|split; [exact L2|]]].
  - unfold report_tex_text, render. fold ds. fold env.
    change (dget str_eqb (lit "report.tex") template_files) with (Some report_tex). cbn [of_option bind].
    rewrite report_parse. exact T.
  - destruct (reads_all _ _ _ _ R) as (G & E & Tb). split; [exact G|split].
    + rewrite E. rewrite (map_combine_snd point_entries ids ps L1). reflexivity.
    + rewrite Tb. clear -Fu L1. revert ids us L1 Fu. induction ps as [|p ps' IH]; intros [|i ids] us L1 Fu; try discriminate.
      * inversion Fu. constructor.
      * cbn [combine] in Fu. inversion Fu as [|x u y us' (tab & -> & Ht) F2]; subst. cbn [concat app]. constructor; [exact Ht|].
        apply (IH ids us'); [injection L1; auto|exact F2].
Qed.
End History.
