(** Consequences of the main parser lemma. *)
From Coq Require Import Ascii String List Bool Arith ZArith QArith Permutation Lia.
From Verif Require Import Base_Prelude Base_Str Base_Num Model_Path Model_Parser
  Spec_Parser Proofs_Str Proofs_Parser.
Import ListNotations.
Open Scope nat_scope.

Lemma parse_file_cases f p t toks :
  text_content t toks ->
  (exists es d, well_formed (base_dir f p) toks /\
     Forall2 (block_denotes (base_dir f p)) (blocks toks) es /\
     parse_file f p (Some t) = Ok d /\ Permutation (entries d) es /\
     d_version d = version_of toks /\ d_format d = format_from None toks /\ desc_inv d)
  \/ (~ well_formed (base_dir f p) toks /\ exists e, parse_file f p (Some t) = Err e /\
        (e = SyntaxError \/ (e = ValueError /\ bad_number toks))).
Proof.
  intro H. rewrite (parse_file_tokens f p t toks H). apply parse_t_main.
Qed.

Lemma blocks_to_entries f p t toks d :
  text_content t toks -> parse_file f p (Some t) = Ok d ->
  exists es, Forall2 (block_denotes (base_dir f p)) (blocks toks) es /\
             Permutation (entries d) es.
Proof.
  intros H E. destruct (parse_file_cases f p t toks H)
    as [(es & d' & W & F & E' & P & _)|(_ & e & E' & _)]; [|congruence].
  assert (d' = d) by congruence. subst. eauto.
Qed.

Lemma version_format f p t toks d :
  text_content t toks -> parse_file f p (Some t) = Ok d ->
  d_version d = version_of toks /\
  (forall l, In l (format_lines toks) ->
     exists b w h, py_int (nth 1 l []) = Some b /\ py_int (nth 2 l []) = Some w /\
       py_int (nth 3 l []) = Some h /\ d_format d = Some (b, w, h)) /\
  (format_lines toks = [] -> d_format d = None).
Proof.
  intros H E. destruct (parse_file_cases f p t toks H)
    as [(es & d' & W & F & E' & P & V & Fm & _)|(_ & e & E' & _)]; [|congruence].
  assert (d' = d) by congruence. subst. split; auto. rewrite Fm. unfold format_from.
  destruct W as (_ & W2 & W3 & _).
  destruct (format_lines toks) as [|l0 [|l1 ls]]; simpl in W2; try lia.
  - split; auto. intros l [].
  - split; [|discriminate]. intros l [<-|[]].
    inversion W3 as [|? ? (_ & (b & Hb) & (w & Hw) & (h & Hh)) _]; subst.
    exists b, w, h. rewrite Hb, Hw, Hh. auto.
Qed.

Lemma accept_iff f p t toks :
  text_content t toks ->
  ((exists d, parse_file f p (Some t) = Ok d) <-> well_formed (base_dir f p) toks).
Proof.
  intro H. destruct (parse_file_cases f p t toks H)
    as [(es & d' & W & F & E' & _)|(W & e & E' & _)]; split; intro X; eauto.
  - destruct X; congruence.
  - contradiction.
Qed.

Lemma reject_class f p t toks e :
  text_content t toks -> parse_file f p (Some t) = Err e ->
  e = SyntaxError \/ (e = ValueError /\ bad_number toks).
Proof.
  intros H E. destruct (parse_file_cases f p t toks H)
    as [(es & d' & W & F & E' & _)|(W & e' & E' & C)]; [congruence|].
  assert (e = e') by congruence. subst. exact C.
Qed.

Lemma same_content f p t1 t2 toks :
  text_content t1 toks -> text_content t2 toks ->
  parse_file f p (Some t1) = parse_file f p (Some t2).
Proof.
  intros H1 H2. rewrite (parse_file_tokens f p t1 toks H1).
  rewrite (parse_file_tokens f p t2 toks H2). reflexivity.
Qed.

Lemma text_content_unique t toks toks' :
  text_content t toks -> text_content t toks' -> toks = toks'.
Proof.
  intros H H'. apply text_content_tokens in H, H'. congruence.
Qed.

(** ** Kinds and clashes *)

Lemma Forall2_perm_forall {A B} (R : A -> B -> Prop) (P : B -> Prop) l l' l'' :
  Forall2 R l l' -> Permutation l'' l' ->
  (forall a b, In a l -> R a b -> P b) -> Forall P l''.
Proof.
  intros H Hp Hi. rewrite Forall_forall. intros x Hx.
  apply (Permutation_in _ Hp) in Hx.
  clear Hp. induction H as [|a b l l' Hab H IH]; [contradiction|]. destruct Hx as [<-|Hx].
  - apply (Hi a); auto. left; auto.
  - apply IH; auto. intros a' b' Ha'. apply Hi. right; auto.
Qed.

Lemma entry_kinds f p t toks d :
  text_content t toks -> parse_file f p (Some t) = Ok d ->
  Forall (fun x => 2 <= length (e_files x) /\
                   (e_kind x = Temporal <-> length (e_files x) = 2) /\
                   (e_kind x = Spatial <-> 2 < length (e_files x))) (entries d).
Proof.
  intros H E. destruct (parse_file_cases f p t toks H)
    as [(es & d' & W & F & E' & P & _)|(_ & e & E' & _)]; [|congruence].
  assert (d' = d) by congruence. subst.
  eapply Forall2_perm_forall; [exact F|exact P|].
  intros (h, imgs) x Hin (_ & _ & _ & Hf & Hk).
  destruct W as (_ & _ & _ & W & _). rewrite Forall_forall in W.
  destruct (W _ Hin) as (_ & Hn & _). simpl in Hn.
  rewrite Hf, map_length, Hk. split; auto.
  destruct (length imgs =? 2) eqn:En; [apply Nat.eqb_eq in En|apply Nat.eqb_neq in En];
    split; split; intro X; try discriminate; auto; unfold str in *; try lia; exfalso; lia.
Qed.

Lemma FOP_perm {A} (R : A -> A -> Prop) l l' :
  (forall x y, R x y -> R y x) ->
  Permutation l l' -> ForallOrdPairs R l -> ForallOrdPairs R l'.
Proof.
  intros Hs. induction 1; intro H'.
  - constructor.
  - inversion H'; subst. constructor; auto. eapply Permutation_Forall; eauto.
  - inversion H' as [|? ? H1 H2]; subst. inversion H1; subst. inversion H2; subst.
    constructor.
    + constructor; auto.
    + constructor; auto.
  - auto.
Qed.

Lemma nclash_sym x y : ~ clash x y -> ~ clash y x.
Proof. intros H C. apply H, clash_sym, C. Qed.

Lemma entries_distinct f p t toks d :
  text_content t toks -> parse_file f p (Some t) = Ok d ->
  ForallOrdPairs (fun x y => ~ clash x y) (entries d).
Proof.
  intros H E. destruct (parse_file_cases f p t toks H)
    as [(es & d' & W & F & E' & P & _)|(_ & e & E' & _)]; [|congruence].
  assert (d' = d) by congruence. subst.
  destruct W as (_ & _ & _ & _ & W).
  eapply FOP_perm; [apply nclash_sym|symmetry; exact P|]. auto.
Qed.

Lemma FOP_mid {A} (R : A -> A -> Prop) l1 x l2 y l3 :
  ForallOrdPairs R (l1 ++ x :: l2 ++ y :: l3) -> R x y.
Proof.
  induction l1 as [|a l1 IH]; simpl; intro H; inversion H; subst; auto.
  rewrite Forall_forall in H2. apply H2. apply in_or_app. right. left. reflexivity.
Qed.

Lemma duplicate_rejected f p t toks es1 x es2 y es3 :
  text_content t toks ->
  Forall2 (block_denotes (base_dir f p)) (blocks toks) (es1 ++ x :: es2 ++ y :: es3) ->
  clash x y -> ~ bad_number toks ->
  parse_file f p (Some t) = Err SyntaxError.
Proof.
  intros H D C B. destruct (parse_file_cases f p t toks H)
    as [(es & d' & W & _)|(_ & e & E' & Hc)].
  - exfalso. destruct W as (_ & _ & _ & _ & W). apply W in D. apply FOP_mid in D. auto.
  - destruct Hc as [->|(_ & F)]; [exact E'|contradiction].
Qed.

Lemma few_images_rejected f p t toks h imgs :
  text_content t toks -> In (h, imgs) (blocks toks) -> length imgs < 2 ->
  exists e, parse_file f p (Some t) = Err e.
Proof.
  intros H I L. destruct (parse_file_cases f p t toks H)
    as [(es & d' & W & _)|(_ & e & E' & Hc)]; [|eauto].
  exfalso. destruct W as (_ & _ & _ & W & _). rewrite Forall_forall in W.
  destruct (W _ I) as (_ & F & _). simpl in F. lia.
Qed.

(** ** Decimal comma *)

Lemma comma_cmd l l' : comma_variant l l' -> cmd l = cmd l' /\ length l = length l'.
Proof. intros [->|(_ & H & C & _)]; auto. Qed.

Lemma comma_nonheader l l' :
  comma_variant l l' -> is_header l = false -> l = l'.
Proof. intros [->|(H & _)]; auto. congruence. Qed.

Lemma comma_number l l' i :
  comma_variant l l' -> is_header l = true -> 1 <= i ->
  number_of (nth i l []) = number_of (nth i l' []).
Proof.
  intros [->|(H & _ & _ & F)] _ Hi; auto. unfold number_of.
  destruct i as [|i]; [lia|].
  destruct l as [|a l], l' as [|a' l']; simpl in *; auto.
  - inversion F; subst. destruct i; reflexivity.
  - inversion F; subst. destruct i; reflexivity.
  - clear H. revert i Hi. induction F as [|w w' l l' Hw F IH]; intros [|i] Hi; simpl; auto.
    + congruence.
    + apply IH. lia.
Qed.

Lemma comma_run toks toks' :
  Forall2 comma_variant toks toks' ->
  image_run toks = image_run toks' /\ Forall2 comma_variant (after_run toks) (after_run toks').
Proof.
  induction 1 as [|l l' toks toks' Hl H (IH1 & IH2)]; simpl; auto.
  assert (E : is_image l = is_image l').
  { unfold is_image. destruct (comma_cmd _ _ Hl) as (-> & _). reflexivity. }
  rewrite <- E. destruct (is_image l) eqn:Ei.
  - split; auto. rewrite (comma_nonheader l l' Hl) by (apply image_not_header; auto).
    congruence.
  - split; auto.
Qed.

Lemma comma_next toks toks' :
  Forall2 comma_variant toks toks' -> next_ok toks = next_ok toks'.
Proof.
  intro H. inversion H; subst; auto. simpl. unfold tcheck.
  destruct (comma_cmd _ _ H0) as (_ & ->). reflexivity.
Qed.

Lemma comma_gif path toks toks' acc :
  Forall2 comma_variant toks toks' ->
  match gif_t path acc toks, gif_t path acc toks' with
  | Ok (fn, r), Ok (fn', r') => fn = fn' /\ Forall2 comma_variant r r'
  | Err e, Err e' => e = e'
  | _, _ => False
  end.
Proof.
  intro H. rewrite !gif_t_spec. destruct (comma_run _ _ H) as (H1 & H2).
  rewrite <- H1, <- (comma_next _ _ H2). destruct (_ && _); auto.
Qed.

Lemma comma_step path l l' rest rest' d :
  comma_variant l l' -> Forall2 comma_variant rest rest' ->
  match step_t path l rest d, step_t path l' rest' d with
  | Ok (d1, r), Ok (d2, r') => d1 = d2 /\ Forall2 comma_variant r r'
  | Err e, Err e' => e = e'
  | _, _ => False
  end.
Proof.
  intros Hl Hr. destruct (comma_cmd _ _ Hl) as (Hc & Hn).
  unfold step_t. change (field 0 l) with (cmd l). change (field 0 l') with (cmd l').
  rewrite <- Hc, <- Hn.
  destruct (str_eqb (cmd l) (lit "v")) eqn:Ev.
  { rewrite (comma_nonheader l l' Hl); auto.
    apply str_eqb_eq in Ev. unfold is_header. rewrite Ev. reflexivity. }
  destruct (str_eqb (cmd l) (lit "n")) eqn:En.
  { rewrite (comma_nonheader l l' Hl).
    2:{ apply str_eqb_eq in En. unfold is_header. rewrite En. reflexivity. }
    destruct (negb _); auto. destruct (d_format d); auto.
    destruct (read_int _); simpl; auto. destruct (read_int _); simpl; auto.
    destruct (read_int _); simpl; auto. }
  assert (G : forall e p,
    match (' (fn, rest') <- gif_t path [] rest;;
           d' <- add_pcount e p fn d;; Ok (d', rest')),
          (' (fn, rest') <- gif_t path [] rest';;
           d' <- add_pcount e p fn d;; Ok (d', rest')) with
    | Ok (d1, r), Ok (d2, r') => d1 = d2 /\ Forall2 comma_variant r r'
    | Err e, Err e' => e = e'
    | _, _ => False
    end).
  { intros e p. pose proof (comma_gif path rest rest' [] Hr) as H.
    destruct (gif_t path [] rest) as [[fn r]|e1], (gif_t path [] rest') as [[fn' r']|e2];
      simpl in *; try contradiction; auto.
    destruct H as (<- & H). destruct (add_pcount e p fn d); simpl; auto. }
  destruct (str_eqb (cmd l) (lit "b")) eqn:Eb.
  { assert (Hh : is_header l = true) by (unfold is_header; rewrite Eb; reflexivity).
    destruct (negb _); auto. rewrite !read_float_number. unfold field.
    rewrite <- !(comma_number l l') by (auto; lia).
    destruct (number_of (nth 1 l [])); simpl; auto.
    destruct (number_of (nth 2 l [])); simpl; auto. apply G. }
  destruct (str_eqb (cmd l) (lit "d")) eqn:Ed.
  { assert (Hh : is_header l = true)
      by (unfold is_header; rewrite Ed; apply orb_true_r).
    destruct (negb _); auto. rewrite !read_float_number. unfold field.
    rewrite <- !(comma_number l l') by (auto; lia).
    destruct (number_of (nth 1 l [])); simpl; auto. apply G. }
  auto.
Qed.

Lemma comma_fill path fuel toks toks' d :
  Forall2 comma_variant toks toks' ->
  fill_t fuel path toks d = fill_t fuel path toks' d.
Proof.
  revert toks toks' d. induction fuel as [|fuel IH]; intros toks toks' d H;
    inversion H as [|l l' rest rest' Hl Hr]; subst; auto.
  simpl. unfold tcheck. destruct (comma_cmd _ _ Hl) as (_ & Hn). rewrite <- Hn.
  destruct (negb _); auto.
  pose proof (comma_step path l l' rest rest' d Hl Hr) as G.
  destruct (step_t path l rest d) as [[d1 r]|e], (step_t path l' rest' d) as [[d2 r']|e'];
    simpl; try contradiction; try congruence.
  destruct G as (-> & G). auto.
Qed.

Lemma Forall2_len {A B} (R : A -> B -> Prop) l l' : Forall2 R l l' -> length l = length l'.
Proof. induction 1; simpl; congruence. Qed.

Lemma comma_parse f p t t' toks toks' :
  text_content t toks -> text_content t' toks' -> Forall2 comma_variant toks toks' ->
  parse_file f p (Some t) = parse_file f p (Some t').
Proof.
  intros H H' C. rewrite (parse_file_tokens f p t toks H).
  rewrite (parse_file_tokens f p t' toks' H'). unfold parse_t.
  rewrite (Forall2_len _ _ _ C). apply comma_fill; auto.
Qed.

(** ** Block order *)

Lemma image_run_all imgs rest :
  Forall (fun i => is_image i = true) imgs ->
  match rest with [] => True | l :: _ => is_image l = false end ->
  image_run (imgs ++ rest) = imgs.
Proof.
  intros H Hr. induction H as [|i imgs Hi H IH]; simpl.
  - destruct rest; auto. simpl. rewrite Hr. reflexivity.
  - rewrite Hi. congruence.
Qed.

Lemma header_not_image l : is_header l = true -> is_image l = false.
Proof.
  intro H. destruct (is_image l) eqn:E; auto. apply image_not_header in E. congruence.
Qed.

Lemma render_head bs :
  Forall is_block bs ->
  match render_blocks bs with [] => True | l :: _ => is_image l = false end.
Proof.
  intro H. destruct H as [|(h, imgs) bs (Hh & _) H]; simpl; auto.
  apply header_not_image; auto.
Qed.

Lemma blocks_skip_images imgs rest :
  Forall (fun i => is_image i = true) imgs -> blocks (imgs ++ rest) = blocks rest.
Proof.
  induction 1 as [|i imgs Hi H IH]; simpl; auto.
  rewrite (image_not_header i Hi). exact IH.
Qed.

Lemma blocks_render bs : Forall is_block bs -> blocks (render_blocks bs) = bs.
Proof.
  induction 1 as [|(h, imgs) bs (Hh & Hi) H IH]; simpl; auto.
  simpl in Hh, Hi. rewrite Hh. rewrite blocks_skip_images by auto.
  fold (render_blocks bs). rewrite IH. f_equal. f_equal.
  apply image_run_all; auto. apply render_head; auto.
Qed.

Lemma blocks_pre pre rest :
  Forall (fun l => is_header l = false) pre -> blocks (pre ++ rest) = blocks rest.
Proof. induction 1 as [|l pre Hl H IH]; simpl; auto. rewrite Hl. exact IH. Qed.

Lemma format_lines_app a b : format_lines (a ++ b) = format_lines a ++ format_lines b.
Proof. apply filter_app. Qed.

Lemma format_lines_render bs : Forall is_block bs -> format_lines (render_blocks bs) = [].
Proof.
  induction 1 as [|(h, imgs) bs (Hh & Hi) H IH]; auto. simpl in Hh, Hi.
  unfold render_blocks. simpl. fold (render_blocks bs).
  change (h :: imgs ++ render_blocks bs) with ((h :: imgs) ++ render_blocks bs).
  rewrite format_lines_app, IH, app_nil_r. unfold format_lines. simpl.
  assert (Ei : filter (fun l => str_eqb (cmd l) (lit "n")) imgs = []).
  { clear H IH. induction Hi as [|i imgs Hi Hi' IH]; simpl; auto.
    unfold is_image in Hi. apply str_eqb_eq in Hi. rewrite Hi. exact IH. }
  rewrite Ei. unfold is_header in Hh. apply orb_true_iff in Hh.
  destruct Hh as [Hh|Hh]; apply str_eqb_eq in Hh; rewrite Hh; reflexivity.
Qed.

Lemma version_app v a b : version_from v (a ++ b) = version_from (version_from v a) b.
Proof. apply fold_left_app. Qed.

Lemma version_render v bs : Forall is_block bs -> version_from v (render_blocks bs) = v.
Proof.
  intro H. revert v. induction H as [|(h, imgs) bs (Hh & Hi) H IH]; intro v; auto.
  simpl in Hh, Hi. unfold render_blocks. simpl. fold (render_blocks bs).
  change (h :: imgs ++ render_blocks bs) with ([h] ++ imgs ++ render_blocks bs).
  rewrite !version_app, IH.
  assert (Ei : forall v, version_from v imgs = v).
  { clear H IH. induction Hi as [|i imgs Hi Hi' IH]; intro v'; simpl; auto.
    unfold version_from. simpl. unfold is_image in Hi. apply str_eqb_eq in Hi. rewrite Hi.
    apply IH. }
  rewrite Ei. unfold version_from. simpl. unfold is_header in Hh. apply orb_true_iff in Hh.
  destruct Hh as [Hh|Hh]; apply str_eqb_eq in Hh; rewrite Hh; reflexivity.
Qed.

Lemma Forall2_perm {A B} (R : A -> B -> Prop) l l' m :
  Permutation l l' -> Forall2 R l m -> exists m', Forall2 R l' m' /\ Permutation m m'.
Proof.
  intro P. revert m. induction P; intros m H.
  - inversion H; subst. exists []. auto.
  - inversion H as [|? y ? m1 Hy Hm]; subst. destruct (IHP _ Hm) as (m' & Q1 & Q2).
    exists (y :: m'). split; constructor; auto.
  - inversion H as [|? a ? m1 Ha Hm]; subst. inversion Hm as [|? b ? m2 Hb Hm2]; subst.
    exists (b :: a :: m2). split; [constructor; auto|]. apply perm_swap.
  - destruct (IHP1 _ H) as (m1 & H1 & H2). destruct (IHP2 _ H1) as (m2 & H3 & H4).
    exists m2. split; auto. eapply Permutation_trans; eauto.
Qed.

Lemma block_order f p pre bs bs' t t' d :
  Forall (fun l => is_header l = false) pre ->
  Forall is_block bs -> Permutation bs bs' ->
  text_content t (pre ++ render_blocks bs) ->
  text_content t' (pre ++ render_blocks bs') ->
  parse_file f p (Some t) = Ok d ->
  exists d', parse_file f p (Some t') = Ok d' /\ Permutation (entries d) (entries d') /\
    d_version d' = d_version d /\ d_format d' = d_format d.
Proof.
  intros Hpre Hb P H H' E.
  assert (Hb' : Forall is_block bs') by (eapply Permutation_Forall; eauto).
  set (dir := base_dir f p).
  assert (Bl : blocks (pre ++ render_blocks bs) = bs)
    by (rewrite blocks_pre, blocks_render; auto).
  assert (Bl' : blocks (pre ++ render_blocks bs') = bs')
    by (rewrite blocks_pre, blocks_render; auto).
  assert (Fl : format_lines (pre ++ render_blocks bs') = format_lines (pre ++ render_blocks bs))
    by (rewrite !format_lines_app, !format_lines_render; auto).
  destruct (parse_file_cases f p t _ H)
    as [(es & d0 & W & F & E0 & P0 & V0 & Fm0 & _)|(_ & e & E' & _)]; [|congruence].
  assert (d0 = d) by congruence. subst d0.
  destruct (parse_file_cases f p t' _ H')
    as [(es' & d' & W' & F' & E' & P' & V' & Fm' & _)|(W' & e & E' & _)].
  - exists d'. split; auto. split; [|split].
    + rewrite Bl in F. rewrite Bl' in F'.
      destruct (Forall2_perm _ _ _ _ P F) as (m' & M1 & M2).
      assert (m' = es').
      { eapply denotes_unique; [|exact M1|exact F'].
        eapply Forall_impl; [|exact Hb']. intros a (Ha & _). exact Ha. }
      subst m'. eapply Permutation_trans; [exact P0|].
      eapply Permutation_trans; [exact M2|]. symmetry; auto.
    + rewrite V0, V'. unfold version_of.
      change (version_from None (pre ++ render_blocks bs') =
              version_from None (pre ++ render_blocks bs)).
      rewrite !version_app, !version_render; auto.
    + rewrite Fm0, Fm'. unfold format_from. rewrite Fl. reflexivity.
  - exfalso. apply W'. destruct W as (W1 & W2 & W3 & W4 & W5).
    unfold well_formed. rewrite Fl, Bl'. rewrite Bl in W4, W5.
    split; [|split; [auto|split; [auto|split]]].
    + rewrite Forall_app in *. split; [apply W1|]. destruct W1 as (_ & W1).
      unfold render_blocks in *. rewrite Forall_flat_map in *.
      eapply Permutation_Forall; [exact P|exact W1].
    + eapply Permutation_Forall; eauto.
    + intros es' Hes'. destruct (Forall2_perm _ _ _ _ (Permutation_sym P) Hes')
        as (m & M1 & M2).
      eapply FOP_perm; [apply nclash_sym|symmetry; exact M2|]. apply W5; auto.
Qed.

(** ** Stray image lines *)

(** Invariant: scanning from a point where [open] says whether image lines belong
    to a block. *)
Lemma stray_main toks (opn : bool) :
  (forall a l b, toks = a ++ l :: b -> is_image l = true ->
     (a = [] /\ opn = true) \/
     exists a' y, a = a' ++ [y] /\ (is_header y = true \/ is_image y = true)) ->
  forall l, In l toks -> is_image l = true ->
  (opn = true /\ In l (image_run toks)) \/
  exists h imgs, In (h, imgs) (blocks toks) /\ In l imgs.
Proof.
  revert opn; induction toks as [|x toks IH]; intros opn H l Hin Hl; [contradiction|].
  destruct (is_header x) eqn:Hx.
  - assert (Hxi := header_not_image x Hx).
    destruct Hin as [<-|Hin]; [congruence|].
    destruct (IH true) with (l := l) as [(_ & Hr)|(h & imgs & H1 & H2)]; auto.
    + intros a l' b E Hl'. destruct (H (x :: a) l' b) as [(F & _)|(a' & y & Ea & Hy)]; auto.
      { rewrite E; reflexivity. } { discriminate. }
      destruct a' as [|z a']; simpl in Ea; injection Ea as -> ->; [left; auto|right; eauto].
    + right. exists x, (image_run toks). simpl. rewrite Hx. split; [left; auto|auto].
    + right. exists h, imgs. simpl. rewrite Hx. split; [right; auto|auto].
  - destruct (is_image x) eqn:Hxi.
    + (* an image line: must be open *)
      assert (Ho : opn = true).
      { destruct (H [] x toks) as [(_ & Ho)|(a' & y & Ea & _)]; auto.
        destruct a'; discriminate. }
      simpl. rewrite Hxi, Hx. destruct Hin as [<-|Hin]; [left; split; auto; left; auto|].
      destruct (IH true) with (l := l) as [(_ & Hr)|G]; auto.
      * intros a l' b E Hl'. destruct (H (x :: a) l' b) as [(F & _)|(a' & y & Ea & Hy)]; auto.
        { rewrite E; reflexivity. } { discriminate. }
        destruct a' as [|z a']; simpl in Ea; injection Ea as -> ->; [left; auto|right; eauto].
      * left. split; auto. right; auto.
    + simpl. rewrite Hx, Hxi. destruct Hin as [<-|Hin]; [congruence|].
      destruct (IH false) with (l := l) as [(F & _)|G]; auto; [|discriminate].
      intros a l' b E Hl'. destruct (H (x :: a) l' b) as [(F & _)|(a' & y & Ea & Hy)]; auto.
      { rewrite E; reflexivity. } { discriminate. }
      destruct a' as [|z a']; simpl in Ea; injection Ea as -> ->;
        [destruct Hy; congruence|right; eauto].
Qed.

Lemma no_stray_in_block toks l :
  no_stray toks -> In l toks -> is_image l = true ->
  exists h imgs, In (h, imgs) (blocks toks) /\ In l imgs.
Proof.
  intros H Hin Hl. destruct (stray_main toks false) with (l := l) as [(F & _)|G]; auto.
  - intros a l' b E Hl'. right. apply (H a l' b); auto.
  - discriminate.
Qed.

Lemma Forall2_in_l {A B} (R : A -> B -> Prop) l l' a :
  Forall2 R l l' -> In a l -> exists b, In b l' /\ R a b.
Proof.
  induction 1 as [|x y l l' Hxy H IH]; intros []; subst.
  - exists y. split; [left; auto|auto].
  - destruct IH as (b & H1 & H2); auto. exists b. split; [right; auto|auto].
Qed.

Lemma image_kept f p t toks d l :
  text_content t toks -> parse_file f p (Some t) = Ok d ->
  no_stray toks -> In l toks -> is_image l = true ->
  exists x, In x (entries d) /\ In (image_path (base_dir f p) (nth 1 l [])) (e_files x).
Proof.
  intros H E Hs Hin Hl. destruct (no_stray_in_block toks l Hs Hin Hl) as (h & imgs & H1 & H2).
  destruct (blocks_to_entries f p t toks d H E) as (es & F & P).
  destruct (Forall2_in_l _ _ _ _ F H1) as (x & Hx & (_ & _ & _ & Hf & _)).
  exists x. split.
  - eapply Permutation_in; [symmetry; exact P|exact Hx].
  - rewrite Hf. apply in_map_iff. exists l. auto.
Qed.

(** The content of a concrete text, for the examples. *)
Lemma text_content_compute t : text_content t (map split_ws (load_lines t)).
Proof.
  destruct (text_content_exists t) as (toks & H).
  rewrite (text_content_tokens t toks H). exact H.
Qed.

Lemma content_app a b ta tb : content a ta -> content b tb -> content (a ++ b) (ta ++ tb).
Proof.
  induction 1; simpl; intro Hb; auto.
  - apply ct_skip; auto.
  - apply ct_line; auto.
Qed.

Lemma insert_comment f p t1 t2 a b c :
  comment_or_blank c ->
  text_lines t1 (a ++ b) -> text_lines t2 (a ++ c :: b) ->
  parse_file f p (Some t1) = parse_file f p (Some t2).
Proof.
  intros Hc H1 H2. destruct (content_exists a) as (ta & Ha).
  destruct (content_exists b) as (tb & Hb).
  apply (same_content f p t1 t2 (ta ++ tb)).
  - exists (a ++ b). split; auto. apply content_app; auto.
  - exists (a ++ c :: b). split; auto. apply content_app; auto. apply ct_skip; auto.
Qed.

Fixpoint no_stray_b (prev : bool) (toks : list (list str)) : bool :=
  match toks with
  | [] => true
  | l :: ls => (prev || negb (is_image l)) && no_stray_b (is_header l || is_image l) ls
  end.

Lemma no_stray_check_aux toks prev :
  no_stray_b prev toks = true ->
  forall a l b, toks = a ++ l :: b -> is_image l = true ->
  (a = [] /\ prev = true) \/
  exists a' x, a = a' ++ [x] /\ (is_header x = true \/ is_image x = true).
Proof.
  revert prev. induction toks as [|x toks IH]; intros prev H a l b E Hl.
  - destruct a; discriminate.
  - simpl in H. apply andb_true_iff in H. destruct H as (H1 & H2).
    destruct a as [|y a]; simpl in E; injection E as -> ->.
    + left. split; auto. rewrite Hl in H1. rewrite orb_false_r in H1. exact H1.
    + right. destruct (IH _ H2 a l b eq_refl Hl) as [(-> & F)|(a' & z & -> & Hz)].
      * exists [], y. split; auto. apply orb_true_iff; auto.
      * exists (y :: a'), z. split; auto.
Qed.

Lemma no_stray_check toks : no_stray_b false toks = true -> no_stray toks.
Proof.
  intros H a l b E Hl. destruct (no_stray_check_aux toks false H a l b E Hl) as [(_ & F)|G];
    [discriminate|exact G].
Qed.

Lemma stray_dropped :
  exists f p t toks d l, text_content t toks /\ parse_file f p (Some t) = Ok d /\
    In l toks /\ is_image l = true /\
    forall x, In x (entries d) -> ~ In (image_path (base_dir f p) (nth 1 l [])) (e_files x).
Proof.
  pose (t := lit "b 1 2
i a.png
i b.png
v 4.0
i c.png
").
  exists (lit "d.txt"), None, t, (map split_ws (load_lines t)).
  eexists. exists [lit "i"; lit "c.png"].
  split; [apply text_content_compute|].
  split; [vm_compute; reflexivity|].
  split; [vm_compute; tauto|].
  split; [reflexivity|].
  intros x Hx. vm_compute in Hx. destruct Hx as [<-|[]].
  vm_compute. intros [F|[F|[]]]; discriminate.
Qed.
