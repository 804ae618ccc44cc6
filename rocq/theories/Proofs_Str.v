(** Facts about the Python string functions. *)
From Coq Require Import Ascii String List Bool Arith ZArith Lia.
From Verif Require Import Base_Prelude Base_Str Base_Num Model_Path Model_Parser Spec_Parser.
Import ListNotations.
Open Scope nat_scope.

Lemma lstrip_blank_app b s : blank b -> lstrip (b ++ s) = lstrip s.
Proof.
  induction 1 as [|c b Hc Hb IH]; simpl; auto. rewrite Hc. exact IH.
Qed.

Lemma blank_rev b : blank b -> blank (rev b).
Proof. unfold blank. apply Forall_rev. Qed.

Lemma lstrip_blank b : blank b -> lstrip b = [].
Proof. intro H. rewrite <- (app_nil_r b), lstrip_blank_app; auto. Qed.

Lemma rstrip_nil : rstrip [] = [].
Proof. reflexivity. Qed.

Lemma strip_blank b : blank b -> strip b = [].
Proof. intro H. unfold strip. rewrite lstrip_blank; auto. Qed.

Lemma lstrip_nonspace c s : is_space c = false -> lstrip (c :: s) = c :: s.
Proof. intro H. simpl. rewrite H. reflexivity. Qed.

Lemma lstrip_app_nonspace s c : is_space c = false -> exists s', lstrip (s ++ [c]) = s' ++ [c].
Proof.
  intro H. induction s as [|x s IH]; simpl.
  - rewrite H. exists []. reflexivity.
  - destruct (is_space x); auto. exists (x :: s). reflexivity.
Qed.

Lemma rstrip_cons c s : is_space c = false -> exists s', rstrip (c :: s) = c :: s'.
Proof.
  intro H. unfold rstrip. simpl.
  destruct (lstrip_app_nonspace (rev s) c H) as (s' & E). rewrite E.
  rewrite rev_app_distr. simpl. eauto.
Qed.

Lemma strip_nonblank b c s :
  blank b -> is_space c = false -> exists s', strip (b ++ c :: s) = c :: s'.
Proof.
  intros Hb Hc. unfold strip. rewrite lstrip_blank_app by auto.
  rewrite lstrip_nonspace by auto. apply rstrip_cons; auto.
Qed.

Lemma rstrip_split s : exists b, blank b /\ s = rstrip s ++ b.
Proof.
  unfold rstrip.
  assert (G : forall t, exists b, blank b /\ t = b ++ lstrip t).
  { induction t as [|c t (b & Hb & E)].
    - exists []. split; constructor.
    - simpl. destruct (is_space c) eqn:Hc.
      + exists (c :: b). split; [constructor; auto|]. simpl. congruence.
      + exists []. split; [constructor|reflexivity]. }
  destruct (G (rev s)) as (b & Hb & E).
  exists (rev b). split; [apply blank_rev; auto|].
  rewrite <- rev_app_distr, <- E, rev_involutive. reflexivity.
Qed.

(** ** split() *)

Lemma split_ws_aux_blank cur b :
  blank b -> split_ws_aux cur b = match cur with [] => [] | _ => [rev cur] end.
Proof.
  intro H. revert cur. induction H as [|c b Hc Hb IH]; intro cur; simpl; auto.
  rewrite Hc. destruct cur; rewrite IH; reflexivity.
Qed.

Lemma split_ws_aux_app_blank s b cur :
  blank b -> split_ws_aux cur (s ++ b) = split_ws_aux cur s.
Proof.
  intro H. revert cur. induction s as [|c s IH]; intro cur; simpl.
  - apply split_ws_aux_blank; auto.
  - destruct (is_space c); [destruct cur|]; rewrite IH; reflexivity.
Qed.

Lemma split_ws_blank_app b s : blank b -> split_ws (b ++ s) = split_ws s.
Proof.
  induction 1 as [|c b Hc Hb IH]; auto.
  unfold split_ws in *. simpl. rewrite Hc. exact IH.
Qed.

Lemma split_ws_lstrip s : split_ws (lstrip s) = split_ws s.
Proof.
  induction s as [|c s IH]; simpl; auto.
  destruct (is_space c) eqn:Hc; auto.
  rewrite IH. unfold split_ws. simpl. rewrite Hc. reflexivity.
Qed.

Lemma split_ws_strip s : split_ws (strip s) = split_ws s.
Proof.
  unfold strip. rewrite <- (split_ws_lstrip s).
  destruct (rstrip_split (lstrip s)) as (b & Hb & E).
  rewrite E at 2. unfold split_ws. rewrite split_ws_aux_app_blank; auto.
Qed.

Lemma split_ws_aux_word w s cur :
  Forall (fun c => is_space c = false) w ->
  split_ws_aux cur (w ++ s) = split_ws_aux (rev w ++ cur) s.
Proof.
  intro H. revert cur. induction H as [|c w Hc Hw IH]; intro cur; simpl; auto.
  rewrite Hc, IH, <- app_assoc. reflexivity.
Qed.

Lemma rev_nonempty {A} (w : list A) : w <> [] -> rev w <> [].
Proof. destruct w; simpl; [congruence|]. intros _. destruct (rev w); discriminate. Qed.

Lemma split_ws_word_blank w b s :
  is_word w -> blank b -> b <> [] -> split_ws (w ++ b ++ s) = w :: split_ws s.
Proof.
  intros (Hne & Hw) Hb Hbne. unfold split_ws at 1.
  rewrite split_ws_aux_word by auto. rewrite app_nil_r.
  destruct b as [|c b]; [congruence|]. inversion Hb as [|? ? Hc Hb']; subst.
  simpl. rewrite Hc. destruct (rev w) eqn:E; [exfalso; apply (rev_nonempty w); auto|].
  rewrite <- E, rev_involutive. f_equal. apply split_ws_blank_app; auto.
Qed.

Lemma spaced_split ws l : spaced ws l -> split_ws l = ws.
Proof.
  induction 1 as [b Hb|b1 w b2 H1 Hw H2|b1 w b2 w2 ws l H1 Hw H2 Hne Hs IH].
  - unfold split_ws. rewrite split_ws_aux_blank; auto.
  - rewrite split_ws_blank_app by auto. unfold split_ws.
    rewrite app_assoc_reverse with (l := w) (m := b2) (n := []) || idtac.
    rewrite split_ws_aux_word by apply Hw. rewrite app_nil_r.
    rewrite split_ws_aux_blank by auto.
    destruct (rev w) eqn:E; [exfalso; destruct Hw; apply (rev_nonempty w); auto|].
    rewrite <- E, rev_involutive. reflexivity.
  - rewrite split_ws_blank_app by auto. rewrite split_ws_word_blank by auto.
    rewrite IH. reflexivity.
Qed.

Lemma strip_word w : is_word w -> strip w = w.
Proof.
  intros (Hne & Hw). destruct w as [|c w]; [congruence|].
  inversion Hw as [|? ? Hc Hw']; subst.
  unfold strip. rewrite lstrip_nonspace by auto. unfold rstrip.
  destruct (rev (c :: w)) as [|x r] eqn:E; [exfalso; apply (rev_nonempty (c :: w)); auto|].
  assert (Hx : is_space x = false).
  { assert (In x (rev (c :: w))) by (rewrite E; left; reflexivity).
    apply in_rev in H. rewrite Forall_forall in Hw. auto. }
  rewrite lstrip_nonspace by auto. rewrite <- E, rev_involutive. reflexivity.
Qed.

Lemma split_ws_aux_words cur s :
  Forall (fun c => is_space c = false) cur ->
  Forall is_word (split_ws_aux cur s).
Proof.
  revert cur; induction s as [|c s IH]; intros cur Hcur; simpl.
  - destruct cur as [|x cur]; constructor; [|constructor].
    split; [apply rev_nonempty; discriminate|]. apply Forall_rev; auto.
  - destruct (is_space c) eqn:Hc.
    + destruct cur as [|x cur]; [apply IH; auto|].
      constructor; [|apply IH; constructor].
      split; [apply rev_nonempty; discriminate|]. apply Forall_rev; auto.
    + apply IH. constructor; auto.
Qed.

Lemma split_ws_words s : Forall is_word (split_ws s).
Proof. apply split_ws_aux_words. constructor. Qed.

Lemma map_strip_words ws : Forall is_word ws -> map strip ws = ws.
Proof. induction 1; simpl; auto. rewrite strip_word by auto. congruence. Qed.

Lemma split_line_eq l :
  split_line l = if length (split_ws l) <? 2 then Err SyntaxError else Ok (split_ws l).
Proof. unfold split_line. rewrite map_strip_words by apply split_ws_words. reflexivity. Qed.

(** ** Lines *)

Lemma universal_newlines_app l s :
  no_eol l -> universal_newlines (l ++ s) = l ++ universal_newlines s.
Proof.
  induction l as [|c l IH]; intro H; simpl; auto.
  assert (Hc : chr_eqb c CR = false).
  { apply chr_eqb_neq. apply (H c). left; reflexivity. }
  rewrite Hc, IH; auto. intros x Hx. apply H. right; auto.
Qed.

Lemma split_on_app l s c :
  (forall x, In x l -> x <> c) ->
  split_on c (l ++ c :: s) = l :: split_on c s.
Proof.
  induction l as [|x l IH]; intro H; simpl.
  - rewrite chr_eqb_refl. reflexivity.
  - assert (Hx : chr_eqb x c = false) by (apply chr_eqb_neq, H; left; auto).
    rewrite Hx, IH; auto. intros y Hy. apply H. right; auto.
Qed.

Lemma split_on_none l c : (forall x, In x l -> x <> c) -> split_on c l = [l].
Proof.
  induction l as [|x l IH]; intro H; simpl; auto.
  assert (Hx : chr_eqb x c = false) by (apply chr_eqb_neq, H; left; auto).
  rewrite Hx, IH; auto. intros y Hy. apply H. right; auto.
Qed.

Lemma no_eol_nl l : no_eol l -> forall x, In x l -> x <> NL.
Proof. intros H x Hx. apply H; auto. Qed.

Lemma text_lines_readlines t ls : text_lines t ls -> readlines t = ls.
Proof.
  unfold readlines.
  induction 1 as [l H|l t ls H Ht IH|l t ls H Ht IH|l t ls H Ht IH Hnl].
  - rewrite <- (app_nil_r l), universal_newlines_app by auto. simpl.
    rewrite app_nil_r. apply split_on_none, no_eol_nl; auto.
  - rewrite universal_newlines_app by auto. simpl.
    rewrite split_on_app by (apply no_eol_nl; auto). f_equal. exact IH.
  - rewrite universal_newlines_app by auto. simpl.
    rewrite split_on_app by (apply no_eol_nl; auto). f_equal. exact IH.
  - rewrite universal_newlines_app by auto.
    assert (E : universal_newlines (CR :: t) = NL :: universal_newlines t).
    { simpl. destruct t as [|c t]; auto.
      assert (Hc : chr_eqb c NL = false).
      { apply chr_eqb_neq. intro; subst. apply Hnl. reflexivity. }
      rewrite Hc. reflexivity. }
    rewrite E, split_on_app by (apply no_eol_nl; auto). f_equal. exact IH.
Qed.

Lemma comment_dropped l : comment_or_blank l -> keep_line l = false.
Proof.
  unfold keep_line. intros [H|(b & r & Hb & ->)].
  - rewrite strip_blank; auto.
  - destruct (strip_nonblank b "#"%char r Hb eq_refl) as (s' & E). rewrite E. reflexivity.
Qed.

Lemma spaced_kept w ws l :
  spaced (w :: ws) l -> hd_error w <> Some "#"%char -> keep_line l = true.
Proof.
  intros H Hh. unfold keep_line.
  assert (G : exists b c s, blank b /\ is_space c = false /\ l = b ++ c :: s /\
                            hd_error w = Some c).
  { inversion H as [|b1 w' b2 H1 (Hne & Hw) H2|b1 w' b2 w2 ws' l' H1 (Hne & Hw) H2 H3 H4];
      subst; destruct w as [|c w]; try congruence; inversion Hw; subst; simpl.
    - exists b1, c, (w ++ b2). auto.
    - exists b1, c, (w ++ b2 ++ l'). auto. }
  destruct G as (b & c & s & Hb & Hc & -> & Hw).
  destruct (strip_nonblank b c s Hb Hc) as (s' & E). rewrite E.
  simpl. rewrite andb_true_r. apply negb_true_iff.
  destruct (chr_eqb "#" c) eqn:F; auto.
  apply chr_eqb_eq in F. subst. congruence.
Qed.

(** Every line is either skipped or has words. *)
Lemma line_cases l :
  comment_or_blank l \/
  exists w ws, spaced (w :: ws) l /\ hd_error w <> Some "#"%char.
Proof.
  assert (G : forall l, exists ws, spaced ws l).
  { clear l. intro l. remember (length l) as n eqn:Hn.
    revert l Hn. induction n as [n IH] using lt_wf_ind. intros l ->.
    (* strip leading blanks *)
    assert (P : forall (p : ascii -> bool) s, exists a b,
                 s = a ++ b /\ Forall (fun c => p c = true) a /\
                 match b with [] => True | c :: _ => p c = false end).
    { intros p s. induction s as [|c s (a & b & E & Ha & Hb)].
      - exists [], []. repeat split; constructor.
      - destruct (p c) eqn:Hc.
        + exists (c :: a), b. subst. repeat split; auto.
        + exists [], (c :: s). repeat split; auto. }
    destruct (P is_space l) as (b1 & r & -> & Hb1 & Hr).
    destruct r as [|c r].
    - exists []. rewrite app_nil_r. constructor. exact Hb1.
    - destruct (P (fun x => negb (is_space x)) (c :: r)) as (w & r2 & E & Hw & Hr2).
      assert (Hword : is_word w).
      { split.
        - destruct w; [|discriminate]. simpl in E. subst r2.
          rewrite Hr in Hr2. discriminate.
        - eapply Forall_impl; [|exact Hw]. simpl. intros a Ha.
          apply negb_true_iff in Ha. exact Ha. }
      destruct (P is_space r2) as (b2 & r3 & -> & Hb2 & Hr3).
      destruct r3 as [|c3 r3].
      + exists [w]. rewrite E, app_nil_r. constructor; auto.
      + destruct b2 as [|x b2].
        * simpl in Hr2. rewrite Hr3 in Hr2. discriminate.
        * destruct (IH (length (c3 :: r3))) with (l := c3 :: r3) as (ws & Hws); auto.
          { rewrite E. rewrite !app_length. simpl. lia. }
          destruct ws as [|w2 ws].
          { inversion Hws as [b Hb| |]; subst. inversion Hb; subst. congruence. }
          exists (w :: w2 :: ws). rewrite E. apply sp_cons; auto. discriminate. }
  destruct (G l) as (ws & H). destruct ws as [|w ws].
  - left. left. inversion H; auto.
  - destruct (hd_error w) as [c|] eqn:E; [destruct (ascii_dec c "#") as [->|Hc]|].
    + left. right.
      inversion H as [|b1 w' b2 H1 Hw H2|b1 w' b2 w2 ws' l' H1 Hw H2 H3 H4]; subst;
        destruct w as [|x w]; try discriminate; injection E as ->;
        exists b1; eexists; (split; [assumption|]); simpl; reflexivity.
    + right. exists w, ws. split; auto. congruence.
    + right. exists w, ws. split; auto. congruence.
Qed.

Lemma content_tokens ls toks :
  content ls toks -> map split_ws (map strip (filter keep_line ls)) = toks.
Proof.
  induction 1 as [|l ls toks Hl H IH|l w ws ls toks Hs Hh H IH]; simpl; auto.
  - rewrite comment_dropped by auto. exact IH.
  - rewrite (spaced_kept w ws l) by auto. simpl.
    rewrite split_ws_strip, (spaced_split _ _ Hs). congruence.
Qed.

Lemma content_exists ls : exists toks, content ls toks.
Proof.
  induction ls as [|l ls (toks & IH)]; [exists []; constructor|].
  destruct (line_cases l) as [H|(w & ws & Hs & Hh)].
  - exists toks. constructor; auto.
  - exists ((w :: ws) :: toks). apply ct_line; auto.
Qed.

Lemma text_content_tokens t toks :
  text_content t toks -> map split_ws (load_lines t) = toks.
Proof.
  intros (ls & H1 & H2). unfold load_lines.
  rewrite (text_lines_readlines _ _ H1). apply content_tokens; auto.
Qed.

(** Every text has lines, hence a content. *)
Lemma text_lines_exist t : exists ls, text_lines t ls.
Proof.
  remember (length t) as n eqn:Hn. revert t Hn.
  induction n as [n IH] using lt_wf_ind. intros t ->.
  assert (P : exists a b, t = a ++ b /\ no_eol a /\
               match b with [] => True | c :: _ => c = NL \/ c = CR end).
  { clear IH. induction t as [|c t (a & b & E & Ha & Hb)].
    - exists [], []. repeat split; auto; inversion H.
    - destruct (ascii_dec c NL) as [->|H1]; [|destruct (ascii_dec c CR) as [->|H2]].
      + exists [], (NL :: t). repeat split; auto; inversion H.
      + exists [], (CR :: t). repeat split; auto; inversion H.
      + exists (c :: a), b. subst. repeat split; auto.
        * destruct H as [->|H]; auto. apply Ha; auto.
        * destruct H as [->|H]; auto. apply Ha; auto. }
  destruct P as (a & b & -> & Ha & Hb).
  destruct b as [|c b].
  - exists [a]. rewrite app_nil_r. constructor; auto.
  - destruct Hb as [->| ->].
    + destruct (IH (length b)) with (t := b) as (ls & Hls); auto.
      { rewrite app_length. simpl. lia. }
      exists (a :: ls). constructor; auto.
    + destruct b as [|c b].
      * exists [a; []]. apply tl_cr; auto; [|discriminate].
        constructor. intros c [].
      * destruct (ascii_dec c NL) as [->|Hc].
        -- destruct (IH (length b)) with (t := b) as (ls & Hls); auto.
           { rewrite app_length. simpl. lia. }
           exists (a :: ls). apply tl_crlf; auto.
        -- destruct (IH (length (c :: b))) with (t := c :: b) as (ls & Hls); auto.
           { rewrite app_length. simpl. lia. }
           exists (a :: ls). apply tl_cr; auto. simpl. congruence.
Qed.

Lemma text_content_exists t : exists toks, text_content t toks.
Proof.
  destruct (text_lines_exist t) as (ls & H). destruct (content_exists ls) as (toks & H2).
  exists toks, ls. auto.
Qed.
