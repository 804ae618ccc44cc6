(** Lemmas about the parser model. *)
From Coq Require Import Ascii String List Bool Arith ZArith QArith Qcanon Permutation Lia.
From Verif Require Import Base_Prelude Base_Str Base_Num Model_Path Model_Parser
  Spec_Parser Proofs_Str.
Import ListNotations.
Open Scope nat_scope.
Local Arguments Nat.leb : simpl never.

(** ** Float keys *)

Definition canon (f : pyfloat) : Prop :=
  match f with FFin q => Qred q = q | _ => True end.

Lemma q_of_me_canon m e : Qred (q_of_me m e) = q_of_me m e.
Proof.
  unfold q_of_me. destruct (0 <=? e)%Z.
  - apply Qred_identity. simpl. apply Z.gcd_1_r.
  - apply Qred_involutive.
Qed.

Lemma rnd64_canon q : canon (rnd64 q).
Proof.
  unfold rnd64. destruct (Qnum q =? 0)%Z; simpl; auto.
  match goal with |- context [if ?b then FInf _ else _] => destruct b end; simpl; auto.
  apply q_of_me_canon.
Qed.

Lemma py_float_canon s f : py_float s = Some f -> canon f.
Proof.
  unfold py_float. destruct (take_sign s) as (neg, s').
  destruct (_ || _); [intro H; injection H as <-; exact I|].
  destruct (str_eqb _ _); [intro H; injection H as <-; exact I|].
  destruct (py_decimal s'); [|discriminate]. intro H; injection H as <-. apply rnd64_canon.
Qed.

Lemma canon_zero : canon fzero.
Proof. reflexivity. Qed.

Lemma feq_eq a b : canon a -> canon b -> feq a b = true -> a = b.
Proof.
  destruct a, b; simpl; intros Ha Hb H; try discriminate.
  - apply Qeq_bool_iff, Qred_complete in H. congruence.
  - apply eqb_prop in H. congruence.
Qed.

Lemma feq_sym a b : feq a b = feq b a.
Proof.
  destruct a, b; simpl; auto.
  - destruct (Qeq_bool q q0) eqn:E.
    + symmetry. apply Qeq_bool_iff. apply Qeq_bool_iff in E. symmetry; auto.
    + destruct (Qeq_bool q0 q) eqn:F; auto. apply Qeq_bool_iff in F.
      assert (Qeq_bool q q0 = true) by (apply Qeq_bool_iff; symmetry; auto). congruence.
  - destruct neg, neg0; reflexivity.
Qed.

Lemma feq_trans a b c : feq a b = true -> feq b c = true -> feq a c = true.
Proof.
  destruct a, b, c; simpl; intros H1 H2; try discriminate.
  - apply Qeq_bool_iff. apply Qeq_bool_iff in H1, H2. rewrite H1. exact H2.
  - apply eqb_prop in H1, H2. subst. apply eqb_reflx.
Qed.

(** ** Token-level parser *)

Definition tcheck (l : list str) : bool := negb (length l <? 2).

Definition finish_t (fnames : list str) (rest : list (list str))
  : res (list str * list (list str)) :=
  if length fnames <? 2 then Err SyntaxError else Ok (fnames, rest).

Fixpoint gif_t (path : str) (acc : list str) (toks : list (list str))
  : res (list str * list (list str)) :=
  match toks with
  | [] => finish_t acc []
  | l :: rest =>
      if negb (tcheck l) then Err SyntaxError
      else if negb (str_eqb (field 0 l) (lit "i")) then finish_t acc toks
      else if negb (length l =? 2) then Err SyntaxError
      else gif_t path (acc ++ [image_path path (field 1 l)]) rest
  end.

Definition step_t (path : str) (l : list str) (rest : list (list str)) (d : desc)
  : res (desc * list (list str)) :=
  let c := field 0 l in
  if str_eqb c (lit "v") then
    Ok (mkDesc (Some (field 1 l)) (d_format d) (d_temporal d) (d_spatial d), rest)
  else if str_eqb c (lit "n") then
    if negb (length l =? 4) then Err SyntaxError
    else match d_format d with
         | Some _ => Err SyntaxError
         | None =>
             b <- read_int (field 1 l) ;;
             w <- read_int (field 2 l) ;;
             h <- read_int (field 3 l) ;;
             Ok (mkDesc (d_version d) (Some (b, w, h)) (d_temporal d) (d_spatial d),
                 rest)
         end
  else if str_eqb c (lit "b") then
    if negb (length l =? 3) then Err SyntaxError
    else e <- read_float (field 1 l) ;;
         p <- read_float (field 2 l) ;;
         ' (fn, rest') <- gif_t path [] rest ;;
         d' <- add_pcount e p fn d ;;
         Ok (d', rest')
  else if str_eqb c (lit "d") then
    if negb (length l =? 2) then Err SyntaxError
    else e <- read_float (field 1 l) ;;
         ' (fn, rest') <- gif_t path [] rest ;;
         d' <- add_pcount e fzero fn d ;;
         Ok (d', rest')
  else Ok (d, rest).

Fixpoint fill_t (fuel : nat) (path : str) (toks : list (list str)) (d : desc)
  : res desc :=
  match toks, fuel with
  | [], _ => Ok d
  | l :: rest, S fuel' =>
      if negb (tcheck l) then Err SyntaxError
      else ' (d', rest') <- step_t path l rest d ;; fill_t fuel' path rest' d'
  | _ :: _, O => Ok d
  end.

Lemma gif_tokens path acc lines :
  get_images_filenames path acc lines =
    match gif_t path acc (map split_ws lines) with
    | Ok (fn, rest) =>
        Ok (fn, skipn (length lines - length rest) lines)
    | Err e => Err e
    end /\
  (forall fn rest, gif_t path acc (map split_ws lines) = Ok (fn, rest) ->
     length rest <= length lines /\
     map split_ws (skipn (length lines - length rest) lines) = rest).
Proof.
  revert acc; induction lines as [|line lines IH]; intro acc; simpl.
  - unfold finish_filenames, finish_t. destruct (length acc <? 2); split; auto.
    + discriminate.
    + intros fn rest H. injection H as <- <-. auto.
  - rewrite split_line_eq. unfold tcheck. rewrite negb_involutive.
    destruct (length (split_ws line) <? 2); simpl; [split; [reflexivity|discriminate]|].
    destruct (negb (str_eqb _ _)); simpl.
    + unfold finish_filenames, finish_t. destruct (length acc <? 2); simpl; split; auto;
        try discriminate.
      * rewrite map_length, Nat.sub_diag. reflexivity.
      * intros fn rest H. injection H as <- <-. simpl. rewrite map_length, Nat.sub_diag.
        split; auto.
    + destruct (negb _); [split; [reflexivity|discriminate]|].
      destruct (IH (acc ++ [image_path path (field 1 (split_ws line))])) as (H1 & H2).
      rewrite H1. destruct (gif_t path _ _) as [[fn rest]|e]; split; auto;
        try discriminate.
      * destruct (H2 fn rest eq_refl) as (Hle & Hm).
        replace (match length rest with 0 => S (length lines) | S l => length lines - l end)
          with (S (length lines - length rest)) by (destruct (length rest); lia).
        reflexivity.
      * intros fn' rest' E. injection E as <- <-. destruct (H2 fn rest eq_refl) as (Hle & Hm).
        split; [lia|].
        replace (match length rest with 0 => S (length lines) | S l => length lines - l end)
          with (S (length lines - length rest)) by (destruct (length rest); lia).
        simpl. exact Hm.
Qed.

Lemma step_tokens path l lines d :
  match step_t path l (map split_ws lines) d with
  | Ok (d', rest) =>
      exists rest', fill_step path l lines d = Ok (d', rest') /\
        map split_ws rest' = rest /\ length rest <= length lines
  | Err e => fill_step path l lines d = Err e
  end.
Proof.
  unfold step_t, fill_step.
  destruct (str_eqb _ (lit "v")).
  { exists lines. rewrite map_length. auto. }
  destruct (str_eqb _ (lit "n")).
  { destruct (negb _); auto. destruct (d_format d); auto.
    destruct (read_int _); simpl; auto. destruct (read_int _); simpl; auto.
    destruct (read_int _); simpl; auto. exists lines. rewrite map_length. auto. }
  assert (G : forall e p,
    match (' (fn, rest') <- gif_t path [] (map split_ws lines);;
           d' <- add_pcount e p fn d;; Ok (d', rest')) with
    | Ok (d', rest) =>
        exists rest', (' (fn, rest') <- get_images_filenames path [] lines;;
           d' <- add_pcount e p fn d;; Ok (d', rest')) = Ok (d', rest') /\
        map split_ws rest' = rest /\ length rest <= length lines
    | Err e0 => (' (fn, rest') <- get_images_filenames path [] lines;;
           d' <- add_pcount e p fn d;; Ok (d', rest')) = Err e0
    end).
  { intros e p. destruct (gif_tokens path [] lines) as (H1 & H2). rewrite H1.
    destruct (gif_t _ _ _) as [[fn rest]|err]; simpl; auto.
    destruct (add_pcount e p fn d); simpl; auto.
    destruct (H2 fn rest eq_refl). eauto. }
  destruct (str_eqb _ (lit "b")).
  { destruct (negb _); auto. destruct (read_float _); simpl; auto.
    destruct (read_float _); simpl; auto. apply G. }
  destruct (str_eqb _ (lit "d")).
  { destruct (negb _); auto. destruct (read_float _); simpl; auto. apply G. }
  exists lines. rewrite map_length. auto.
Qed.

Lemma fill_tokens fuel path lines d :
  fill_info fuel path lines d = fill_t fuel path (map split_ws lines) d.
Proof.
  revert lines d; induction fuel as [|fuel IH]; intros [|line lines] d; simpl; auto.
  rewrite split_line_eq. unfold tcheck. rewrite negb_involutive.
  destruct (length (split_ws line) <? 2); simpl; auto.
  pose proof (step_tokens path (split_ws line) lines d) as H.
  destruct (step_t _ _ _ _) as [[d' rest]|e].
  - destruct H as (rest' & E & Hm & _). rewrite E. simpl. rewrite IH, Hm. reflexivity.
  - rewrite H. reflexivity.
Qed.

Lemma parse_tokens path lines :
  parse_lines path lines = fill_t (length lines) path (map split_ws lines) empty_desc.
Proof. apply fill_tokens. Qed.

Definition parse_t (path : str) (toks : list (list str)) : res desc :=
  fill_t (length toks) path toks empty_desc.

Lemma parse_file_tokens f p t toks :
  text_content t toks ->
  parse_file f p (Some t) =
  parse_t (match p with Some p => p | None => dirname f end) toks.
Proof.
  intro H. unfold parse_file. rewrite parse_tokens. unfold parse_t.
  apply text_content_tokens in H. rewrite <- H. rewrite map_length. reflexivity.
Qed.

(** ** gif_t in terms of [image_run] *)

Fixpoint after_run (ls : list (list str)) : list (list str) :=
  match ls with
  | l :: ls' => if is_image l then after_run ls' else ls
  | [] => []
  end.

Lemma run_after ls : ls = image_run ls ++ after_run ls.
Proof. induction ls as [|l ls IH]; simpl; auto. destruct (is_image l); simpl; congruence. Qed.

Lemma after_run_length ls : length (after_run ls) <= length ls.
Proof. induction ls as [|l ls IH]; simpl; auto. destruct (is_image l); simpl; lia. Qed.

Lemma image_not_header l : is_image l = true -> is_header l = false.
Proof.
  unfold is_image, is_header. intro H. apply str_eqb_eq in H. rewrite H. reflexivity.
Qed.

Lemma blocks_after_run ls : blocks (after_run ls) = blocks ls.
Proof.
  induction ls as [|l ls IH]; simpl; auto.
  destruct (is_image l) eqn:E; auto. rewrite (image_not_header l E). exact IH.
Qed.

Definition img_ok (l : list str) : bool := length l =? 2.

Definition next_ok (ls : list (list str)) : bool :=
  match ls with [] => true | l :: _ => tcheck l end.

Lemma gif_t_spec path toks acc :
  gif_t path acc toks =
  if forallb img_ok (image_run toks) && next_ok (after_run toks)
     && (2 <=? length acc + length (image_run toks))
  then Ok (acc ++ map (fun i => image_path path (nth 1 i [])) (image_run toks),
           after_run toks)
  else Err SyntaxError.
Proof.
  revert acc; induction toks as [|l toks IH]; intro acc; simpl.
  - unfold finish_t. destruct acc as [|? [|? acc]]; simpl; rewrite ?app_nil_r; reflexivity.
  - unfold is_image, cmd, field. destruct (str_eqb (nth 0 l []) (lit "i")) eqn:E; simpl.
    + destruct (img_ok l) eqn:Hl; unfold img_ok in Hl; rewrite ?Hl; simpl.
      * apply Nat.eqb_eq in Hl. unfold tcheck. rewrite Hl. simpl.
        rewrite IH, app_length. simpl.
        replace (length acc + 1 + length (image_run toks))
          with (length acc + S (length (image_run toks))) by lia.
        destruct (_ && _); auto. rewrite <- app_assoc. reflexivity.
      * destruct (negb (tcheck l)); reflexivity.
    + unfold finish_t. destruct (tcheck l); simpl; auto.
      destruct acc as [|? [|? acc]]; simpl; rewrite ?app_nil_r; reflexivity.
Qed.

(** ** add_exposure *)

Definition dup (e p : pyfloat) (x : entry) : bool :=
  feq e (e_exposure x) && feq p (e_photons x).

(** Invariant: exposures pairwise different, all keys canonical, no empty exposure. *)
Definition dict_inv (m : exposure_dict) : Prop :=
  ForallOrdPairs (fun a b => feq (fst a) (fst b) = false) m /\
  Forall (fun em => canon (fst em) /\ Forall (fun pf => canon (fst pf)) (snd em) /\ snd em <> []) m.

Lemma dmem_entries p k e inner :
  existsb (dup e p) (map (fun pf => mkEntry k e (fst pf) (snd pf)) inner) =
  feq e e && dmem feq p inner.
Proof.
  unfold dmem. induction inner as [|[p' f] inner IH]; simpl.
  - rewrite andb_false_r. reflexivity.
  - rewrite IH. unfold dup. simpl. destruct (feq e e); simpl; auto.
Qed.

Lemma existsb_dup_other e p k e' inner :
  feq e e' = false ->
  existsb (dup e p) (map (fun pf => mkEntry k e' (fst pf) (snd pf)) inner) = false.
Proof.
  intro H. induction inner as [|[p' f] inner IH]; simpl; auto.
  unfold dup at 1. simpl. rewrite H. simpl. exact IH.
Qed.

Lemma existsb_flat_other e p k m :
  Forall (fun em => feq e (fst em) = false) m ->
  existsb (dup e p) (entries_of k m) = false.
Proof.
  unfold entries_of. induction 1 as [|[e' inner] m H Hm IH]; simpl; auto.
  rewrite existsb_app, IH, existsb_dup_other by auto. reflexivity.
Qed.

Lemma add_exposure_spec k e p fn m :
  canon e -> canon p -> dict_inv m ->
  (existsb (dup e p) (entries_of k m) = true -> add_exposure e p fn m = Err SyntaxError) /\
  (existsb (dup e p) (entries_of k m) = false ->
   exists m', add_exposure e p fn m = Ok m' /\ dict_inv m' /\
     Permutation (entries_of k m') (mkEntry k e p fn :: entries_of k m) /\
     map fst m' = if existsb (fun em => feq e (fst em)) m then map fst m
                  else map fst m ++ [e]).
Proof.
  intros He Hp. induction m as [|[e' inner] m IH]; intros (Hd & Hc).
  - simpl. split; [discriminate|]. intros _. eexists. split; [reflexivity|].
    split; [|split; auto].
    split; repeat constructor; auto. discriminate.
  - inversion Hd as [|? ? Hd1 Hd2]; subst. inversion Hc as [|? ? (Hc1 & Hc1' & Hc1n) Hc2]; subst.
    simpl in Hc1, Hc1', Hc1n, Hd1.
    simpl. destruct (feq e e') eqn:E.
    + assert (Hee : e = e') by (apply feq_eq; auto). subst e'.
      rewrite existsb_app, dmem_entries, E. simpl.
      rewrite existsb_flat_other by exact Hd1. rewrite orb_false_r.
      split; intro H; rewrite H; [reflexivity|].
      eexists. split; [reflexivity|]. split; [|split].
      * split; constructor; auto. simpl. split; auto. split; [apply Forall_app; split; auto|].
        intro N. apply app_eq_nil in N. destruct N; discriminate.
      * simpl. rewrite map_app. simpl. unfold entries_of.
        rewrite <- app_assoc. simpl. symmetry. apply Permutation_middle.
      * reflexivity.
    + rewrite existsb_app, existsb_dup_other by auto. simpl.
      destruct (IH (conj Hd2 Hc2)) as (H1 & H2). split; intro H.
      * rewrite H1 by exact H. reflexivity.
      * destruct (H2 H) as (m' & Hm' & (Hi1 & Hi2) & Hperm & Hkeys). rewrite Hm'. simpl.
        eexists. split; [reflexivity|]. split; [|split].
        -- split; constructor; auto. rewrite Forall_forall. intros em Hem.
           assert (Hin : In (fst em) (map fst m')) by (apply in_map; auto).
           rewrite Hkeys in Hin.
           assert (G : In (fst em) (map fst m) -> feq e' (fst em) = false).
           { intro Hi. apply in_map_iff in Hi. destruct Hi as (x & Hx & Hi).
             rewrite <- Hx. rewrite Forall_forall in Hd1. apply (Hd1 x Hi). }
           destruct (existsb _ m); auto. apply in_app_or in Hin.
           destruct Hin as [Hin|[<-|[]]]; auto. rewrite feq_sym. exact E.
        -- simpl. unfold entries_of in *.
           eapply Permutation_trans; [apply Permutation_app_head; exact Hperm|].
           symmetry. apply Permutation_middle.
        -- simpl. rewrite Hkeys. destruct (existsb _ m); reflexivity.
Qed.

(** ** Whole descriptor *)

Definition desc_inv (d : desc) : Prop := dict_inv (d_temporal d) /\ dict_inv (d_spatial d).

Definition clashb (x y : entry) : bool :=
  kind_eqb (e_kind x) (e_kind y) && dup (e_exposure x) (e_photons x) y.

Lemma clashb_iff x y : clashb x y = true <-> clash x y.
Proof.
  unfold clashb, clash, dup. rewrite !andb_true_iff.
  destruct (e_kind x), (e_kind y); simpl; intuition; discriminate.
Qed.

Lemma existsb_entries_kind k k' m e p f :
  existsb (clashb (mkEntry k e p f)) (entries_of k' m) =
  kind_eqb k k' && existsb (dup e p) (entries_of k' m).
Proof.
  unfold entries_of. induction m as [|[e' inner] m IH]; simpl.
  - rewrite andb_false_r. reflexivity.
  - rewrite !existsb_app, IH.
    assert (G : existsb (clashb (mkEntry k e p f))
                  (map (fun pf => mkEntry k' e' (fst pf) (snd pf)) inner) =
                kind_eqb k k' && existsb (dup e p)
                  (map (fun pf => mkEntry k' e' (fst pf) (snd pf)) inner)).
    { induction inner as [|[p' f'] inner IHi]; simpl.
      - rewrite andb_false_r; reflexivity.
      - rewrite IHi. unfold clashb at 1. simpl. destruct (kind_eqb k k'); simpl; auto. }
    rewrite G. destruct (kind_eqb k k'); reflexivity.
Qed.

Definition kind_of_count (n : nat) : kind := if n =? 2 then Temporal else Spatial.

Lemma add_pcount_spec e p fn d :
  canon e -> canon p -> desc_inv d ->
  let x := mkEntry (kind_of_count (length fn)) e p fn in
  (existsb (clashb x) (entries d) = true -> add_pcount e p fn d = Err SyntaxError) /\
  (existsb (clashb x) (entries d) = false ->
   exists d', add_pcount e p fn d = Ok d' /\ desc_inv d' /\
     Permutation (entries d') (x :: entries d) /\
     d_version d' = d_version d /\ d_format d' = d_format d).
Proof.
  intros He Hp (Ht & Hs). unfold add_pcount, get_kind, kind_of_count, entries.
  rewrite existsb_app.
  destruct (length fn =? 2) eqn:E; simpl; rewrite !existsb_entries_kind; simpl;
    rewrite ?orb_false_r.
  - destruct (add_exposure_spec Temporal e p fn (d_temporal d) He Hp Ht) as (H1 & H2).
    split; intro H.
    + rewrite H1 by exact H. reflexivity.
    + destruct (H2 H) as (m' & Hm' & Hi & Hperm & _). rewrite Hm'. simpl.
      eexists. split; [reflexivity|]. split; [split; auto|]. split; [|split; auto].
      simpl. apply (Permutation_app_tail (entries_of Spatial (d_spatial d))) in Hperm.
      exact Hperm.
  - destruct (add_exposure_spec Spatial e p fn (d_spatial d) He Hp Hs) as (H1 & H2).
    split; intro H.
    + rewrite H1 by exact H. reflexivity.
    + destruct (H2 H) as (m' & Hm' & Hi & Hperm & _). rewrite Hm'. simpl.
      eexists. split; [reflexivity|]. split; [split; auto|]. split; [|split; auto].
      simpl. eapply Permutation_trans; [apply Permutation_app_head; exact Hperm|].
      symmetry. apply Permutation_middle.
Qed.

(** ** The main invariant *)

(** Adding the entries [es] in order to [d] succeeds. *)
Fixpoint addable (seen : list entry) (es : list entry) : Prop :=
  match es with
  | [] => True
  | x :: es' => existsb (clashb x) seen = false /\ addable (x :: seen) es'
  end.

Lemma existsb_perm {A} (f : A -> bool) l l' :
  Permutation l l' -> existsb f l = existsb f l'.
Proof.
  induction 1; simpl; auto; try congruence.
  rewrite !orb_assoc. f_equal. apply orb_comm.
Qed.

Lemma addable_perm seen seen' es :
  Permutation seen seen' -> addable seen es -> addable seen' es.
Proof.
  revert seen seen'; induction es as [|x es IH]; intros seen seen' Hp; simpl; auto.
  intros (H1 & H2). split.
  - rewrite <- (existsb_perm _ _ _ Hp). exact H1.
  - eapply IH; [|exact H2]. constructor. exact Hp.
Qed.

Lemma clash_sym x y : clash x y -> clash y x.
Proof.
  unfold clash. intros (H1 & H2 & H3). rewrite feq_sym in H2, H3. auto.
Qed.

Lemma clashb_sym x y : clashb x y = clashb y x.
Proof.
  destruct (clashb x y) eqn:E; destruct (clashb y x) eqn:F; auto.
  - apply clashb_iff, clash_sym, clashb_iff in E. congruence.
  - apply clashb_iff, clash_sym, clashb_iff in F. congruence.
Qed.

Lemma addable_pairs seen es :
  addable seen es <->
  Forall (fun x => existsb (clashb x) seen = false) es /\
  ForallOrdPairs (fun x y => ~ clash x y) es.
Proof.
  revert seen; induction es as [|x es IH]; intro seen; simpl.
  - split; auto. intros _. split; constructor.
  - rewrite IH. split.
    + intros (H1 & H2 & H3). split.
      * constructor; auto. eapply Forall_impl; [|exact H2]. simpl. intros a Ha.
        apply orb_false_iff in Ha. apply Ha.
      * constructor; auto. rewrite Forall_forall in *. intros y Hy Hc.
        specialize (H2 y Hy). simpl in H2. apply orb_false_iff in H2.
        destruct H2 as (H2 & _). apply clash_sym, clashb_iff in Hc. congruence.
    + intros (H1 & H2). inversion H1; subst. inversion H2; subst. split; auto. split; auto.
      rewrite Forall_forall in *. intros y Hy. simpl. apply orb_false_iff. split; auto.
      destruct (clashb y x) eqn:E; auto. apply clashb_iff, clash_sym in E.
      exfalso. eapply H5; eauto.
Qed.

Lemma read_float_number w :
  read_float w = of_option ValueError (number_of w).
Proof. reflexivity. Qed.

Lemma number_canon w f : number_of w = Some f -> canon f.
Proof. apply py_float_canon. Qed.

(** Format part: [fo] is the format read so far. *)
Definition formats_ok (fo : option (Z * Z * Z)) (toks : list (list str)) : Prop :=
  Forall format_ok (format_lines toks) /\
  match fo with
  | Some _ => format_lines toks = []
  | None => length (format_lines toks) <= 1
  end.

Lemma format_lines_after_run ls : format_lines (after_run ls) = format_lines ls.
Proof.
  unfold format_lines. induction ls as [|l ls IH]; simpl; auto.
  unfold is_image. destruct (str_eqb (cmd l) (lit "i")) eqn:E; auto.
  apply str_eqb_eq in E. rewrite E. simpl. exact IH.
Qed.

Lemma tcheck_iff l : tcheck l = true <-> 2 <= length l.
Proof. unfold tcheck. rewrite negb_true_iff, Nat.ltb_ge. reflexivity. Qed.

Lemma forallb_img_ok ls :
  forallb img_ok ls = true <-> Forall (fun i : list str => length i = 2) ls.
Proof.
  induction ls as [|l ls IH]; simpl.
  - split; auto.
  - rewrite andb_true_iff, IH. unfold img_ok at 1. rewrite Nat.eqb_eq.
    split; [intros (H1 & H2); constructor; auto|]. intro H; inversion H; auto.
Qed.

Lemma run_check ls :
  Forall (fun i : list str => length i = 2) (image_run ls) ->
  (Forall (fun l => 2 <= length l) ls <-> Forall (fun l => 2 <= length l) (after_run ls)).
Proof.
  intro H. rewrite (run_after ls) at 1. rewrite Forall_app. split; [tauto|]. intro H2.
  split; auto. eapply Forall_impl; [|exact H]. simpl. intros; lia.
Qed.

(** The specification the loop satisfies, relative to the state [d]. *)
Definition wf_from (path : str) (d : desc) (toks : list (list str)) (es : list entry)
  : Prop :=
  Forall (fun l => 2 <= length l) toks /\
  formats_ok (d_format d) toks /\
  Forall block_ok (blocks toks) /\
  Forall2 (block_denotes path) (blocks toks) es /\
  addable (entries d) es.

Definition version_from (v : option str) (toks : list (list str)) : option str :=
  fold_left (fun v l => if str_eqb (cmd l) (lit "v") then Some (nth 1 l []) else v)
            toks v.

Definition format_from (fo : option (Z * Z * Z)) (toks : list (list str))
  : option (Z * Z * Z) :=
  match format_lines toks with
  | [] => fo
  | l :: _ =>
      match py_int (nth 1 l []), py_int (nth 2 l []), py_int (nth 3 l []) with
      | Some b, Some w, Some h => Some (b, w, h)
      | _, _, _ => None
      end
  end.

Lemma version_after_run v ls : version_from v (after_run ls) = version_from v ls.
Proof.
  unfold version_from. revert v; induction ls as [|l ls IH]; intro v; simpl; auto.
  unfold is_image. destruct (str_eqb (cmd l) (lit "i")) eqn:E; auto.
  apply str_eqb_eq in E. rewrite E. simpl. apply IH.
Qed.

Lemma block_denotes_fun path b x y :
  is_header (fst b) = true ->
  block_denotes path b x -> block_denotes path b y -> x = y.
Proof.
  destruct b as (h, imgs). unfold block_denotes, is_header. simpl. intro Hh.
  intros (X1 & X2 & X3 & X4 & X5) (Y1 & Y2 & Y3 & Y4 & Y5).
  destruct x as [k1 ex1 ph1 f1], y as [k2 ex2 ph2 f2]; simpl in *.
  assert (ex1 = ex2) by congruence.
  assert (ph1 = ph2).
  { apply orb_true_iff in Hh. destruct Hh as [H'|H']; apply str_eqb_eq in H'.
    - rewrite X2 in Y2 by auto. specialize (Y2 H'). congruence.
    - rewrite X3, Y3; auto. }
  congruence.
Qed.

Lemma blocks_header toks : Forall (fun b => is_header (fst b) = true) (blocks toks).
Proof.
  induction toks as [|l toks IH]; simpl; auto.
  destruct (is_header l) eqn:E; auto.
Qed.

Lemma block_ok_denotes path b :
  is_header (fst b) = true -> block_ok b -> exists e, block_denotes path b e.
Proof.
  destruct b as (h, imgs). intros Hh ((Hb & Hd) & _ & _). simpl in *.
  unfold is_header in Hh. apply orb_true_iff in Hh.
  destruct Hh as [H|H]; apply str_eqb_eq in H.
  - destruct (Hb H) as (_ & (e & He) & (p & Hp)).
    exists (mkEntry (if length imgs =? 2 then Temporal else Spatial) e p
              (map (fun i => image_path path (nth 1 i [])) imgs)).
    unfold block_denotes; simpl. repeat split; auto. rewrite H. discriminate.
  - destruct (Hd H) as (_ & (e & He)).
    exists (mkEntry (if length imgs =? 2 then Temporal else Spatial) e (FFin 0)
              (map (fun i => image_path path (nth 1 i [])) imgs)).
    unfold block_denotes; simpl. repeat split; auto. rewrite H. discriminate.
Qed.

Lemma cmd_field l : field 0 l = cmd l.
Proof. reflexivity. Qed.

(** Result description. *)
Definition result_from (path : str) (d : desc) (toks : list (list str))
  (es : list entry) (d' : desc) : Prop :=
  Permutation (entries d') (rev es ++ entries d) /\
  d_version d' = version_from (d_version d) toks /\
  d_format d' = format_from (d_format d) toks.

Section Main.
Variable path : str.

(** One header block. *)
Lemma header_step e p rest d :
  desc_inv d -> canon e -> canon p ->
  let imgs := image_run rest in
  let fn := map (fun i => image_path path (nth 1 i [])) imgs in
  let x := mkEntry (kind_of_count (length imgs)) e p fn in
  let r := (' (fn, rest') <- gif_t path [] rest ;;
            d' <- add_pcount e p fn d ;; Ok (d', rest')) in
  (exists d', r = Ok (d', after_run rest) /\ desc_inv d' /\
     Permutation (entries d') (x :: entries d) /\
     d_version d' = d_version d /\ d_format d' = d_format d /\
     Forall (fun i => length i = 2) imgs /\ 2 <= length imgs /\
     next_ok (after_run rest) = true /\
     existsb (clashb x) (entries d) = false)
  \/ (r = Err SyntaxError /\
      ~ (Forall (fun i => length i = 2) imgs /\ 2 <= length imgs /\
         next_ok (after_run rest) = true /\
         existsb (clashb x) (entries d) = false)).
Proof.
  intros Hd He Hp imgs fn x r. unfold r. rewrite gif_t_spec. simpl app.
  replace (length (@nil str) + length (image_run rest)) with (length imgs) by reflexivity.
  destruct (forallb img_ok (image_run rest)) eqn:E1; simpl.
  - apply forallb_img_ok in E1.
    destruct (next_ok (after_run rest)) eqn:E2.
    + destruct (2 <=? length imgs) eqn:E3; simpl.
      * apply Nat.leb_le in E3.
        destruct (add_pcount_spec e p fn d He Hp Hd) as (H1 & H2).
        assert (Ex : mkEntry (kind_of_count (length fn)) e p fn = x).
        { unfold x. unfold fn at 1. rewrite map_length. reflexivity. }
        rewrite Ex in H1, H2. fold imgs. fold fn.
        destruct (existsb (clashb x) (entries d)) eqn:E4.
        -- right. rewrite H1 by auto. simpl. split; auto. intros (_ & _ & _ & F). discriminate.
        -- left. destruct (H2 eq_refl) as (d' & Hd' & Hi & Hperm & Hv & Hf).
           rewrite Hd'. simpl. exists d'. repeat (split; auto).
      * right. split; auto. apply Nat.leb_gt in E3. intros (_ & F & _). lia.
    + right. simpl. split; auto. intros (_ & _ & F & _). discriminate.
  - right. split; auto. intros (F & _). apply forallb_img_ok in F.
    unfold imgs in F. congruence.
Qed.

Lemma wf_header h rest d d' x :
  is_header h = true -> 2 <= length h -> header_ok h ->
  Forall (fun i => length i = 2) (image_run rest) -> 2 <= length (image_run rest) ->
  block_denotes path (h, image_run rest) x ->
  existsb (clashb x) (entries d) = false ->
  Permutation (entries d') (x :: entries d) ->
  d_format d' = d_format d ->
  forall es, wf_from path d (h :: rest) (x :: es) <-> wf_from path d' (after_run rest) es.
Proof.
  intros Hh Hl Hok Hi Hn Hx Hc Hp Hf es. unfold wf_from.
  rewrite Hf. unfold formats_ok. simpl blocks. rewrite Hh.
  rewrite format_lines_after_run, blocks_after_run.
  assert (Hfl : format_lines (h :: rest) = format_lines rest).
  { unfold format_lines. simpl. unfold is_header in Hh. apply orb_true_iff in Hh.
    destruct Hh as [F|F]; apply str_eqb_eq in F; rewrite F; reflexivity. }
  rewrite Hfl. simpl addable.
  pose proof (run_check rest Hi) as Hrc.
  split.
  - intros (H1 & H2 & H3 & H4 & H5). inversion H1; subst. inversion H3; subst.
    inversion H4; subst. destruct H5 as (_ & H5).
    repeat split; try tauto. eapply addable_perm; [symmetry; exact Hp|]. exact H5.
  - intros (H1 & H2 & H3 & H4 & H5).
    repeat split; try tauto.
    + constructor; auto. tauto.
    + constructor; auto. split; auto.
    + constructor; auto.
    + eapply addable_perm; [exact Hp|]. exact H5.
Qed.

Lemma result_header h rest d d' d'' x es :
  is_header h = true ->
  Permutation (entries d') (x :: entries d) ->
  d_version d' = d_version d -> d_format d' = d_format d ->
  result_from path d' (after_run rest) es d'' ->
  result_from path d (h :: rest) (x :: es) d''.
Proof.
  intros Hh Hp Hv Hf (H1 & H2 & H3). unfold result_from.
  assert (Hc : cmd h = lit "b" \/ cmd h = lit "d").
  { unfold is_header in Hh. apply orb_true_iff in Hh.
    destruct Hh as [F|F]; apply str_eqb_eq in F; auto. }
  split; [|split].
  - eapply Permutation_trans; [exact H1|]. simpl. rewrite <- app_assoc. simpl.
    apply Permutation_app_head. exact Hp.
  - rewrite H2, version_after_run, Hv. unfold version_from. simpl.
    destruct Hc as [->| ->]; reflexivity.
  - rewrite H3. unfold format_from. rewrite format_lines_after_run, Hf.
    unfold format_lines. simpl. destruct Hc as [->| ->]; reflexivity.
Qed.

Lemma bad_number_weaken l toks : bad_number toks -> bad_number (l :: toks).
Proof. intros (x & H & P). exists x. split; auto. right; auto. Qed.

Lemma after_run_in l ls : In l (after_run ls) -> In l ls.
Proof. intro H. rewrite (run_after ls). apply in_or_app. right; auto. Qed.

Lemma bad_number_after l toks : bad_number (after_run toks) -> bad_number (l :: toks).
Proof.
  intros (x & H & P). exists x. split; auto. right. apply after_run_in; auto.
Qed.

Lemma fill_main fuel toks d :
  length toks <= fuel -> desc_inv d ->
  (exists es d', wf_from path d toks es /\ fill_t fuel path toks d = Ok d' /\
                 desc_inv d' /\ result_from path d toks es d')
  \/ ((forall es, ~ wf_from path d toks es) /\
      exists e, fill_t fuel path toks d = Err e /\
        (e = SyntaxError \/ (e = ValueError /\ bad_number toks))).
Proof.
  revert toks d; induction fuel as [|fuel IH]; intros [|l rest] d Hlen Hinv;
    try (simpl in Hlen; lia).
  1, 2: left; exists [], d; split; [|split; [reflexivity|split; [assumption|]]];
    [unfold wf_from, formats_ok; simpl; repeat split; auto;
       try constructor; destruct (d_format d); simpl; auto
    |unfold result_from, version_from, format_from; simpl; auto].
  simpl in Hlen. simpl fill_t.
  destruct (tcheck l) eqn:Ht; simpl.
  2:{ right. split.
      - intros es (H1 & _). inversion H1; subst. apply tcheck_iff in H2. congruence.
      - eexists; split; [reflexivity|]. left; reflexivity. }
  apply tcheck_iff in Ht.
  unfold step_t. change (field 0 l) with (cmd l).
  destruct (str_eqb (cmd l) (lit "v")) eqn:Ev.
  { (* version *)
    apply str_eqb_eq in Ev. simpl.
    set (d1 := mkDesc (Some (field 1 l)) (d_format d) (d_temporal d) (d_spatial d)).
    assert (Hfl : format_lines (l :: rest) = format_lines rest)
      by (unfold format_lines; simpl; rewrite Ev; reflexivity).
    assert (Hb : blocks (l :: rest) = blocks rest)
      by (simpl; unfold is_header; rewrite Ev; reflexivity).
    assert (Hwf : forall es, wf_from path d (l :: rest) es <-> wf_from path d1 rest es).
    { intro es. unfold wf_from, formats_ok. rewrite Hfl, Hb.
      change (entries d1) with (entries d). change (d_format d1) with (d_format d).
      split; intros (H1 & H2); (split; [|exact H2]).
      - inversion H1; auto.
      - constructor; auto. }
    destruct (IH rest d1) as [(es & d' & W & E & I & R)|(W & e & E & C)];
      [lia|exact Hinv| |].
    - left. exists es, d'. rewrite Hwf. split; auto. split; auto. split; auto.
      destruct R as (R1 & R2 & R3). split; [exact R1|split].
      + rewrite R2. unfold version_from. simpl. rewrite Ev. reflexivity.
      + rewrite R3. unfold format_from. rewrite Hfl. reflexivity.
    - right. split; [intros es; rewrite Hwf; auto|]. exists e. split; auto.
      destruct C as [C|(C1 & C2)]; auto. right. split; auto. apply bad_number_weaken; auto. }
  destruct (str_eqb (cmd l) (lit "n")) eqn:En.
  { (* format *)
    apply str_eqb_eq in En.
    assert (Hfl : format_lines (l :: rest) = l :: format_lines rest)
      by (unfold format_lines; simpl; rewrite En; reflexivity).
    assert (Hb : blocks (l :: rest) = blocks rest)
      by (simpl; unfold is_header; rewrite En; reflexivity).
    destruct (length l =? 4) eqn:E4; simpl.
    2:{ right. split; [|eexists; split; [reflexivity|left; reflexivity]].
        intros es (_ & (H & _) & _). rewrite Hfl in H. inversion H as [|? ? (F & _) _]; subst.
        apply Nat.eqb_neq in E4. contradiction. }
    apply Nat.eqb_eq in E4.
    destruct (d_format d) as [f0|] eqn:Ef.
    { right. split; [|eexists; split; [reflexivity|left; reflexivity]].
      intros es (_ & (_ & H) & _). rewrite Hfl, Ef in H. discriminate. }
    unfold read_int, field.
    assert (Hbadn : forall i, 1 <= i <= 3 -> py_int (nth i l []) = None ->
              (forall es, ~ wf_from path d (l :: rest) es) /\ bad_number (l :: rest)).
    { intros i Hi Hn. split.
      - intros es (_ & (H & _) & _). rewrite Hfl in H.
        inversion H as [|? ? (_ & (b & F1) & (w & F2) & (h & F3)) _]; subst.
        destruct i as [|[|[|[|i]]]]; try lia; congruence.
      - exists l. split; [left; auto|]. left. split; eauto. }
    destruct (py_int (nth 1 l [])) as [b|] eqn:E1; simpl.
    2:{ right. destruct (Hbadn 1 ltac:(lia) E1) as (B1 & B2). split; auto.
        eexists; split; [reflexivity|]. right; auto. }
    destruct (py_int (nth 2 l [])) as [w|] eqn:E2; simpl.
    2:{ right. destruct (Hbadn 2 ltac:(lia) E2) as (B1 & B2). split; auto.
        eexists; split; [reflexivity|]. right; auto. }
    destruct (py_int (nth 3 l [])) as [h|] eqn:E3; simpl.
    2:{ right. destruct (Hbadn 3 ltac:(lia) E3) as (B1 & B2). split; auto.
        eexists; split; [reflexivity|]. right; auto. }
    set (d1 := mkDesc (d_version d) (Some (b, w, h)) (d_temporal d) (d_spatial d)).
    assert (Hwf : forall es, wf_from path d (l :: rest) es <-> wf_from path d1 rest es).
    { intro es. unfold wf_from, formats_ok. rewrite Hfl, Hb, Ef.
      change (entries d1) with (entries d). change (d_format d1) with (Some (b, w, h)).
      split.
      - intros (H1 & (H2 & H3) & H4). inversion H1; subst. inversion H2; subst.
        simpl in H3. repeat split; try tauto.
        destruct (format_lines rest); auto. simpl in H3. lia.
      - intros (H1 & (H2 & H3) & H4). rewrite H3. simpl.
        repeat split; try tauto; auto.
        constructor; [|constructor]. repeat split; eauto. }
    destruct (IH rest d1) as [(es & d' & W & E & I & R)|(W & e & E & C)];
      [lia|exact Hinv| |].
    - left. exists es, d'. rewrite Hwf. split; auto. split; auto. split; auto.
      destruct R as (R1 & R2 & R3). split; [exact R1|split].
      + rewrite R2. unfold version_from. simpl. rewrite En. reflexivity.
      + rewrite R3. unfold format_from. rewrite Hfl, E1, E2, E3.
        destruct W as (_ & (_ & W) & _). simpl in W. rewrite W. reflexivity.
    - right. split; [intros es; rewrite Hwf; auto|]. exists e. split; auto.
      destruct C as [C|(C1 & C2)]; auto. right. split; auto. apply bad_number_weaken; auto. }
  assert (Hhead : forall e p, is_header l = true -> header_ok l -> canon e -> canon p ->
     number_of (nth 1 l []) = Some e ->
     (cmd l = lit "b" -> number_of (nth 2 l []) = Some p) ->
     (cmd l = lit "d" -> p = FFin 0) ->
     let r := (' (d', rest') <- (' (fn, rest') <- gif_t path [] rest ;;
                d' <- add_pcount e p fn d ;; Ok (d', rest')) ;; fill_t fuel path rest' d') in
     (exists es d', wf_from path d (l :: rest) es /\ r = Ok d' /\
                 desc_inv d' /\ result_from path d (l :: rest) es d')
     \/ ((forall es, ~ wf_from path d (l :: rest) es) /\
      exists e, r = Err e /\
        (e = SyntaxError \/ (e = ValueError /\ bad_number (l :: rest))))).
  { intros e p Hh Hok Hce Hcp He Hpb Hpd r. unfold r.
    set (x := mkEntry (kind_of_count (length (image_run rest))) e p
                (map (fun i => image_path path (nth 1 i [])) (image_run rest))).
    assert (Hx : block_denotes path (l, image_run rest) x).
    { unfold block_denotes, x; simpl. repeat split; auto. }
    assert (Hinvw : forall es, wf_from path d (l :: rest) es -> exists es', es = x :: es').
    { intros es (_ & _ & _ & H & _). simpl in H. rewrite Hh in H.
      inversion H as [|? y ? es' Hy]; subst. exists es'. f_equal.
      eapply block_denotes_fun; [|exact Hy|exact Hx]. exact Hh. }
    destruct (header_step e p rest d Hinv Hce Hcp)
      as [(d1 & E & Hi1 & Hp1 & Hv1 & Hf1 & Hlen1 & Hn1 & Hnx & Hc1)|(E & Hno)];
      cbv zeta in *; rewrite E; simpl.
    - destruct (IH (after_run rest) d1) as [(es & d' & W & E' & I & R)|(W & e' & E' & C)];
        auto.
      { pose proof (after_run_length rest). lia. }
      + left. exists (x :: es), d'. split; [|split; [auto|split; [auto|]]].
        * apply (wf_header l rest d d1 x); auto.
        * eapply result_header; eauto.
      + right. split.
        * intros es Hes. destruct (Hinvw es Hes) as (es' & ->).
          apply (wf_header l rest d d1 x) in Hes; auto. exact (W es' Hes).
        * exists e'. split; auto. destruct C as [C|(C1 & C2)]; auto. right. split; auto.
          apply bad_number_after; auto.
    - right. split; [|eexists; split; [reflexivity|left; reflexivity]].
      intros es Hes. destruct (Hinvw es Hes) as (es' & ->). apply Hno.
      destruct Hes as (H1 & _ & H3 & _ & H5). simpl in H3. rewrite Hh in H3.
      inversion H3 as [|? ? (B1 & B2 & B3) _]; subst. simpl in B2, B3.
      split; [exact B3|]. split; [exact B2|]. split; [|apply H5].
      inversion H1; subst. apply (run_check rest B3) in H4.
      destruct (after_run rest) as [|y ys]; auto. simpl. apply tcheck_iff.
      inversion H4; auto. }
  destruct (str_eqb (cmd l) (lit "b")) eqn:Eb.
  { apply str_eqb_eq in Eb.
    assert (Hh : is_header l = true) by (unfold is_header; rewrite Eb; reflexivity).
    assert (Hblk : forall es, wf_from path d (l :: rest) es -> header_ok l).
    { intros es (_ & _ & H & _). simpl in H. rewrite Hh in H.
      inversion H as [|? ? (B & _) _]; auto. }
    destruct (length l =? 3) eqn:E3; simpl.
    2:{ right. split; [|eexists; split; [reflexivity|left; reflexivity]].
        intros es Hes. apply Hblk in Hes. destruct Hes as (H & _).
        apply Nat.eqb_neq in E3. apply E3. apply H; auto. }
    apply Nat.eqb_eq in E3.
    rewrite !read_float_number. unfold field.
    destruct (number_of (nth 1 l [])) as [e|] eqn:Ee; simpl.
    2:{ right. split.
        - intros es Hes. apply Hblk in Hes. destruct Hes as (H & _).
          destruct (H Eb) as (_ & (e & F) & _). congruence.
        - eexists; split; [reflexivity|]. right. split; auto. exists l. split; [left; auto|].
          right. left. split; auto. exists 1. split; [lia|auto]. }
    destruct (number_of (nth 2 l [])) as [p|] eqn:Ep; simpl.
    2:{ right. split.
        - intros es Hes. apply Hblk in Hes. destruct Hes as (H & _).
          destruct (H Eb) as (_ & _ & (p & F)). congruence.
        - eexists; split; [reflexivity|]. right. split; auto. exists l. split; [left; auto|].
          right. left. split; auto. exists 2. split; [lia|auto]. }
    apply Hhead; auto.
    - split; intro F; [|rewrite F in Eb; discriminate]. repeat split; eauto.
    - eapply number_canon; eauto.
    - eapply number_canon; eauto.
    - intro F; rewrite F in Eb; discriminate. }
  destruct (str_eqb (cmd l) (lit "d")) eqn:Ed.
  { apply str_eqb_eq in Ed.
    assert (Hh : is_header l = true) by (unfold is_header; rewrite Ed; reflexivity).
    assert (Hblk : forall es, wf_from path d (l :: rest) es -> header_ok l).
    { intros es (_ & _ & H & _). simpl in H. rewrite Hh in H.
      inversion H as [|? ? (B & _) _]; auto. }
    destruct (length l =? 2) eqn:E2; simpl.
    2:{ right. split; [|eexists; split; [reflexivity|left; reflexivity]].
        intros es Hes. apply Hblk in Hes. destruct Hes as (_ & H).
        apply Nat.eqb_neq in E2. apply E2. apply H; auto. }
    apply Nat.eqb_eq in E2.
    rewrite !read_float_number. unfold field.
    destruct (number_of (nth 1 l [])) as [e|] eqn:Ee; simpl.
    2:{ right. split.
        - intros es Hes. apply Hblk in Hes. destruct Hes as (_ & H).
          destruct (H Ed) as (_ & (e & F)). congruence.
        - eexists; split; [reflexivity|]. right. split; auto. exists l. split; [left; auto|].
          right. right. split; auto. }
    apply Hhead; auto.
    - split; intro F; [rewrite F in Ed; discriminate|]. repeat split; eauto.
    - eapply number_canon; eauto.
    - apply canon_zero.
    - intro F; rewrite F in Ed; discriminate. }
  (* unknown command *)
  simpl.
  assert (Hfl : format_lines (l :: rest) = format_lines rest)
    by (unfold format_lines; simpl; rewrite En; reflexivity).
  assert (Hb : blocks (l :: rest) = blocks rest)
    by (simpl; unfold is_header; rewrite Eb, Ed; reflexivity).
  assert (Hwf : forall es, wf_from path d (l :: rest) es <-> wf_from path d rest es).
  { intro es. unfold wf_from, formats_ok. rewrite Hfl, Hb.
    split; intros (H1 & H2); (split; [|exact H2]).
    - inversion H1; auto.
    - constructor; auto. }
  destruct (IH rest d) as [(es & d' & W & E & I & R)|(W & e & E & C)]; [lia|exact Hinv| |].
  - left. exists es, d'. rewrite Hwf. split; auto. split; auto. split; auto.
    destruct R as (R1 & R2 & R3). split; [exact R1|split].
    + rewrite R2. unfold version_from. simpl. rewrite Ev. reflexivity.
    + rewrite R3. unfold format_from. rewrite Hfl. reflexivity.
  - right. split; [intros es; rewrite Hwf; auto|]. exists e. split; auto.
    destruct C as [C|(C1 & C2)]; auto. right. split; auto. apply bad_number_weaken; auto.
Qed.
End Main.

Lemma empty_inv : desc_inv empty_desc.
Proof. split; split; constructor. Qed.

Lemma addable_nil es : addable [] es <-> ForallOrdPairs (fun x y => ~ clash x y) es.
Proof.
  rewrite addable_pairs. split; [tauto|]. intro H. split; auto.
  rewrite Forall_forall. reflexivity.
Qed.

Lemma denotes_exist path bs :
  Forall (fun b => is_header (fst b) = true) bs -> Forall block_ok bs ->
  exists es, Forall2 (block_denotes path) bs es.
Proof.
  induction bs as [|b bs IH]; intros H1 H2.
  - exists []; constructor.
  - inversion H1; subst. inversion H2; subst. destruct IH as (es & He); auto.
    destruct (block_ok_denotes path b) as (e & Hb); auto. exists (e :: es). constructor; auto.
Qed.

Lemma denotes_unique path bs es es' :
  Forall (fun b => is_header (fst b) = true) bs ->
  Forall2 (block_denotes path) bs es -> Forall2 (block_denotes path) bs es' -> es = es'.
Proof.
  intros Hh H. revert es'. induction H as [|b x bs es Hb H IH]; intros es' H'.
  - inversion H'; auto.
  - inversion H' as [|? y ? es2 Hy H2]; subst. inversion Hh; subst. f_equal; auto.
    eapply block_denotes_fun; eauto.
Qed.

Lemma wf_from_empty path toks es :
  wf_from path empty_desc toks es <->
  (well_formed path toks /\ Forall2 (block_denotes path) (blocks toks) es).
Proof.
  unfold wf_from, well_formed, formats_ok. change (entries empty_desc) with (@nil entry).
  change (d_format empty_desc) with (@None (Z * Z * Z)).
  rewrite addable_nil. split.
  - intros (H1 & (H2 & H3) & H4 & H5 & H6). repeat split; auto.
    intros es' He'. rewrite <- (denotes_unique path _ es es' (blocks_header toks) H5 He').
    exact H6.
  - intros ((H1 & H2 & H3 & H4 & H5) & H6). repeat split; auto.
Qed.

Lemma parse_t_main path toks :
  (exists es d, well_formed path toks /\ Forall2 (block_denotes path) (blocks toks) es /\
     parse_t path toks = Ok d /\ Permutation (entries d) es /\
     d_version d = version_of toks /\ d_format d = format_from None toks /\ desc_inv d)
  \/ (~ well_formed path toks /\ exists e, parse_t path toks = Err e /\
        (e = SyntaxError \/ (e = ValueError /\ bad_number toks))).
Proof.
  destruct (fill_main path (length toks) toks empty_desc (le_n _) empty_inv)
    as [(es & d & W & E & I & (R1 & R2 & R3))|(W & e & E & C)].
  - left. apply wf_from_empty in W. destruct W as (W1 & W2).
    exists es, d. split; [auto|]. split; [auto|]. split; [auto|]. split.
    + rewrite app_nil_r in R1. eapply Permutation_trans; [exact R1|].
      symmetry. apply Permutation_rev.
    + auto.
  - right. split.
    + intro Hw.
      assert (Hd := Hw). destruct Hd as (_ & _ & _ & H & _).
      destruct (denotes_exist path (blocks toks) (blocks_header toks) H) as (es & He).
      apply (W es). apply wf_from_empty. auto.
    + exists e. auto.
Qed.
