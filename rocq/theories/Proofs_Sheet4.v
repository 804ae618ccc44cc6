(** Pieces of the templates: what they print and what is read in it. *)
From Coq Require Import Ascii String List Bool Arith ZArith QArith Lia.
From Verif Require Import Base_Prelude Base_Str Base_Num Spec_Num Model_Report Spec_Report Model_Info Model_Docs
  Model_Templates Model_Jinja Model_Sheet Spec_Parser Spec_Info Spec_Sheet Spec_Sheet2 Model_Dataset
  Proofs_Dict Proofs_Info Proofs_Info2 Proofs_Report Proofs_Sheet Proofs_Sheet2 Proofs_Sheet3.
Import ListNotations.
Open Scope nat_scope.
Local Arguments lit : simpl never.

(** ** Ordinary texts *)

Definition ord1 (c : ascii) : bool := negb (existsb (chr_eqb c) special).
Definition ordb (s : str) : bool := forallb ord1 s.

Lemma ord1_ok c : ord1 c = true -> ~ In c special.
Proof.
  unfold ord1. intros H I. apply negb_true_iff in H.
  assert (E : existsb (chr_eqb c) special = true)
    by (apply existsb_exists; exists c; split; [exact I|apply chr_eqb_eq; reflexivity]).
  rewrite E in H. discriminate H.
Qed.

Lemma ordb_ok s : ordb s = true -> ordinary s.
Proof. unfold ordb, ordinary. rewrite forallb_forall, Forall_forall. intros H c Hc. apply ord1_ok, H, Hc. Qed.

Lemma ordinary_app a b : ordinary a -> ordinary b -> ordinary (a ++ b).
Proof. intros. apply Forall_app. split; assumption. Qed.

Lemma digit_ord c d : digit c d -> ord1 c = true /\ is_space c = false.
Proof.
  intros H. destruct H; split; reflexivity.
Qed.

Lemma digits_ordinary s ds : Forall2 digit s ds -> ordinary s.
Proof. induction 1 as [|c d s ds H _ IH]; constructor; [|exact IH]. apply ord1_ok, (digit_ord _ _ H). Qed.

Lemma label_ordinary n id : op_label n id -> ordinary id.
Proof.
  intros (t & ds & -> & _ & H & _). apply ordinary_app; [apply ordb_ok; reflexivity|].
  exact (digits_ordinary _ _ H).
Qed.

Lemma last_of {A} (l : list A) : l <> [] -> exists r c, l = r ++ [c].
Proof. intros H. destruct (exists_last H) as (r & c & E). eauto. Qed.

Lemma digits_last s ds : Forall2 digit s ds -> s <> [] -> exists r c, s = r ++ [c] /\ is_space c = false.
Proof.
  intros H N. destruct (last_of _ N) as (r & c & ->). exists r, c. split; [reflexivity|].
  apply Forall2_app_inv_l in H. destruct H as (d1 & d2 & _ & H & _). inversion H; subst.
  eapply digit_ord; eassumption.
Qed.

Lemma written_nice k q t : written_with k q t -> ordinary t /\ tight t.
Proof.
  intros (minus & s & ds & f & fs & -> & N & D & L & F & _).
  assert (O1 : ordinary (if minus then ["-"%char] else [])) by (destruct minus; apply ordb_ok; reflexivity).
  assert (O2 : ordinary (match k with O => [] | S _ => "."%char :: f end)).
  { destruct k; [constructor|]. constructor; [apply ord1_ok; reflexivity|]. exact (digits_ordinary _ _ F). }
  split; [apply ordinary_app; [exact O1|apply ordinary_app; [exact (digits_ordinary _ _ D)|exact O2]]|].
  split.
  - destruct D as [|c d s ds Hd D]; [contradiction|]. destruct minus.
    + eexists. eexists. split; [reflexivity|reflexivity].
    + eexists. eexists. split; [reflexivity|]. exact (proj2 (digit_ord _ _ Hd)).
  - destruct k.
    + rewrite app_nil_r. destruct (digits_last _ _ D N) as (r & c & -> & S).
      eexists. eexists. split; [rewrite app_assoc; reflexivity|exact S].
    + assert (Nf : f <> []) by (intros ->; discriminate L).
      destruct (digits_last _ _ F Nf) as (r & c & -> & S).
      exists ((if minus then ["-"%char] else []) ++ s ++ "."%char :: r), c. split; [|exact S].
      rewrite <- !app_assoc. reflexivity.
Qed.

Lemma lit_tight (s : str) c r r' c' : s = c :: r -> s = r' ++ [c'] -> is_space c = false -> is_space c' = false -> tight s.
Proof. intros H1 H2 H3 H4. split; eauto. Qed.

Lemma fmt_prec_nan k : fmt_prec k FNan = lit "nan".
Proof. destruct k; reflexivity. Qed.
Lemma fmt_prec_inf k n : fmt_prec k (FInf n) = lit (if n then "-inf" else "inf").
Proof. destruct k, n; reflexivity. Qed.

Lemma literal_nice : forall s, In s (map lit ["-"; "nan"; "inf"; "-inf"]%string) -> ordinary s /\ tight s.
Proof.
  intros s H. cbn in H. destruct H as [<-|[<-|[<-|[<-|[]]]]]; (split; [apply ordb_ok; reflexivity|]).
  - apply (lit_tight _ "-"%char [] [] "-"%char); reflexivity.
  - apply (lit_tight _ "n"%char (lit "an") (lit "na") "n"%char); reflexivity.
  - apply (lit_tight _ "i"%char (lit "nf") (lit "in") "f"%char); reflexivity.
  - apply (lit_tight _ "-"%char (lit "inf") (lit "-in") "f"%char); reflexivity.
Qed.

(** A figure is shown as it is to be shown. *)
Lemma number_shows k p name : clean_figures (p_figures p) -> In name (map l_name sheet) ->
  shows k (dash_of p name) (value_of p name) (number k p name).
Proof.
  intros H I. apply in_map_iff in I. destruct I as (l & <- & L). specialize (H l L).
  unfold number, value_of, dash_of, in_names. destruct H as [(x & ->)|(O & ->)]; [|reflexivity].
  destruct x as [q|n|]; cbn [shows in_missing]; rewrite ?andb_false_r.
  - apply printed.
  - apply fmt_prec_inf.
  - destruct (existsb (str_eqb (l_name l)) optional && p_np p (l_name l)); [reflexivity|apply fmt_prec_nan].
Qed.

Lemma shows_nice k b v t : shows k b v t -> ordinary t /\ tight t.
Proof.
  destruct v as [[q|n|]|]; cbn [shows].
  - apply written_nice.
  - intros ->. apply literal_nice. destruct n; cbn; auto.
  - intros ->. apply literal_nice. destruct b; cbn; auto.
  - intros ->. apply literal_nice. cbn; auto.
Qed.

Lemma info_text_ordinary v : clean v -> ordinary (info_text v).
Proof.
  intros (s & Hs & O). unfold info_text, text.
  destruct v as [| |b|t|n|x b|l|d|d|t b]; try (rewrite Hs; exact O); try (apply ordb_ok; reflexivity).
  destruct x as [q|n|]; try (rewrite Hs; exact O). destruct b; [apply ordb_ok; reflexivity|rewrite Hs; exact O].
Qed.

Lemma plot_ordinary id c : ordinary id -> In c plot_names -> ordinary (id ++ lit "/" ++ c ++ lit ".pdf").
Proof.
  intros H I. apply ordinary_app; [exact H|].
  assert (A : forallb (fun c => ordb (lit "/" ++ c ++ lit ".pdf")) plot_names = true) by (vm_compute; reflexivity).
  rewrite forallb_forall in A. apply ordb_ok, A, I.
Qed.

Lemma kind_facts e k : kind_of e = Some k ->
  match k with
  | KPlot c => In c plot_names
  | KNum _ n | KMiss _ n => In n (map l_name sheet)
  | _ => True
  end.
Proof.
  assert (FN : forall e n, figure_name e = Some n -> In n (map l_name sheet)).
  { clear. intros e n. unfold figure_name. destruct (quantity e) as [[[sec m] field]|]; [|discriminate].
    destruct (str_eqb field (lit "value") && in_names m (map l_name sheet)) eqn:B; [|discriminate].
    destruct (known sec m); [|discriminate]. intros H. injection H as <-.
    apply andb_true_iff in B. apply in_names_in, B. }
  assert (AT : forall e' k', (match op_attr e' with
      | Some n => if str_eqb n (lit "name") then Some KName else if str_eqb n (lit "id") then Some KId else None
      | None =>
          match op_attr2 e' with
          | Some (m, c) => if str_eqb m (lit "plots") && in_names c plot_names && negb (is_method c) then Some (KPlot c) else None
          | None => None
          end
      end) = Some k' -> match k' with KPlot c => In c plot_names | KNum _ n | KMiss _ n => In n (map l_name sheet) | _ => True end).
  { clear. intros e k K. destruct (op_attr e) as [a|].
    - destruct (str_eqb a (lit "name")); [injection K as <-; exact I|].
      destruct (str_eqb a (lit "id")); [injection K as <-; exact I|discriminate K].
    - destruct (op_attr2 e) as [[m c]|]; [|discriminate K].
      destruct (str_eqb m (lit "plots") && in_names c plot_names && negb (is_method c)) eqn:X; [|discriminate K].
      injection K as <-. apply andb_true_iff in X. destruct X as [X _]. apply andb_true_iff in X.
      apply in_names_in, X. }
  intros K.
  destruct e as [| | |e0 n0|e0|f e0 arg|a b|a b|a]; try (match goal with Q : kind_of ?x = _ |- _ => exact (AT x _ Q) end).
  - destruct arg as [[| |n| | | | | |]|]; try (match goal with Q : kind_of ?x = _ |- _ => exact (AT x _ Q) end); cbn [kind_of] in K.
    + destruct (str_eqb f (lit "missingnumber")); [|discriminate K].
      destruct (figure_name e0) as [name|] eqn:F; [|discriminate K].
      destruct (in_names name optional); [|discriminate K]. injection K as <-. exact (FN _ _ F).
    + destruct (str_eqb f (lit "missing")); [|discriminate K].
      destruct (op_attr2 e0) as [[m n]|]; [|discriminate K].
      destruct (str_eqb m (lit "test_parameters") && str_eqb n (lit "Wavelength")); [|discriminate K].
      injection K as <-. exact I.
  - destruct a; try (match goal with Q : kind_of ?x = _ |- _ => exact (AT x _ Q) end); cbn [kind_of] in K.
    destruct (format_places s) as [k0|]; [|discriminate K].
    destruct (figure_name b) as [name|] eqn:F; [|discriminate K].
    destruct (in_names name optional); [discriminate K|]. injection K as <-. exact (FN _ _ F).
Qed.

Lemma kind_ordinary id p e k : ordinary id -> clean_point p -> kind_of e = Some k -> ordinary (kind_text id p k).
Proof.
  intros Hid (C1 & C2 & C3 & C4) K. pose proof (kind_facts _ _ K) as F.
  destruct k as [| | |c|n name|n name]; cbn [kind_text].
  - unfold title. destruct (p_name p); [exact Hid|exact C1].
  - exact Hid.
  - unfold wave. destruct (sget (lit "Wavelength") (p_parameters p)) as [v|] eqn:S; [|constructor].
    apply info_text_ordinary. apply sget_some_in in S. apply (C3 _ _ S).
  - apply plot_ordinary; assumption.
  - exact (proj1 (shows_nice _ _ _ _ (number_shows _ _ _ C4 F))).
  - exact (proj1 (shows_nice _ _ _ _ (number_shows _ _ _ C4 F))).
Qed.

(** ** Pieces about an operation point *)

Definition kinds_known (l : list (sym expr)) : bool :=
  forallb (fun e => match kind_of e with Some _ => true | None => false end) (vars l).

Definition piece (ns : list node)
  : option (list (list (sym expr)) * list (list (sym expr) * list (sym expr)) * list (list (list (list (sym expr))))) :=
  match simple docs ns with
  | Some l => if kinds_known l then sread l else None
  | None => None
  end.

Section Point.
Context (env : scope) (id : str) (p : point).
Hypothesis H : op_env env id p.
Hypothesis Hid : ordinary id.
Hypothesis Hp : clean_point p.

Lemma ev_kind e k : kind_of e = Some k -> ev env e = kind_text id p k.
Proof using H Hp. intros K. unfold ev. rewrite (kind_ok _ _ _ H _ _ K Hp). reflexivity. Qed.

Lemma piece_ok fuel files ns g e t : piece ns = Some (g, e, t) ->
  exists s, render_nodes (S fuel) files env ns = Ok s /\
    reads s (map (expand (ev env)) g) (map (entry_text (ev env)) e) (map (table_text (ev env)) t).
Proof using H Hid Hp.
  unfold piece. destruct (simple docs ns) as [l|] eqn:S; [|discriminate].
  destruct (kinds_known l) eqn:K; [|discriminate]. intros R.
  unfold kinds_known in K. rewrite forallb_forall in K.
  eexists. split.
  - apply (simple_ok docs fuel files env ns l S).
    + intros x d. apply (docs_ok env id p H).
    + apply Forall_forall. intros x Hx. specialize (K x Hx). destruct (kind_of x) as [k|] eqn:KX; [|discriminate].
      eexists. exact (kind_ok _ _ _ H _ _ KX Hp).
  - apply sread_ok; [|exact R]. unfold plain. apply Forall_forall. intros x Hx. specialize (K x Hx).
    destruct (kind_of x) as [k|] eqn:KX; [|discriminate]. rewrite (ev_kind _ _ KX).
    exact (kind_ordinary _ _ _ _ Hid Hp KX).
Qed.

(** Pictures. *)
Definition picture_of (l : list (sym expr)) : option str :=
  match l with
  | [V e] => match kind_of e with Some (KPlot c) => Some c | _ => None end
  | _ => None
  end.

Lemma pictures_ok g cs : map picture_of g = map Some cs ->
  map (expand (ev env)) g = map (fun c => id ++ lit "/" ++ c ++ lit ".pdf") cs.
Proof using H Hp.
  revert cs. induction g as [|l g IH]; intros [|c cs] E; try discriminate; [reflexivity|].
  cbn [map] in E. injection E as E1 E2. cbn [map]. f_equal; [|apply IH, E2].
  unfold picture_of in E1. destruct l as [|[x|e] [|y l]]; try discriminate.
  destruct (kind_of e) as [k|] eqn:K; [|discriminate]. destruct k; try discriminate. injection E1 as ->.
  cbn [expand flat_map ex1]. rewrite app_nil_r. exact (ev_kind _ _ K).
Qed.

(** Rows of the table. *)
Definition row_matches (l : line) (row : list (list (sym expr))) : bool :=
  match row with
  | a :: b :: rest =>
      (match text_of (sstrip a) with Some s => str_eqb s (l_symbol l) | None => false end) &&
      (match sstrip b with
       | [V e] => match kind_of e with
                  | Some (KNum k n) | Some (KMiss k n) => (k =? l_places l) && str_eqb n (l_name l)
                  | _ => false
                  end
       | _ => false
       end) &&
      (match rest, l_unit l with
       | [], [] => true
       | [c], [u] => match text_of (sstrip c) with Some s => str_eqb s u | None => false end
       | _, _ => false
       end)
  | _ => false
  end.

Lemma text_vars {P} (l : list (sym P)) s : text_of l = Some s -> vars l = [].
Proof.
  revert s. induction l as [|[c|q] l IH]; cbn; intros s E; try discriminate; [reflexivity|].
  destruct (text_of l) as [t|]; [|discriminate]. exact (IH t eq_refl).
Qed.

Lemma sstrip_vars {P} (l : list (sym P)) : vars (sstrip l) = vars l.
Proof.
  unfold sstrip. rewrite vars_rev, slstrip_vars, vars_rev, slstrip_vars. apply rev_involutive.
Qed.

Lemma text_cell c s : text_of (sstrip c) = Some s -> strip (expand (ev env) c) = s.
Proof.
  intros E. rewrite sstrip_ok.
  - exact (text_of_ok (ev env) _ _ E).
  - rewrite <- sstrip_vars, (text_vars _ _ E). constructor.
Qed.

Lemma row_ok l row : row_matches l row = true -> In l sheet ->
  line_shows (dash_of p) (value_of p) l (map (fun c => strip (expand (ev env) c)) row).
Proof using H Hid Hp.
  unfold row_matches. destruct row as [|a [|b rest]]; try discriminate. intros E L.
  apply andb_true_iff in E. destruct E as [E E3]. apply andb_true_iff in E. destruct E as [E1 E2].
  destruct (text_of (sstrip a)) as [s|] eqn:A; [|discriminate]. apply str_eqb_eq in E1. subst s.
  destruct (sstrip b) as [|[x|e] [|y r]] eqn:B; try discriminate.
  assert (X : exists k, kind_of e = Some k /\ kind_text id p k = number (l_places l) p (l_name l)).
  { destruct (kind_of e) as [[| | |c|k n|k n]|]; try discriminate;
      apply andb_true_iff in E2; destruct E2 as [F1 F2]; apply Nat.eqb_eq in F1; apply str_eqb_eq in F2; subst;
      eexists; (split; [reflexivity|reflexivity]). }
  destruct X as (k & K & T).
  pose proof (number_shows (l_places l) p (l_name l) (proj2 (proj2 (proj2 Hp))) (in_map l_name _ _ L)) as N.
  exists (number (l_places l) p (l_name l)). split; [|exact N].
  cbn [map]. rewrite (text_cell _ _ A). f_equal. f_equal.
  - rewrite sstrip_ok.
    + rewrite B. cbn [expand flat_map ex1]. rewrite app_nil_r, (ev_kind _ _ K). exact T.
    + rewrite <- sstrip_vars, B. cbn [vars]. constructor; [|constructor].
      rewrite (ev_kind _ _ K), T. exact (proj2 (shows_nice _ _ _ _ N)).
  - destruct rest as [|c [|d rest]]; destruct (l_unit l) as [|u [|u' us]]; try discriminate; [reflexivity|].
    destruct (text_of (sstrip c)) as [s|] eqn:Cc; [|discriminate]. apply str_eqb_eq in E3. subst s.
    cbn [map]. rewrite (text_cell _ _ Cc). reflexivity.
Qed.

Fixpoint rows_match (ls : list line) (rs : list (list (list (sym expr)))) : bool :=
  match ls, rs with
  | [], [] => true
  | l :: ls, r :: rs => row_matches l r && rows_match ls rs
  | _, _ => false
  end.

Lemma rows_ok ls rs : rows_match ls rs = true -> incl ls sheet ->
  Forall2 (line_shows (dash_of p) (value_of p)) ls (table_text (ev env) rs).
Proof using H Hid Hp.
  revert rs. induction ls as [|l ls IH]; intros [|r rs] E I; try discriminate; [constructor|].
  cbn [rows_match] in E. apply andb_true_iff in E. destruct E as [E1 E2]. constructor.
  - apply row_ok; [exact E1|apply I; left; reflexivity].
  - apply IH; [exact E2|]. intros x Hx. apply I. right. exact Hx.
Qed.

End Point.
