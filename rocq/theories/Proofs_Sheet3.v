(** The templates of the report, piece by piece. *)
From Coq Require Import Ascii String List Bool Arith ZArith QArith Lia.
From Verif Require Import Base_Prelude Base_Str Base_Num Spec_Num Model_Report Spec_Report Model_Info Model_Docs
  Model_Templates Model_Jinja Model_Sheet Spec_Parser Spec_Info Spec_Sheet Spec_Sheet2
  Proofs_Dict Proofs_Info Proofs_Info2 Proofs_Report Proofs_Sheet Proofs_Sheet2.
Import ListNotations.
Open Scope nat_scope.
Local Arguments lit : simpl never.

Definition ast (src : str) : list node := match parse src with Some l => l | None => [] end.
Definition branch (n : node) (yes : bool) : list node :=
  match n with NIf _ a b => if yes then a else b | NFor _ _ b => b | _ => [] end.
Definition at_node (i : nat) (l : list node) : node := nth i l (NText []).

(** ** Expressions about an operation point *)

Definition op_attr (e : expr) : option str :=
  match e with
  | EAttr (EVar o) n => if str_eqb o (lit "op") then Some n else None
  | _ => None
  end.
Definition op_attr2 (e : expr) : option (str * str) :=
  match e with
  | EAttr e' n => match op_attr e' with Some m => Some (m, n) | None => None end
  | _ => None
  end.
(** op.results.section.name.field *)
Definition quantity (e : expr) : option (str * str * str) :=
  match e with
  | EAttr (EAttr (EAttr e' sec) name) field =>
      match op_attr e' with
      | Some n => if str_eqb n (lit "results") then Some (sec, name, field) else None
      | None => None
      end
  | _ => None
  end.

Definition is_method (n : str) : bool := existsb (str_eqb n) dict_methods.

(** The section of a quantity, and its metadata. *)
Definition known (sec name : str) : option (dict str str) :=
  match sget name info_tbl with
  | Some info =>
      match sget (lit "section") info with
      | Some s => if str_eqb s sec && negb (is_method sec) && negb (is_method name) then Some info else None
      | None => None
      end
  | None => None
  end.

Definition docs (e : expr) : option str :=
  match quantity e with
  | Some (sec, name, field) =>
      if str_eqb field (lit "value") || str_eqb field (lit "data") || is_method field then None
      else match known sec name with Some info => sget field info | None => None end
  | None => None
  end.

Inductive kind : Type :=
| KName | KId | KWave
| KPlot (c : str)
| KNum (k : nat) (name : str)
| KMiss (k : nat) (name : str).

Definition in_names (n : str) (l : list str) : bool := existsb (str_eqb n) l.

Definition figure_name (e : expr) : option str :=
  match quantity e with
  | Some (sec, name, field) =>
      if str_eqb field (lit "value") && in_names name (map l_name sheet)
      then match known sec name with Some _ => Some name | None => None end else None
  | None => None
  end.

Definition kind_of (e : expr) : option kind :=
  match e with
  | EMod (EStr f) e' =>
      match format_places f, figure_name e' with
      | Some k, Some n => if in_names n optional then None else Some (KNum k n)
      | _, _ => None
      end
  | EFilter f e' (Some (ENum k)) =>
      if str_eqb f (lit "missingnumber")
      then match figure_name e' with
           | Some n => if in_names n optional then Some (KMiss k n) else None
           | None => None
           end
      else None
  | EFilter f e' None =>
      if str_eqb f (lit "missing")
      then match op_attr2 e' with
           | Some (m, n) => if str_eqb m (lit "test_parameters") && str_eqb n (lit "Wavelength") then Some KWave else None
           | None => None
           end
      else None
  | _ =>
      match op_attr e with
      | Some n => if str_eqb n (lit "name") then Some KName else if str_eqb n (lit "id") then Some KId else None
      | None =>
          match op_attr2 e with
          | Some (m, c) => if str_eqb m (lit "plots") && in_names c plot_names && negb (is_method c) then Some (KPlot c) else None
          | None => None
          end
      end
  end.

(** ** The dictionary of an operation point in a template *)

Definition title (id : str) (p : point) : str := match p_name p with [] => id | n => n end.

Record op_env (env : scope) (id : str) (p : point) : Prop := mkOpEnv
  { oe_ex : exists opd r ps,
      jget (lit "op") env = Some (JDict opd) /\
      jget (lit "name") opd = Some (JStr (title id p)) /\
      jget (lit "id") opd = Some (JStr id) /\
      jget (lit "results") opd = Some r /\
      results_by_section (fun n => Ok (p_figures p n)) (p_np p) = Ok r /\
      jget (lit "plots") opd = Some (JDict ps) /\
      (forall c, In c plot_names -> jget c ps = Some (JStr (id ++ lit "/" ++ c ++ lit ".pdf"))) /\
      jget (lit "camera_settings") opd = Some (JDict (p_settings p)) /\
      jget (lit "test_parameters") opd = Some (JDict (p_parameters p)) /\
      truth (match jget (lit "summary_only") opd with Some v => v | None => JUndef end) = p_summary p }.

(** What an expression prints. *)
Definition wave (p : point) : str :=
  match sget (lit "Wavelength") (p_parameters p) with Some v => info_text v | None => [] end.

Definition number (k : nat) (p : point) (name : str) : str :=
  match p_figures p name with
  | ONum (NF x) => if in_names name optional && in_missing (VFloat x (p_np p name)) then lit "-" else fmt_prec k x
  | _ => lit "-"
  end.

Definition kind_text (id : str) (p : point) (k : kind) : str :=
  match k with
  | KName => title id p
  | KId => id
  | KWave => wave p
  | KPlot c => id ++ lit "/" ++ c ++ lit ".pdf"
  | KNum k n | KMiss k n => number k p n
  end.

Lemma getattr_dict d n : is_method n = false ->
  getattr (JDict d) n = Ok (match jget n d with Some x => x | None => JUndef end).
Proof.
  intros H. unfold getattr. destruct (str_eqb n (lit "items")) eqn:E.
  - apply str_eqb_eq in E. subst n. vm_compute in H. discriminate.
  - unfold is_method in H. rewrite H. reflexivity.
Qed.

Lemma in_names_in n l : in_names n l = true <-> In n l.
Proof.
  unfold in_names. rewrite existsb_exists. split.
  - intros (x & Hx & E). apply str_eqb_eq in E. subst. exact Hx.
  - intros H. exists n. split; [exact H|apply str_eqb_refl].
Qed.

Lemma known_spec sec name info : known sec name = Some info ->
  sget name info_tbl = Some info /\ sget (lit "section") info = Some sec /\
  is_method sec = false /\ is_method name = false.
Proof.
  unfold known. destruct (sget name info_tbl) as [i|]; [|discriminate].
  destruct (sget (lit "section") i) as [s|] eqn:E; [|discriminate].
  destruct (str_eqb s sec && negb (is_method sec) && negb (is_method name)) eqn:B; [|discriminate].
  intros H. injection H as <-. apply andb_true_iff in B. destruct B as [B B3].
  apply andb_true_iff in B. destruct B as [B1 B2]. apply str_eqb_eq in B1. subst s.
  apply negb_true_iff in B2, B3. repeat split; assumption.
Qed.

Lemma quantity_shape e sec name field : quantity e = Some (sec, name, field) ->
  e = EAttr (EAttr (EAttr (EAttr (EVar (lit "op")) (lit "results")) sec) name) field.
Proof.
  unfold quantity. destruct e as [| | |e f| | | | |]; try discriminate.
  destruct e as [| | |e n| | | | |]; try discriminate.
  destruct e as [| | |e s| | | | |]; try discriminate.
  unfold op_attr. destruct e as [| | |e m| | | | |]; try discriminate.
  destruct e as [o| | | | | | | |]; try discriminate.
  destruct (str_eqb o (lit "op")) eqn:E; try discriminate.
  destruct (str_eqb m (lit "results")) eqn:E2; try discriminate.
  intros H. injection H as <- <- <-. apply str_eqb_eq in E, E2. subst. reflexivity.
Qed.

Section Env.
Context (env : scope) (id : str) (p : point).
Hypothesis H : op_env env id p.

Lemma eval_quantity sec name field info :
  known sec name = Some info -> is_method field = false ->
  eval env (EAttr (EAttr (EAttr (EAttr (EVar (lit "op")) (lit "results")) sec) name) field)
  = Ok (match option_map (jval_of (p_np p name)) (sget field (with_value (p_figures p name) info)) with
        | Some v => v | None => JUndef end).
Proof using H.
  intros K M. destruct H as [(opd & r & ps & E1 & _ & _ & E2 & E3 & _)].
  destruct (known_spec _ _ _ K) as (K1 & K2 & K3 & K4).
  destruct (results_lookup _ _ _ E3 name info sec K1 K2) as (rd & sd & -> & J1 & J2).
  cbn [eval]. rewrite E1. cbn [bind]. rewrite getattr_dict by reflexivity. rewrite E2. cbn [bind].
  rewrite getattr_dict by exact K3. rewrite J1. cbn [bind].
  rewrite getattr_dict by exact K4. rewrite J2. cbn [bind].
  rewrite getattr_dict by exact M. rewrite jget_map. reflexivity.
Qed.

Lemma docs_ok e d : docs e = Some d -> out env e = Ok d.
Proof using H.
  unfold docs. destruct (quantity e) as [[[sec name] field]|] eqn:Q; [|discriminate].
  destruct (str_eqb field (lit "value") || str_eqb field (lit "data") || is_method field) eqn:B; [discriminate|].
  apply orb_false_iff in B. destruct B as [B B3]. apply orb_false_iff in B. destruct B as [B1 B2].
  destruct (known sec name) as [info|] eqn:K; [|discriminate]. intros Hd.
  rewrite (quantity_shape _ _ _ _ Q). unfold out. rewrite (eval_quantity _ _ _ _ K B3).
  assert (X : sget field (with_value (p_figures p name) info) = Some (OStr d)).
  { assert (Y : sget field (map (fun kv => (fst kv, OStr (snd kv))) info) = Some (OStr d)).
    { change (oget field (map (fun kv => (fst kv, OStr (snd kv))) info) = Some (OStr d)).
      rewrite oget_map_str, Hd. reflexivity. }
    unfold with_value. unfold oset. apply str_eqb_neq in B1, B2.
    destruct (p_figures p name); rewrite sget_sset_other by assumption; exact Y. }
  rewrite X. reflexivity.
Qed.

Lemma value_field name info : sget (lit "value") (with_value (p_figures p name) info)
  = match p_figures p name with
    | ODict _ => sget (lit "value") (with_value (p_figures p name) info)
    | v => Some v
    end.
Proof. destruct (p_figures p name) eqn:E; unfold with_value, oset; rewrite ?sget_sset_same; reflexivity. Qed.

Lemma figure_ok e name : figure_name e = Some name -> clean_figures (p_figures p) ->
  In name (map l_name sheet) /\
  eval env e = Ok (jval_of (p_np p name) (p_figures p name)) /\
  ((exists x, p_figures p name = ONum (NF x)) \/
   (in_names name optional = true /\ p_figures p name = ONone)).
Proof using H.
  unfold figure_name. destruct (quantity e) as [[[sec n] field]|] eqn:Q; [|discriminate].
  destruct (str_eqb field (lit "value") && in_names n (map l_name sheet)) eqn:B; [|discriminate].
  apply andb_true_iff in B. destruct B as [B1 B2]. apply str_eqb_eq in B1. subst field.
  destruct (known sec n) as [info|] eqn:K; [|discriminate]. intros E C. injection E as <-.
  apply in_names_in in B2. split; [exact B2|].
  apply in_map_iff in B2. destruct B2 as (l & <- & L). specialize (C l L).
  rewrite (quantity_shape _ _ _ _ Q), (eval_quantity _ _ _ _ K) by reflexivity. rewrite value_field.
  destruct C as [(x & ->)|(O & ->)].
  - split; [reflexivity|]. left. eauto.
  - split; [reflexivity|]. right. split; [|reflexivity]. apply in_names_in, O.
Qed.

Lemma op_attr_ok e n : op_attr e = Some n -> e = EAttr (EVar (lit "op")) n.
Proof.
  unfold op_attr. destruct e as [| | |e m| | | | |]; try discriminate.
  destruct e as [o| | | | | | | |]; try discriminate. destruct (str_eqb o (lit "op")) eqn:E; [|discriminate].
  intros X. injection X as <-. apply str_eqb_eq in E. subst. reflexivity.
Qed.

Lemma op_attr2_ok e m n : op_attr2 e = Some (m, n) -> e = EAttr (EAttr (EVar (lit "op")) m) n.
Proof.
  unfold op_attr2. destruct e as [| | |e k| | | | |]; try discriminate.
  destruct (op_attr e) as [a|] eqn:E; [|discriminate]. intros X. injection X as <- <-.
  rewrite (op_attr_ok _ _ E). reflexivity.
Qed.

Lemma out_missing e v : eval env e = Ok v -> clean v ->
  out env (EFilter (lit "missing") e None) = Ok (info_text v).
Proof.
  intros E (s & Hs & _). unfold out. cbn [eval]. rewrite E. cbn [bind].
  unfold apply_filter. change (str_eqb (lit "missing") (lit "missing")) with true. cbv iota.
  unfold info_text, text. destruct v as [| |b|t|n|x b|l|d|d|t b]; try reflexivity; try discriminate Hs.
  destruct x as [q| |]; try reflexivity. destruct b; reflexivity.
Qed.

Lemma out_missing_undef e : eval env e = Ok JUndef ->
  out env (EFilter (lit "missing") e None) = Ok [].
Proof. intros E. unfold out. cbn [eval]. rewrite E. reflexivity. Qed.

Lemma kind_ok e k : kind_of e = Some k -> clean_point p -> out env e = Ok (kind_text id p k).
Proof using H.
  intros K (C1 & C2 & C3 & C4). pose proof H as H0.
  destruct H0 as [(opd & r & ps & E1 & E2 & E3 & E4 & E5 & E6 & E7 & E8 & E9 & E10)]. clear E5.
  assert (AT : forall e' k', (match op_attr e' with
      | Some n => if str_eqb n (lit "name") then Some KName else if str_eqb n (lit "id") then Some KId else None
      | None =>
          match op_attr2 e' with
          | Some (m, c) => if str_eqb m (lit "plots") && in_names c plot_names && negb (is_method c) then Some (KPlot c) else None
          | None => None
          end
      end) = Some k' -> out env e' = Ok (kind_text id p k')).
  { clear e k K. intros e k K. destruct (op_attr e) as [a|] eqn:A.
    - apply op_attr_ok in A. subst e. unfold out. cbn [eval]. rewrite E1. cbn [bind].
      destruct (str_eqb a (lit "name")) eqn:N1.
      { injection K as <-. apply str_eqb_eq in N1. subst a. rewrite getattr_dict by reflexivity. rewrite E2. reflexivity. }
      destruct (str_eqb a (lit "id")) eqn:N2; [|discriminate].
      injection K as <-. apply str_eqb_eq in N2. subst a. rewrite getattr_dict by reflexivity. rewrite E3. reflexivity.
    - destruct (op_attr2 e) as [[m c]|] eqn:B; [|discriminate]. apply op_attr2_ok in B. subst e.
      destruct (str_eqb m (lit "plots") && in_names c plot_names && negb (is_method c)) eqn:X; [|discriminate].
      injection K as <-. apply andb_true_iff in X. destruct X as [X X3]. apply andb_true_iff in X.
      destruct X as [X1 X2]. apply str_eqb_eq in X1. subst m. apply in_names_in in X2. apply negb_true_iff in X3.
      unfold out. cbn [eval]. rewrite E1. cbn [bind]. rewrite getattr_dict by reflexivity. rewrite E6. cbn [bind].
      rewrite getattr_dict by exact X3. rewrite (E7 _ X2). reflexivity. }
  destruct e as [| | |e0 n0|e0|f e0 arg|a b|a b|a]; try (apply AT; exact K).
  - (* filters *)
    destruct arg as [[| |n| | | | | |]|]; cbn [kind_of] in K; try (apply AT; exact K).
    + destruct (str_eqb f (lit "missingnumber")) eqn:F; [|discriminate]. apply str_eqb_eq in F. subst f.
      destruct (figure_name e0) as [name|] eqn:FN; [|discriminate].
      destruct (in_names name optional) eqn:O; [|discriminate]. injection K as <-.
      destruct (figure_ok _ _ FN C4) as (_ & V & W).
      unfold out. cbn [eval]. rewrite V. cbn [bind]. unfold apply_filter.
      change (str_eqb (lit "missingnumber") (lit "missing")) with false.
      change (str_eqb (lit "missingnumber") (lit "missingnumber")) with true. cbv iota.
      cbn [kind_text]. unfold number. rewrite O. cbn [andb].
      destruct W as [(x & ->)|(_ & ->)]; cbn [jval_of as_fval]; rewrite Nat2Z.id; [|reflexivity].
      unfold missingnumber. destruct (in_missing (VFloat x (p_np p name))); reflexivity.
    + destruct (str_eqb f (lit "missing")) eqn:F; [|discriminate]. apply str_eqb_eq in F. subst f.
      destruct (op_attr2 e0) as [[m n]|] eqn:A; [|discriminate]. apply op_attr2_ok in A. subst e0.
      destruct (str_eqb m (lit "test_parameters") && str_eqb n (lit "Wavelength")) eqn:X; [|discriminate].
      injection K as <-. apply andb_true_iff in X. destruct X as [X1 X2]. apply str_eqb_eq in X1, X2. subst m n.
      assert (V : eval env (EAttr (EAttr (EVar (lit "op")) (lit "test_parameters")) (lit "Wavelength"))
              = Ok (match sget (lit "Wavelength") (p_parameters p) with Some v => v | None => JUndef end)).
      { cbn [eval]. rewrite E1. cbn [bind]. rewrite getattr_dict by reflexivity. rewrite E9. cbn [bind].
        rewrite getattr_dict by reflexivity. reflexivity. }
      cbn [kind_text]. unfold wave. destruct (sget (lit "Wavelength") (p_parameters p)) as [v|] eqn:S.
      * apply out_missing; [exact V|]. apply sget_some_in in S. apply (C3 _ _ S).
      * apply out_missing_undef, V.
  - (* numbers *)
    destruct a; cbn [kind_of] in K; try (apply AT; exact K).
    destruct (format_places s) as [k0|] eqn:F; [|discriminate].
    destruct (figure_name b) as [name|] eqn:FN; [|discriminate].
    destruct (in_names name optional) eqn:O; [discriminate|]. injection K as <-.
    destruct (figure_ok _ _ FN C4) as (_ & V & W).
    destruct W as [(x & W)|(O' & _)]; [|congruence].
    unfold out. cbn [eval]. rewrite V, W. cbn [bind jval_of percent]. rewrite F. cbn [bind show].
    cbn [kind_text]. unfold number. rewrite W, O. reflexivity.
Qed.

Lemma summary_ok : exists v, eval env (EAttr (EVar (lit "op")) (lit "summary_only")) = Ok v /\ truth v = p_summary p.
Proof using H.
  destruct H as [(opd & r & ps & E1 & _ & _ & _ & _ & _ & _ & _ & _ & E10)].
  eexists. split; [|exact E10]. cbn [eval]. rewrite E1. cbn [bind]. apply getattr_dict. reflexivity.
Qed.

Lemma settings_ok : eval env (EAttr (EVar (lit "op")) (lit "camera_settings")) = Ok (JDict (p_settings p)) /\
  eval env (EAttr (EVar (lit "op")) (lit "test_parameters")) = Ok (JDict (p_parameters p)).
Proof using H.
  destruct H as [(opd & r & ps & E1 & _ & _ & _ & _ & _ & _ & E8 & E9 & _)].
  split; cbn [eval]; rewrite E1; cbn [bind]; rewrite getattr_dict by reflexivity.
  - rewrite E8. reflexivity.
  - rewrite E9. reflexivity.
Qed.
End Env.
