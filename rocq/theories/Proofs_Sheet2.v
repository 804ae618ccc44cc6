(** Rendering templates whose values are known only by name. *)
From Coq Require Import Ascii String List Bool Arith ZArith QArith Lia.
From Verif Require Import Base_Prelude Base_Str Base_Num Spec_Num Model_Report Spec_Report Model_Info Model_Docs
  Model_Templates Model_Jinja Model_Sheet Spec_Parser Spec_Info Spec_Sheet
  Proofs_Dict Proofs_Info Proofs_Info2 Proofs_Report Proofs_Sheet.
Import ListNotations.
Open Scope nat_scope.
Local Arguments lit : simpl never.

(** ** White space around a value *)

Section Strip.
Context {P : Type} (ev : P -> str).

Fixpoint slstrip (l : list (sym P)) : list (sym P) :=
  match l with
  | C c :: l' => if is_space c then slstrip l' else l
  | _ => l
  end.

(** No white space first. *)
Definition starts (s : str) : Prop := exists c r, s = c :: r /\ is_space c = false.

Lemma slstrip_ok l : Forall (fun p => starts (ev p)) (vars l) ->
  lstrip (expand ev l) = expand ev (slstrip l).
Proof.
  induction l as [|[c|p] l IH]; intros H; [reflexivity| |].
  - cbn [slstrip expand flat_map ex1 app lstrip]. destruct (is_space c); [apply IH, H|reflexivity].
  - inversion H as [|x y (c & r & E1 & E2) H2]; subst. cbn [slstrip expand flat_map ex1].
    rewrite E1. cbn [app lstrip]. rewrite E2. reflexivity.
Qed.
End Strip.

Definition sstrip {P} (l : list (sym P)) : list (sym P) := rev (slstrip (rev (slstrip l))).

Lemma expand_rev {P} (ev : P -> str) l : rev (expand ev l) = expand (fun p => rev (ev p)) (rev l).
Proof.
  induction l as [|x l IH]; [reflexivity|]. change (expand ev (x :: l)) with (ex1 ev x ++ expand ev l).
  cbn [rev]. rewrite rev_app_distr, IH, expand_app. f_equal. destruct x; cbn; rewrite ?app_nil_r; reflexivity.
Qed.

Lemma expand_ext {P} (f g : P -> str) l : (forall p, f p = g p) -> expand f l = expand g l.
Proof. intros H. unfold expand. apply flat_map_ext. intros [c|p]; cbn; auto. Qed.

Lemma vars_rev {P} (l : list (sym P)) : vars (rev l) = rev (vars l).
Proof.
  induction l as [|[c|p] l IH]; [reflexivity| |]; cbn [rev vars]; rewrite vars_app, IH; cbn; rewrite ?app_nil_r; reflexivity.
Qed.

Lemma slstrip_vars {P} (l : list (sym P)) : vars (slstrip l) = vars l.
Proof. induction l as [|[c|p] l IH]; cbn; try reflexivity. destruct (is_space c); [exact IH|reflexivity]. Qed.

Lemma sstrip_ok {P} (ev : P -> str) l : Forall (fun p => tight (ev p)) (vars l) ->
  strip (expand ev l) = expand ev (sstrip l).
Proof.
  intros H. unfold strip, rstrip. rewrite slstrip_ok.
  2:{ eapply Forall_impl; [|exact H]. intros p [Hp _]. exact Hp. }
  rewrite expand_rev, slstrip_ok.
  - rewrite expand_rev. unfold sstrip. apply expand_ext. intros p. apply rev_involutive.
  - rewrite vars_rev, slstrip_vars. apply Forall_rev. eapply Forall_impl; [|exact H].
    intros p [_ (r & c & E & Hc)]. exists c, (rev r). rewrite E, rev_app_distr. split; [reflexivity|exact Hc].
Qed.

(** A value alone, with white space around it. *)
Lemma lstrip_blank b s : blank b -> lstrip (b ++ s) = lstrip s.
Proof. induction 1 as [|c b Hc H IH]; [reflexivity|]. cbn. rewrite Hc. exact IH. Qed.

Lemma strip_blanks b1 s b2 : blank b1 -> blank b2 -> strip (b1 ++ s ++ b2) = strip s.
Proof.
  intros H1 H2. unfold strip. rewrite lstrip_blank by exact H1.
  destruct (in_dec bool_dec false (map is_space s)) as [I|I].
  - apply in_map_iff in I. destruct I as (c & Hc & I). apply in_split in I. destruct I as (u & w & ->).
    rewrite <- app_assoc. cbn [app]. rewrite !lstrip_app_keep by exact Hc.
    replace (lstrip u ++ c :: w ++ b2) with ((lstrip u ++ c :: w) ++ b2) by (rewrite <- app_assoc; reflexivity).
    unfold rstrip. rewrite rev_app_distr, lstrip_blank; [reflexivity|]. apply Forall_rev, H2.
  - assert (B : blank s).
    { apply Forall_forall. intros c Hc. destruct (is_space c) eqn:E; [reflexivity|].
      exfalso. apply I. rewrite <- E. apply in_map, Hc. }
    assert (L : forall b, blank b -> lstrip b = []).
    { intros b Hb. rewrite <- (app_nil_r b), lstrip_blank by exact Hb. reflexivity. }
    rewrite (L (s ++ b2)), (L s); [reflexivity|exact B|]. apply Forall_app. split; assumption.
Qed.

(** ** Simple nodes *)

Definition out (env : scope) (e : expr) : res str := v <- eval env e ;; show v.
Definition ev (env : scope) (e : expr) : str := match out env e with Ok s => s | Err _ => [] end.

Section Simple.
Context (docs : expr -> option str).

Fixpoint simple (ns : list node) : option (list (sym expr)) :=
  match ns with
  | [] => Some []
  | NText s :: r => option_map (app (map C s)) (simple r)
  | NOut e :: r => option_map (app (match docs e with Some d => map C d | None => [V e] end)) (simple r)
  | _ :: _ => None
  end.

Lemma mapM_cons {A B} (f : A -> res B) a l : mapM f (a :: l) = (b <- f a ;; bs <- mapM f l ;; Ok (b :: bs)).
Proof. reflexivity. Qed.

Lemma render_nodes_cons fuel files env n ns s t :
  render_node fuel files env n = Ok s -> render_nodes fuel files env ns = Ok t ->
  render_nodes fuel files env (n :: ns) = Ok (s ++ t).
Proof.
  unfold render_nodes. intros H1 H2. rewrite mapM_cons, H1. cbn [bind].
  destruct (mapM (render_node fuel files env) ns) as [ss|e]; cbn [bind] in *; [|discriminate].
  injection H2 as <-. reflexivity.
Qed.

Lemma render_nodes_nil fuel files env : render_nodes fuel files env [] = Ok [].
Proof. reflexivity. Qed.

Lemma simple_ok fuel files env ns l :
  simple ns = Some l ->
  (forall e d, docs e = Some d -> out env e = Ok d) ->
  Forall (fun e => exists s, out env e = Ok s) (vars l) ->
  render_nodes (S fuel) files env ns = Ok (expand (ev env) l).
Proof.
  intros H Hd. revert l H. induction ns as [|n ns IH]; intros l; cbn [simple].
  - intros H _. injection H as <-. reflexivity.
  - destruct n; try discriminate.
    + destruct (simple ns) as [l'|]; try discriminate. cbn [option_map]. intros H Hv. injection H as <-.
      rewrite expand_app, expand_text. apply render_nodes_cons; [reflexivity|].
      apply IH; [reflexivity|]. rewrite vars_app in Hv. apply Forall_app in Hv. apply Hv.
    + destruct (simple ns) as [l'|]; try discriminate. cbn [option_map]. intros H Hv. injection H as <-.
      rewrite vars_app in Hv. apply Forall_app in Hv. destruct Hv as [Hv1 Hv2].
      rewrite expand_app. apply render_nodes_cons; [|apply IH; [reflexivity|exact Hv2]].
      cbn [render_node]. change (out env e = Ok (expand (ev env) match docs e with Some d => map C d | None => [V e] end)).
      destruct (docs e) as [d|] eqn:E.
      * rewrite expand_text. apply Hd, E.
      * inversion Hv1 as [|x y (s & Hs) _]; subst. cbn. rewrite app_nil_r. unfold ev. rewrite Hs. reflexivity.
Qed.
End Simple.

Lemma render_nodes_app fuel files env a b s t :
  render_nodes fuel files env a = Ok s -> render_nodes fuel files env b = Ok t ->
  render_nodes fuel files env (a ++ b) = Ok (s ++ t).
Proof.
  revert s. induction a as [|n a IH]; intros s H1 H2.
  - cbn in H1. injection H1 as <-. exact H2.
  - unfold render_nodes in H1. rewrite mapM_cons in H1.
    destruct (render_node fuel files env n) as [x|] eqn:E; [|discriminate]. cbn [bind] in H1.
    destruct (mapM (render_node fuel files env) a) as [ss|] eqn:E2; [|discriminate].
    cbn [bind] in H1. injection H1 as <-. cbn [concat app]. rewrite <- app_assoc.
    apply render_nodes_cons; [exact E|]. apply IH; [|exact H2]. unfold render_nodes. rewrite E2. reflexivity.
Qed.

Lemma render_if fuel files env c a b v s :
  eval env c = Ok v ->
  render_nodes fuel files env (if truth v then a else b) = Ok s ->
  render_node (S fuel) files env (NIf c a b) = Ok s.
Proof. intros H1 H2. cbn [render_node]. rewrite H1. cbn [bind]. destruct (truth v); exact H2. Qed.

Lemma render_include fuel files env name src ns s :
  dget str_eqb name files = Some src -> parse src = Some ns ->
  render_nodes fuel files env ns = Ok s ->
  render_node (S fuel) files env (NInclude name) = Ok s.
Proof. intros H1 H2 H3. cbn [render_node]. rewrite H1. cbn [of_option bind]. rewrite H2. exact H3. Qed.

Lemma mapM_all {A B} (f : A -> res B) (g : A -> B) l : (forall a, In a l -> f a = Ok (g a)) ->
  mapM f l = Ok (map g l).
Proof.
  induction l as [|a l IH]; intros H; [reflexivity|]. rewrite mapM_cons, H by (left; reflexivity).
  cbn [bind]. rewrite IH by (intros x Hx; apply H; right; exact Hx). reflexivity.
Qed.

Lemma mapM_map {A B D} (f : B -> res D) (g : A -> B) l : mapM f (map g l) = mapM (fun a => f (g a)) l.
Proof. induction l as [|a l IH]; [reflexivity|]. cbn [map]. rewrite !mapM_cons, IH. reflexivity. Qed.

(** A loop over a list. *)
Lemma render_for1 {A} fuel files env x e body (inj : A -> jval) l (t : A -> str) :
  eval env e = Ok (JList (map inj l)) ->
  (forall a, In a l -> render_nodes fuel files ((x, inj a) :: env) body = Ok (t a)) ->
  render_node (S fuel) files env (NFor [x] e body) = Ok (concat (map t l)).
Proof.
  intros H1 H2. cbn [render_node]. rewrite H1. cbn [bind iterate]. rewrite mapM_map.
  rewrite (mapM_all _ t); [reflexivity|]. intros a Ha. cbn [bind_targets bind]. apply H2, Ha.
Qed.

(** A loop over the items of a dictionary. *)
Lemma render_for2 fuel files env x y e body d (t : str * jval -> str) :
  eval env e = Ok (JDict d) ->
  (forall kv, In kv d ->
     render_nodes fuel files ((x, JStr (fst kv)) :: (y, snd kv) :: env) body = Ok (t kv)) ->
  render_node (S fuel) files env (NFor [x; y] (ECall (EAttr e (lit "items"))) body) = Ok (concat (map t d)).
Proof.
  intros H1 H2. cbn [render_node eval]. rewrite H1. cbn [bind].
  change (getattr (JDict d) (lit "items")) with (@Ok jval (JItems d)). cbn [bind jcall iterate].
  rewrite mapM_map. rewrite (mapM_all _ t); [reflexivity|]. intros a Ha. cbn [bind_targets bind]. apply H2, Ha.
Qed.

(** ** Results *)

Definition info_tbl : dict str (dict str str) := Eval vm_compute in cls_1288_info results_cls.
Lemma info_tbl_eq : cls_1288_info results_cls = info_tbl.
Proof. vm_compute. reflexivity. Qed.

(** The metadata of a quantity with its value. *)
Definition with_value (v : pobj) (info : dict str str) : list (str * pobj) :=
  let i := map (fun kv => (fst kv, OStr (snd kv))) info in
  match v with ODict _ => oset (lit "data") v i | _ => oset (lit "value") v i end.

Fixpoint distinct (l : list str) : bool :=
  match l with [] => true | x :: m => negb (existsb (str_eqb x) m) && distinct m end.
Lemma str_dup (l : list str) : distinct l = true -> NoDup l.
Proof.
  induction l as [|x l IH]; intros H; [constructor|]. cbn [distinct] in H.
  apply andb_true_iff in H. destruct H as [H1 H2]. apply negb_true_iff in H1. constructor; [|exact (IH H2)].
  intros I. assert (E : existsb (str_eqb x) l = true) by (apply existsb_exists; exists x; split; [exact I|apply str_eqb_refl]).
  congruence.
Qed.

Lemma info_nodup : NoDup (map fst info_tbl).
Proof. apply str_dup. vm_compute. reflexivity. Qed.

Lemma sget_map_key {A} (F : str -> A) s labels : In s labels ->
  sget s (map (fun s => (s, F s)) labels) = Some (F s).
Proof.
  induction labels as [|x l IH]; intros H; [destruct H|]. cbn. destruct (str_eqb s x) eqn:E.
  - apply str_eqb_eq in E. subst. reflexivity.
  - apply IH. destruct H as [->|H]; [|exact H]. rewrite str_eqb_refl in E. discriminate.
Qed.

Lemma jget_map {A} (f : A -> jval) k (d : list (str * A)) :
  jget k (map (fun kv => (fst kv, f (snd kv))) d) = option_map f (sget k d).
Proof. unfold jget. induction d as [|[x y] d IH]; cbn; [reflexivity|]. destruct (str_eqb k x); [reflexivity|exact IH]. Qed.

Lemma oget_section v info : oget (lit "section") (with_value v info) = option_map OStr (sget (lit "section") info).
Proof.
  unfold with_value. unfold oget, oset.
  destruct v; rewrite sget_sset_other by (intros X; vm_compute in X; discriminate); apply oget_map_str.
Qed.

Section Results.
Context (fig : str -> pobj) (np : str -> bool) (r : jval).
Context (cls : list (str * option str)) (tbl : dict str (dict str str)).
Hypothesis Ht : cls_1288_info cls = tbl.
Hypothesis Hk : NoDup (map fst tbl).
Hypothesis Hr : (d <- obj_to_dict cls (fun n => Ok (fig n)) ;;
  ss <- sections_first d ;;
  Ok (JDict (map (fun s : str * list (str * list (str * pobj)) =>
    (fst s, JDict (map (fun r : str * list (str * pobj) =>
      (fst r, JDict (map (fun kv => (fst kv, jval_of (np (fst r)) (snd kv))) (snd r)))) (snd s)))) ss))) = Ok r.

Lemma results_lookup_gen name info sec :
  sget name tbl = Some info -> sget (lit "section") info = Some sec ->
  exists rd sd, r = JDict rd /\ jget sec rd = Some (JDict sd) /\
    jget name sd = Some (JDict (map (fun kv => (fst kv, jval_of (np name) (snd kv))) (with_value (fig name) info))).
Proof using Hr Hk Ht.
  intros Hn Hs. pose proof Hr as H.
  apply bind_ok in H. destruct H as (d & Hd & H). apply bind_ok in H. destruct H as (ss & Hss & H).
  injection H as <-.
  assert (Ed : d = map (fun ni => (fst ni, with_value (fig (fst ni)) (snd ni))) tbl).
  { unfold obj_to_dict in Hd. rewrite Ht in Hd.
    rewrite (mapM_all _ (fun ni => (fst ni, with_value (fig (fst ni)) (snd ni)))) in Hd.
    - injection Hd as <-. reflexivity.
    - intros [n i] _. reflexivity. }
  assert (N : NoDup (map fst d)).
  { rewrite Ed, map_map. cbn [fst]. exact Hk. }
  assert (I : In (name, with_value (fig name) info) d).
  { rewrite Ed. apply sget_some_in in Hn. apply in_map_iff. exists (name, info). split; [reflexivity|exact Hn]. }
  assert (S : in_section sec (name, with_value (fig name) info)).
  { unfold in_section. cbn [snd]. rewrite oget_section, Hs. reflexivity. }
  pose proof (sections_keys d ss sec N Hss) as K.
  destruct (sections_first_eq d ss N Hss) as (labels & _ & E).
  assert (L : In sec (str_sorted (str_nub labels))).
  { assert (X : In sec (map fst ss)) by (apply K; eauto).
    rewrite E, map_map in X. cbn [fst] in X. rewrite map_id in X. exact X. }
  eexists. eexists. split; [reflexivity|]. split.
  - rewrite (jget_map (fun v => JDict (map (fun r0 : str * list (str * pobj) =>
      (fst r0, JDict (map (fun kv => (fst kv, jval_of (np (fst r0)) (snd kv))) (snd r0)))) v))).
    rewrite E, sget_map_key by exact L. cbn [option_map]. reflexivity.
  - assert (X : sget name (filter (has_section sec) d) = Some (with_value (fig name) info)).
    { apply sget_in; [apply filter_nodup_keys, N|]. apply filter_In. split; [exact I|].
      apply has_section_spec, S. }
    clear -X. unfold jget. induction (filter (has_section sec) d) as [|[x y] l IH]; cbn in *; [discriminate|].
    destruct (str_eqb name x) eqn:E; [|apply IH, X]. injection X as ->.
    apply str_eqb_eq in E. subst x. reflexivity.
Qed.
End Results.

Local Strategy expand [results_by_section].
Local Strategy opaque [bind obj_to_dict cls_1288_info].
Lemma results_lookup fig np r : results_by_section (fun n => Ok (fig n)) np = Ok r ->
  forall name info sec,
  sget name info_tbl = Some info -> sget (lit "section") info = Some sec ->
  exists rd sd, r = JDict rd /\ jget sec rd = Some (JDict sd) /\
    jget name sd = Some (JDict (map (fun kv => (fst kv, jval_of (np name) (snd kv))) (with_value (fig name) info))).
Proof.
  intros H. unfold results_by_section in H.
  exact (results_lookup_gen fig np r results_cls info_tbl info_tbl_eq info_nodup H).
Qed.
