(** What print_results prints (C106). *)
From Coq Require Import Ascii String List Bool Arith ZArith QArith Lia.
From Verif Require Import Base_Prelude Base_Str Base_Num Model_Info Model_Xml Model_Docs Model_Print
  Spec_Info Spec_Xml Spec_Print Proofs_Dict Proofs_Info Proofs_Sheet2.
Import ListNotations.
Open Scope nat_scope.

(** ** The results by section *)

Definition sec (info : dict str str) : str :=
  match sget (lit "section") info with Some s => s | None => [] end.

Definition grouped_tbl : list (str * dict str (dict str str)) :=
  Eval vm_compute in
  map (fun s => (s, filter (fun ni : str * dict str str => str_eqb (sec (snd ni)) s) info_tbl))
      (str_sorted (str_nub (map (fun ni => sec (snd ni)) info_tbl))).
Lemma grouped_tbl_eq :
  map (fun s => (s, filter (fun ni : str * dict str str => str_eqb (sec (snd ni)) s) info_tbl))
      (str_sorted (str_nub (map (fun ni => sec (snd ni)) info_tbl))) = grouped_tbl.
Proof. vm_compute. reflexivity. Qed.

Definition filled (fig : str -> pobj) (l : dict str (dict str str)) : list (str * list (str * pobj)) :=
  map (fun ni => (fst ni, with_value (fig (fst ni)) (snd ni))) l.

Lemma all_have_section : forallb (fun ni : str * dict str str =>
  match sget (lit "section") (snd ni) with Some _ => true | None => false end) info_tbl = true.
Proof. vm_compute. reflexivity. Qed.

Section General.
Context (fig : str -> pobj) (cls : list (str * option str)) (tbl : dict str (dict str str)).
Hypothesis Ht : cls_1288_info cls = tbl.
Hypothesis Hk : NoDup (map fst tbl).
Hypothesis Hs : forallb (fun ni : str * dict str str =>
  match sget (lit "section") (snd ni) with Some _ => true | None => false end) tbl = true.

Lemma has_sec ni : In ni tbl -> sget (lit "section") (snd ni) = Some (sec (snd ni)).
Proof using Hs.
  intros H. rewrite forallb_forall in Hs. specialize (Hs ni H). unfold sec.
  destruct (sget (lit "section") (snd ni)); [reflexivity|discriminate].
Qed.

Lemma sectioned :
  (d <- obj_to_dict cls (fun n => Ok (fig n)) ;; sections_first d) =
  Ok (map (fun s => (s, filled fig (filter (fun ni : str * dict str str => str_eqb (sec (snd ni)) s) tbl)))
      (str_sorted (str_nub (map (fun ni => sec (snd ni)) tbl)))).
Proof using Ht Hk Hs.
  assert (E : obj_to_dict cls (fun n => Ok (fig n)) = Ok (filled fig tbl)).
  { unfold obj_to_dict. rewrite Ht.
    rewrite (mapM_all _ (fun ni => (fst ni, with_value (fig (fst ni)) (snd ni)))); [reflexivity|].
    intros [n i] _. reflexivity. }
  rewrite E. cbn [bind].
  assert (M : mapM section_of (map snd (filled fig tbl)) = Ok (map (fun ni => sec (snd ni)) tbl)).
  { unfold filled. rewrite map_map. cbn [snd]. rewrite mapM_map.
    apply mapM_all. intros ni H. unfold section_of. rewrite oget_section, (has_sec ni H). reflexivity. }
  unfold sections_first. rewrite M. cbn [bind]. f_equal. apply map_ext. intros s. f_equal.
  assert (F : filter (has_section s) (filled fig tbl) =
              filled fig (filter (fun ni : str * dict str str => str_eqb (sec (snd ni)) s) tbl)).
  { unfold filled. clear Hk E M Ht. pose proof has_sec as S. clear Hs. revert S.
    induction tbl as [|ni l IH]; intros S; [reflexivity|].
    cbn [map filter]. unfold has_section at 1. cbn [snd]. unfold section_of.
    rewrite oget_section, (S ni) by (left; reflexivity). cbn [option_map].
    rewrite IH by (intros x X; apply S; right; exact X).
    destruct (str_eqb (sec (snd ni)) s); reflexivity. }
  rewrite F. rewrite fill_distinct; [reflexivity|].
  simpl. unfold filled. rewrite map_map. cbn [fst].
  apply (filter_nodup_keys (fun ni : str * dict str str => str_eqb (sec (snd ni)) s)), Hk.
Qed.
End General.

Lemma mapM_fails {A B} (f : A -> res B) l : (exists a e, In a l /\ f a = Err e) -> exists e, mapM f l = Err e.
Proof.
  induction l as [|x l IH]; intros (a & e & I & E); [destruct I|]. cbn [mapM].
  destruct (f x) as [b|e'] eqn:F; cbn [bind]; [|eauto].
  destruct I as [->|I]; [congruence|]. destruct (IH (ex_intro _ a (ex_intro _ e (conj I E)))) as (e' & ->).
  cbn [bind]. eauto.
Qed.

Lemma obj_fails cls tbl attr name e :
  cls_1288_info cls = tbl -> In name (map fst tbl) -> attr name = Err e ->
  exists e', obj_to_dict cls attr = Err e'.
Proof.
  intros T I E. unfold obj_to_dict. rewrite T. apply in_map_iff in I. destruct I as ((n & i) & Q & I).
  cbn [fst] in Q. subst n. apply mapM_fails. exists (name, i), e. split; [exact I|]. rewrite E. reflexivity.
Qed.

Local Strategy opaque [bind obj_to_dict cls_1288_info].
Lemma by_section_eq fig :
  by_section (fun n => Ok (fig n)) = Ok (map (fun s => (fst s, filled fig (snd s))) grouped_tbl).
Proof.
  unfold by_section.
  rewrite (sectioned fig results_cls info_tbl info_tbl_eq info_nodup all_have_section).
  apply f_equal. rewrite <- grouped_tbl_eq, map_map. apply map_ext. intros s. cbn [fst snd]. reflexivity.
Qed.

(** ** The catalogue *)

Definition card (ni : str * dict str str) : str * str * option str :=
  (fst ni, match sget (lit "short") (snd ni) with Some s => s | None => [] end,
   sget (lit "symbol") (snd ni)).

Lemma catalogue_eq : catalogue = map (fun s => (fst s, map card (snd s))) grouped_tbl.
Proof. vm_compute. reflexivity. Qed.

Definition plain_info (ni : str * dict str str) : bool :=
  match sget (lit "short") (snd ni) with Some _ => true | None => false end
  && match sget (lit "value") (snd ni) with Some _ => false | None => true end
  && match sget (lit "data") (snd ni) with Some _ => false | None => true end.
Lemma grouped_plain : forallb (fun s : str * dict str (dict str str) => forallb plain_info (snd s)) grouped_tbl = true.
Proof. vm_compute. reflexivity. Qed.

(** ** Lines *)

Lemma max_sub n m : m + (n - m) = max n m.
Proof. lia. Qed.

Lemma blanks_repeat n : blanks_only (repeat " "%char n).
Proof. induction n; constructor; auto. Qed.

Lemma ljust_column n s : left_column n s (ljust n s).
Proof.
  exists (repeat " "%char (n - length s)). split; [apply blanks_repeat|]. split; [reflexivity|].
  unfold ljust. rewrite app_length, repeat_length. apply max_sub.
Qed.
Lemma rjust_column n s : right_column n s (rjust n s).
Proof.
  exists (repeat " "%char (n - length s)). split; [apply blanks_repeat|]. split; [reflexivity|].
  unfold rjust. rewrite app_length, repeat_length. lia.
Qed.

Lemma stars_rule : rule "*" stars.
Proof. split; [reflexivity|]. unfold stars. repeat constructor. Qed.
Lemma dashes_rule : rule "-" dashes.
Proof. split; [reflexivity|]. unfold dashes. repeat constructor. Qed.

Lemma oget_with k v info : k <> lit "value" -> k <> lit "data" ->
  oget k (with_value v info) = option_map OStr (sget k info).
Proof.
  intros H1 H2. unfold with_value, oget, oset.
  destruct v; (rewrite sget_sset_other by congruence); apply oget_map_str.
Qed.

Lemma oget_value v info : (forall d, v <> ODict d) -> oget (lit "value") (with_value v info) = Some v.
Proof.
  intros H. unfold with_value, oget, oset.
  destruct v; try (rewrite sget_sset_same; reflexivity). elim (H d). reflexivity.
Qed.

Lemma oget_no_value d info : sget (lit "value") info = None ->
  oget (lit "value") (with_value (ODict d) info) = None.
Proof.
  intros H. unfold with_value, oget, oset.
  rewrite sget_sset_other by (intros X; vm_compute in X; discriminate).
  etransitivity; [apply oget_map_str|]. rewrite H. reflexivity.
Qed.

Lemma fits fig ni : plain_info ni = true -> (forall d, fig (fst ni) <> ODict d) ->
  result_line (with_value (fig (fst ni)) (snd ni)) =
  Ok (ljust 50 (snd (fst (card ni))) ++
      ljust 30 (match snd (card ni) with Some s => s | None => lit "None" end) ++
      rjust 10 (py_str (fig (fst ni)))).
Proof.
  intros P V. unfold plain_info in P. apply andb_true_iff in P. destruct P as [P _].
  apply andb_true_iff in P. destruct P as [P _].
  unfold result_line, str_get, card. cbn [fst snd].
  rewrite oget_with by (intros X; vm_compute in X; discriminate).
  destruct (sget (lit "short") (snd ni)) as [s|]; [|discriminate]. cbn [option_map].
  rewrite oget_with by (intros X; vm_compute in X; discriminate).
  rewrite oget_value by exact V.
  destruct (sget (lit "symbol") (snd ni)) as [y|]; reflexivity.
Qed.

Lemma attributes_lines fig l :
  forallb plain_info l = true -> (forall ni, In ni l -> scalar_or_arrays (fig (fst ni))) ->
  exists ls, print_attributes (filled fig l) = (ls, Ok tt) /\ lines_of fig (map card l) ls.
Proof.
  induction l as [|ni l IH]; intros P S.
  - exists []. split; [reflexivity|constructor].
  - cbn [forallb] in P. apply andb_true_iff in P. destruct P as [P P'].
    destruct (IH P') as (ls & E & L); [intros x X; apply S; right; exact X|].
    unfold filled. cbn [map print_attributes]. fold (filled fig l).
    assert (C : card ni = (fst ni, snd (fst (card ni)), snd (card ni))) by reflexivity.
    assert (Sc : (forall d, fig (fst ni) <> ODict d) -> forall t, shown (fig (fst ni)) t ->
       t = py_str (fig (fst ni)) ->
       exists ls0, match oget (lit "value") (with_value (fig (fst ni)) (snd ni)) with
         | Some _ => match result_line (with_value (fig (fst ni)) (snd ni)) with
                     | Ok l0 => and_then ([l0], Ok tt) (print_attributes (filled fig l))
                     | Err e => ([], Err e) end
         | None => print_attributes (filled fig l) end = (ls0, Ok tt) /\ lines_of fig (card ni :: map card l) ls0).
    { intros V t Ht Et. rewrite (oget_value _ _ V), (fits fig ni P V), E. cbn [and_then fst snd app].
      eexists. split; [reflexivity|]. rewrite C.
      eapply lo_scalar; [exact Ht| |exact L].
      eexists _, _, _. split; [apply ljust_column|]. split; [apply ljust_column|].
      split; [rewrite Et; apply rjust_column|]. reflexivity. }
    destruct (S ni (or_introl eq_refl)) as [H|[(x & H)|(d & H)]].
    + eapply Sc; [congruence| rewrite H; constructor|rewrite H; reflexivity].
    + eapply Sc; [congruence| rewrite H; constructor|rewrite H; reflexivity].
    + rewrite H. unfold plain_info in P. apply andb_true_iff in P. destruct P as [P _].
      apply andb_true_iff in P. destruct P as [_ P].
      rewrite oget_no_value by (destruct (sget (lit "value") (snd ni)); [discriminate|reflexivity]).
      exists ls. split; [exact E|]. rewrite C. eapply lo_arrays; [exact H|exact L].
Qed.

Lemma sections_page fig g :
  forallb (fun s : str * dict str (dict str str) => forallb plain_info (snd s)) g = true ->
  (forall s ni, In s g -> In ni (snd s) -> scalar_or_arrays (fig (fst ni))) ->
  exists p, and_then (print_sections (map (fun s => (fst s, filled fig (snd s))) g)) ([stars; lit " "], Ok tt) = (p, Ok tt) /\
            page fig (map (fun s => (fst s, map card (snd s))) g) p.
Proof.
  induction g as [|[s l] g IH]; intros P S.
  - eexists. split; [reflexivity|]. constructor. exact stars_rule.
  - cbn [forallb snd] in P. apply andb_true_iff in P. destruct P as [P P'].
    destruct (IH P') as (p & E & L). { intros t ni T N. exact (S t ni (or_intror T) N). }
    destruct (attributes_lines fig l P) as (ls & A & B). { intros ni N. exact (S (s, l) ni (or_introl eq_refl) N). }
    cbn [map fst snd print_sections]. rewrite A.
    destruct (print_sections (map (fun s0 => (fst s0, filled fig (snd s0))) g)) as [q r].
    destruct r as [u|e]; cbn [and_then fst snd app] in E |- *; [|discriminate E].
    eexists. split; [reflexivity|].
    injection E as <-. rewrite <- app_assoc.
    exact (pg_section fig s (map card l) _ stars dashes ls _ stars_rule dashes_rule B L).
Qed.

Lemma print_results_eq fig : print_results (fun n => Ok (fig n)) =
  and_then (print_sections (map (fun s => (fst s, filled fig (snd s))) grouped_tbl)) ([stars; lit " "], Ok tt).
Proof. unfold print_results. rewrite by_section_eq. reflexivity. Qed.

Lemma printed_page fig :
  (forall s name short symbol, In (s, (name, short, symbol)) quantities -> scalar_or_arrays (fig name)) ->
  exists p, print_results (fun n => Ok (fig n)) = (p, Ok tt) /\ page fig catalogue p.
Proof.
  intros H. rewrite catalogue_eq. unfold print_results. rewrite by_section_eq.
  apply sections_page; [exact grouped_plain|].
  intros s ni Hs Hn. apply (H (fst s) (fst ni) (snd (fst (card ni))) (snd (card ni))).
  unfold quantities. rewrite catalogue_eq. apply in_flat_map.
  exists (fst s, map card (snd s)). split.
  - apply in_map_iff. exists s. split; [reflexivity|exact Hs].
  - apply in_map_iff. exists (card ni). split; [destruct ni; reflexivity|]. apply in_map, Hn.
Qed.

(** A quantity that cannot be computed: nothing is printed. *)
Lemma failing_prints_nothing attr e : by_section attr = Err e -> print_results attr = ([], Err e).
Proof. intros H. unfold print_results. rewrite H. reflexivity. Qed.

Lemma names_of_catalogue : map (fun q : str * (str * str * option str) => fst (fst (snd q))) quantities =
  flat_map (fun s => map fst (snd s)) grouped_tbl.
Proof. vm_compute. reflexivity. Qed.
Lemma grouped_in_info : forallb (fun n => existsb (str_eqb n) (map fst info_tbl))
  (flat_map (fun s => map fst (snd s)) grouped_tbl) = true.
Proof. vm_compute. reflexivity. Qed.

Lemma print_fails attr s name short symbol e :
  In (s, (name, short, symbol)) quantities -> attr name = Err e ->
  exists e', print_results attr = ([], Err e').
Proof.
  intros H E.
  assert (I : In name (map fst info_tbl)).
  { pose proof grouped_in_info as G. rewrite forallb_forall in G.
    assert (X : In name (flat_map (fun s => map fst (snd s)) grouped_tbl)).
    { rewrite <- names_of_catalogue. apply in_map_iff. exists (s, (name, short, symbol)). auto. }
    specialize (G name X). apply existsb_exists in G. destruct G as (y & Y & Q).
    apply str_eqb_eq in Q. subst y. exact Y. }
  pose proof (obj_fails results_cls info_tbl attr name e info_tbl_eq I E) as O.
  destruct O as (e' & O). exists e'. apply failing_prints_nothing. unfold by_section. rewrite O. reflexivity.
Qed.
