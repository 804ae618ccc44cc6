(** Proofs about doc string metadata and grouping by section. *)
From Coq Require Import Ascii String List Bool Arith Lia Permutation Sorted.
From Verif Require Import Base_Prelude Base_Str Base_Num Model_Info Spec_Parser Spec_Info
  Proofs_Num Proofs_Str Proofs_Dict.
Import ListNotations.
Open Scope nat_scope.

(** ** Stripping *)

Lemma lstrip_split s : exists b, blank b /\ s = b ++ lstrip s.
Proof.
  induction s as [|c t (b & Hb & E)].
  - exists []. split; constructor.
  - simpl. destruct (is_space c) eqn:Hc.
    + exists (c :: b). split; [constructor; auto|]. simpl. congruence.
    + exists []. split; [constructor|reflexivity].
Qed.

Lemma lstrip_app_keep u c w : is_space c = false -> lstrip (u ++ c :: w) = lstrip u ++ c :: w.
Proof.
  intro H. induction u as [|x u IH]; simpl.
  - rewrite H. reflexivity.
  - destruct (is_space x); auto.
Qed.

Lemma rstrip_app_keep s c r : is_space c = false ->
  rstrip (s ++ c :: r) = s ++ c :: rstrip r.
Proof.
  intro H. unfold rstrip. rewrite rev_app_distr. simpl. rewrite <- app_assoc. simpl.
  rewrite lstrip_app_keep by auto. rewrite rev_app_distr. simpl.
  rewrite rev_involutive, <- app_assoc. reflexivity.
Qed.

Lemma rstrip_blank b : blank b -> rstrip b = [].
Proof. intro H. unfold rstrip. rewrite lstrip_blank; auto. apply blank_rev; auto. Qed.

Lemma strip_around b1 s b2 : blank b1 -> tight s -> blank b2 -> strip (b1 ++ s ++ b2) = s.
Proof.
  intros H1 ((c & r & E & Hc) & (r' & c' & E' & Hc')) H2.
  unfold strip. rewrite lstrip_blank_app by auto.
  assert (G : lstrip (s ++ b2) = s ++ b2) by (rewrite E; simpl; rewrite Hc; reflexivity).
  rewrite G, E', <- app_assoc. simpl. rewrite rstrip_app_keep by auto.
  rewrite rstrip_blank by auto. reflexivity.
Qed.

Lemma strip_tight s : tight s -> strip s = s.
Proof.
  intro H. rewrite <- (strip_around [] s []) at 2; auto; try constructor.
  simpl. rewrite app_nil_r. reflexivity.
Qed.

Lemma rstrip_last s : rstrip s <> [] -> exists r c, rstrip s = r ++ [c] /\ is_space c = false.
Proof.
  unfold rstrip. intro H.
  assert (G : forall t, lstrip t <> [] -> exists c r, lstrip t = c :: r /\ is_space c = false).
  { induction t as [|x t IH]; simpl; [congruence|]. intro Ht.
    destruct (is_space x) eqn:E; auto. exists x, t. auto. }
  destruct (G (rev s)) as (c & r & E & Hc).
  - intro F. rewrite F in H. apply H. reflexivity.
  - rewrite E. exists (rev r), c. auto.
Qed.

Lemma trim_exists l : ~ blank l ->
  exists b1 s b2, blank b1 /\ blank b2 /\ tight s /\ l = b1 ++ s ++ b2.
Proof.
  intro H. destruct (lstrip_split l) as (b1 & H1 & E).
  destruct (lstrip l) as [|c r] eqn:El.
  - exfalso. apply H. rewrite E, app_nil_r. exact H1.
  - assert (Hc : is_space c = false).
    { clear -El. induction l as [|x l IH]; simpl in El; [discriminate|].
      destruct (is_space x) eqn:Ex; auto. congruence. }
    destruct (rstrip_split (c :: r)) as (b2 & H2 & E2).
    destruct (rstrip_cons c r Hc) as (s' & Es).
    exists b1, (rstrip (c :: r)), b2. repeat split; auto.
    + exists c, s'. auto.
    + apply rstrip_last. rewrite Es. discriminate.
    + congruence.
Qed.

(** ** Lines *)

Lemma splitlines_aux_run l : forall cur s, no_break l ->
  splitlines_aux cur (l ++ s) = splitlines_aux (rev l ++ cur) s.
Proof.
  induction l as [|c l IH]; intros cur s H; simpl; auto.
  inversion H as [|? ? Hc Hl]; subst. rewrite Hc, IH by auto. rewrite <- app_assoc. reflexivity.
Qed.

Lemma doc_text_splitlines t ls : doc_text t ls -> splitlines t = ls.
Proof.
  unfold splitlines. induction 1 as [|l Hne H|l b t ls H He Ht IH].
  - reflexivity.
  - rewrite <- (app_nil_r l) at 1. rewrite splitlines_aux_run, app_nil_r by auto. simpl.
    destruct (rev l) as [|c r] eqn:E.
    + exfalso. apply Hne. rewrite <- (rev_involutive l), E. reflexivity.
    + rewrite <- E, rev_involutive. reflexivity.
  - rewrite splitlines_aux_run, app_nil_r by auto.
    destruct He as [c t Hb Hcr|t Hh|t].
    + simpl. rewrite Hb, rev_involutive. apply chr_eqb_neq in Hcr. rewrite Hcr, IH. reflexivity.
    + cbn [app splitlines_aux]. change (is_break CR) with true. cbv iota.
      rewrite rev_involutive. change (chr_eqb CR CR) with true. cbv iota.
      destruct t as [|c' t].
      * rewrite <- IH. reflexivity.
      * destruct (chr_eqb c' NL) eqn:E; [|rewrite IH; reflexivity].
        apply chr_eqb_eq in E. subst c'. simpl in Hh. congruence.
    + cbn [app splitlines_aux]. change (is_break CR) with true. cbv iota.
      rewrite rev_involutive. change (chr_eqb CR CR) with true. change (chr_eqb NL NL) with true.
      cbv iota. rewrite IH. reflexivity.
Qed.

Lemma startswith_spec p s : startswith p s = true <-> exists r, s = p ++ r.
Proof.
  revert s. induction p as [|x p IH]; intro s; simpl.
  - split; eauto.
  - destruct s as [|y s].
    + split; [discriminate|]. intros (r & E). discriminate.
    + rewrite andb_true_iff, chr_eqb_eq, IH. split.
      * intros (-> & r & ->). eauto.
      * intros (r & E). injection E as -> ->. eauto.
Qed.

Lemma strip_split l : exists b1 b2, blank b1 /\ blank b2 /\ l = b1 ++ strip l ++ b2.
Proof.
  destruct (lstrip_split l) as (b1 & H1 & E1). destruct (rstrip_split (lstrip l)) as (b2 & H2 & E2).
  exists b1, b2. repeat split; auto. unfold strip. rewrite <- E2. exact E1.
Qed.

Lemma marker_spec l : startswith marker (strip l) = true <-> marker_line l.
Proof.
  rewrite startswith_spec. split.
  - intros (r & E). destruct (strip_split l) as (b1 & b2 & H1 & H2 & El).
    exists b1, (r ++ b2). split; auto. rewrite El, E, <- app_assoc. reflexivity.
  - intros (b & r & Hb & ->). unfold strip. rewrite lstrip_blank_app by auto.
    assert (E : lstrip (directive ++ r) = directive ++ r) by reflexivity.
    rewrite E. exists (rstrip r).
    change directive with (lit ".. emva1288:" ++ [":"%char]) at 1.
    rewrite <- app_assoc. simpl ([":"%char] ++ r).
    rewrite rstrip_app_keep by reflexivity. reflexivity.
Qed.

Lemma blank_no_colon b : blank b -> Forall (fun c => chr_eqb c ":" = false) b.
Proof.
  apply Forall_impl. intros c H. apply chr_eqb_neq. intros ->. discriminate.
Qed.

Lemma no_colon k : ~ In ":"%char k -> Forall (fun c => chr_eqb c ":" = false) k.
Proof.
  intro H. apply Forall_forall. intros c Hc. apply chr_eqb_neq. intros ->. contradiction.
Qed.

Lemma tag_line_tags l k v : tag_line l k v ->
  tags_of (strip l) = [k; v] /\ startswith marker (strip l) = false /\ strip (strip l) <> [].
Proof.
  intros (b0 & b1 & b2 & b3 & b4 & H0 & H1 & H2 & H3 & H4 & Tk & Tv & Hk & ->).
  set (core := ":"%char :: b1 ++ k ++ b2 ++ ":"%char :: b3 ++ v).
  assert (El : b0 ++ ":"%char :: b1 ++ k ++ b2 ++ ":"%char :: b3 ++ v ++ b4 = b0 ++ core ++ b4).
  { unfold core. simpl. f_equal. f_equal. rewrite <- !app_assoc. simpl. rewrite <- app_assoc. reflexivity. }
  assert (Tc : tight core).
  { split.
    - exists ":"%char. eexists. split; reflexivity.
    - destruct Tv as (_ & (r & c & -> & Hc)).
      exists (":"%char :: b1 ++ k ++ b2 ++ ":"%char :: b3 ++ r), c. split; auto.
      unfold core. simpl. rewrite <- !app_assoc. simpl. rewrite <- app_assoc. reflexivity. }
  assert (Es : strip (b0 ++ ":"%char :: b1 ++ k ++ b2 ++ ":"%char :: b3 ++ v ++ b4) = core).
  { rewrite El. apply strip_around; auto. }
  rewrite Es. split; [|split].
  - unfold tags_of, split_max, core.
    assert (C1 : cut (fun x => chr_eqb x ":") (":"%char :: b1 ++ k ++ b2 ++ ":"%char :: b3 ++ v)
                 = ([], Some (b1 ++ k ++ b2 ++ ":"%char :: b3 ++ v))) by reflexivity.
    rewrite C1.
    assert (C2 : cut (fun x => chr_eqb x ":") (b1 ++ k ++ b2 ++ ":"%char :: b3 ++ v)
                 = (b1 ++ k ++ b2, Some (b3 ++ v))).
    { replace (b1 ++ k ++ b2 ++ ":"%char :: b3 ++ v) with ((b1 ++ k ++ b2) ++ ":"%char :: b3 ++ v)
        by (rewrite <- !app_assoc; reflexivity).
      apply cut_some; [|reflexivity].
      apply Forall_app; split; [apply blank_no_colon; auto|].
      apply Forall_app; split; [apply no_colon; auto|apply blank_no_colon; auto]. }
    rewrite C2. cbn [map]. rewrite strip_around by auto.
    assert (E3 : strip (b3 ++ v) = v).
    { rewrite <- (app_nil_r v) at 1. apply strip_around; auto. constructor. }
    rewrite E3. destruct Tk as ((x & r & -> & _) & _). destruct Tv as ((y & r' & -> & _) & _).
    reflexivity.
  - reflexivity.
  - rewrite strip_tight by auto. discriminate.
Qed.

Lemma note_line_tags l : ~ blank l -> ~ In ":"%char l ->
  tags_of (strip l) = [strip l] /\ startswith marker (strip l) = false /\ strip (strip l) <> [].
Proof.
  intros Hb Hc. destruct (trim_exists l Hb) as (b1 & s & b2 & H1 & H2 & T & E).
  assert (Es : strip l = s) by (rewrite E; apply strip_around; auto).
  assert (Hs : ~ In ":"%char s).
  { intro F. apply Hc. rewrite E. apply in_or_app. right. apply in_or_app. auto. }
  rewrite Es. repeat split.
  - unfold tags_of, split_max. rewrite cut_none by (apply no_colon; auto).
    cbn [map]. rewrite strip_tight by auto. destruct T as ((x & r & -> & _) & _). reflexivity.
  - destruct (startswith marker s) eqn:F; auto. apply startswith_spec in F. destruct F as (r & ->).
    exfalso. apply Hs. apply in_or_app. left. vm_compute. tauto.
  - rewrite strip_tight by auto. destruct T as ((x & r & -> & _) & _). discriminate.
Qed.

(** What the collected lines say. *)
Definition says (line : str) (t : option (str * str)) : Prop :=
  match t with
  | Some (k, v) => tags_of line = [k; v]
  | None => exists x, tags_of line = [x]
  end.

Lemma block_tag_lines i ls ts : block i ls ts -> Forall2 says (tag_lines i (map strip ls)) ts.
Proof.
  induction 1 as [i|l ls ts Hm H IH|i l ls ts Hm H IH|l k v ls ts Ht H IH|l ls ts Hb Hc H IH|l ls ts Hb H IH];
    cbn [map tag_lines].
  - constructor.
  - destruct (startswith marker (strip l)) eqn:E; auto.
    apply marker_spec in E. contradiction.
  - apply marker_spec in Hm. rewrite Hm. exact IH.
  - destruct (tag_line_tags l k v Ht) as (E1 & E2 & E3). rewrite E2.
    destruct (strip (strip l)); [congruence|]. constructor; auto.
  - destruct (note_line_tags l Hb Hc) as (E1 & E2 & E3). rewrite E2.
    destruct (strip (strip l)); [congruence|]. constructor; auto. simpl. eauto.
  - rewrite strip_blank by auto. change (startswith marker []) with false. exact IH.
Qed.

Lemma info_lookup lines ts k : Forall2 says lines ts ->
  sget k (attribute_info lines) = last_value k ts.
Proof.
  unfold attribute_info. intro H.
  assert (G : forall d, sget k (fold_left (fun d line =>
      match tags_of line with [k0; v] => sset (lower k0) v d | _ => d end) lines d)
    = match last_value k ts with Some v => Some v | None => sget k d end).
  { induction H as [|line t lines ts Hs H IH]; intro d; simpl; auto.
    rewrite IH. destruct (last_value k ts) as [v|]; auto.
    destruct t as [[k' v]|]; simpl in Hs.
    - rewrite Hs. destruct (str_eq_dec (lower k') k) as [->|N].
      + rewrite sget_sset_same. reflexivity.
      + rewrite sget_sset_other by congruence. reflexivity.
    - destruct Hs as (x & ->). reflexivity. }
  rewrite G. destruct (last_value k ts); reflexivity.
Qed.

Lemma info_nodup lines : NoDup (map fst (attribute_info lines)).
Proof.
  unfold attribute_info.
  assert (G : forall d, NoDup (map fst d) -> NoDup (map fst (fold_left (fun d line =>
      match tags_of line with [k0; v] => sset (lower k0) v d | _ => d end) lines d))).
  { induction lines as [|l lines IH]; intros d H; simpl; auto.
    apply IH. destruct (tags_of l) as [|a [|b [|c r]]]; auto. apply sset_nodup; auto. }
  apply G. constructor.
Qed.

Lemma setdefault_lookup k v d x :
  sget x (setdefault k v d) = match sget x d with Some w => Some w
                              | None => if str_eq_dec x k then Some v else None end.
Proof.
  unfold setdefault. destruct (dmem str_eqb k d) eqn:E.
  - apply dmem_in in E. destruct (sget x d) eqn:G; auto.
    destruct (str_eq_dec x k) as [->|]; auto. apply sget_none in G. contradiction.
  - destruct (str_eq_dec x k) as [->|N].
    + rewrite sget_sset_same. destruct (sget k d) eqn:G; auto.
      apply sget_some_in in G. apply (in_map fst) in G. apply dmem_in in G. simpl in G. congruence.
    + rewrite sget_sset_other by auto. destruct (sget x d); reflexivity.
Qed.

Lemma setdefault_nodup k v d : NoDup (map fst d) -> NoDup (map fst (setdefault k v d)).
Proof. intro H. unfold setdefault. destruct (dmem str_eqb k d); auto. apply sset_nodup; auto. Qed.

Lemma doc_info_spec t ls ts : doc_text t ls -> block false ls ts ->
  match doc_info (Some t) with
  | None => ts = []
  | Some i => ts <> [] /\ NoDup (map fst i) /\ forall k, sget k i = documented ts k
  end.
Proof.
  intros Ht Hb. pose proof (doc_text_splitlines t ls Ht) as E.
  pose proof (block_tag_lines _ _ _ Hb) as F. unfold doc_info.
  destruct t as [|c t].
  - inversion Ht; subst; try congruence.
    + inversion Hb. reflexivity.
    + exfalso. match goal with H : ?l ++ ?b ++ ?t = [] |- _ => apply app_eq_nil in H; destruct H as (_ & H);
        apply app_eq_nil in H; destruct H as (H & _); subst b end.
      match goal with H : line_end [] _ |- _ => inversion H end.
  - rewrite E. destruct (tag_lines false (map strip ls)) as [|l0 r].
    + inversion F. reflexivity.
    + split; [inversion F; discriminate|]. split.
      * apply setdefault_nodup, info_nodup.
      * intro k. rewrite setdefault_lookup, (info_lookup _ _ k F). reflexivity.
Qed.

(** ** The class *)

Lemma cls_info_get cls name :
  sget name (cls_1288_info cls) =
  match sget name cls with
  | Some doc => doc_info doc
  | None => None
  end.
Proof.
  unfold cls_1288_info.
  assert (G : forall l, sget name (flat_map (fun name =>
     match sget name cls with
     | Some doc => match doc_info doc with Some i => [(name, i)] | None => [] end
     | None => [] end) l) =
     if in_dec str_eq_dec name l
     then match sget name cls with Some doc => doc_info doc | None => None end else None).
  { induction l as [|x l IH]; auto. cbn [flat_map].
    destruct (str_eq_dec x name) as [->|N].
    - destruct (in_dec str_eq_dec name (name :: l)) as [_|F]; [|exfalso; apply F; left; auto].
      destruct (sget name cls) as [doc|] eqn:E; [destruct (doc_info doc) as [i|] eqn:D|].
      + simpl. rewrite str_eqb_refl. reflexivity.
      + simpl app. rewrite IH. destruct (in_dec str_eq_dec name l); reflexivity.
      + simpl app. rewrite IH. destruct (in_dec str_eq_dec name l); reflexivity.
    - assert (E : forall r, sget name ((match sget x cls with
          | Some doc => match doc_info doc with Some i => [(x, i)] | None => [] end
          | None => [] end) ++ r) = sget name r).
      { intro r. destruct (sget x cls) as [doc|]; auto. destruct (doc_info doc); auto. simpl.
        destruct (str_eqb name x) eqn:F; auto. apply str_eqb_eq in F. congruence. }
      rewrite E, IH. destruct (in_dec str_eq_dec name l), (in_dec str_eq_dec name (x :: l)) as [H|H];
        auto; exfalso; [apply H; right; auto|destruct H; congruence]. }
  rewrite G. destruct (in_dec str_eq_dec name (str_sorted (map fst cls))) as [I|I]; auto.
  destruct (sget name cls) eqn:E; auto. exfalso. apply I. apply str_sorted_in.
  apply sget_some_in in E. apply (in_map fst) in E. exact E.
Qed.

Lemma cls_info_sorted cls : NoDup (map fst cls) ->
  StronglySorted str_lt (map fst (cls_1288_info cls)).
Proof.
  intro N. pose proof (str_sorted_strict _ N) as S. unfold cls_1288_info.
  assert (G : forall l, StronglySorted str_lt l -> 
    StronglySorted str_lt (map fst (flat_map (fun name =>
     match sget name cls with
     | Some doc => match doc_info doc with Some i => [(name, i)] | None => [] end
     | None => [] end) l)) /\
    (forall x, In x (map fst (flat_map (fun name =>
     match sget name cls with
     | Some doc => match doc_info doc with Some i => [(name, i)] | None => [] end
     | None => [] end) l)) -> In x l)).
  { induction 1 as [|x l S1 (IH & IH2) Hx]; simpl; [split; [constructor|tauto]|].
    destruct (sget x cls) as [doc|]; [destruct (doc_info doc)|]; simpl.
    - split.
      + constructor; auto. apply Forall_forall. intros y Hy. rewrite Forall_forall in Hx. auto.
      + intros y [->|Hy]; auto.
    - split; auto.
    - split; auto. }
  apply G, S.
Qed.

Lemma sorted_nodup l : StronglySorted str_lt l -> NoDup l.
Proof.
  induction 1 as [|x l S IH Hx]; constructor; auto.
  intro F. rewrite Forall_forall in Hx. apply (str_lt_irrefl x), Hx, F.
Qed.

(** ** Sections *)

Lemma section_of_ok v s : section_of v = Ok s <-> oget (lit "section") v = Some (OStr s).
Proof.
  unfold section_of. destruct (oget (lit "section") v) as [o|]; [destruct o|]; split; intro H;
    try discriminate; congruence.
Qed.

Lemma filter_nodup_keys {V} (f : str * V -> bool) d :
  NoDup (map fst d) -> NoDup (map fst (filter f d)).
Proof.
  induction d as [|p d IH]; simpl; intro H; auto. inversion H as [|? ? Hp Hd]; subst.
  destruct (f p); simpl; auto. constructor; auto.
  intro F. apply Hp. apply in_map_iff in F. destruct F as (q & <- & Hq).
  apply filter_In in Hq. apply in_map, Hq.
Qed.

Lemma has_section_spec s r : has_section s r = true <-> in_section s r.
Proof.
  unfold has_section, in_section. destruct (section_of (snd r)) as [t|e] eqn:E.
  - apply section_of_ok in E. rewrite E, str_eqb_eq. split; congruence.
  - split; [discriminate|]. intro F. apply section_of_ok in F. congruence.
Qed.

Lemma sections_first_eq dct out :
  NoDup (map fst dct) -> sections_first dct = Ok out ->
  exists ss, mapM section_of (map snd dct) = Ok ss /\
  out = map (fun s => (s, filter (has_section s) dct)) (str_sorted (str_nub ss)).
Proof.
  intros N H. unfold sections_first in H. apply bind_ok in H. destruct H as (ss & Hs & H).
  exists ss. split; auto. injection H as <-. apply map_ext. intro s. f_equal.
  rewrite fill_distinct; auto. simpl. apply filter_nodup_keys, N.
Qed.

Lemma sections_first_ok dct :
  (exists out, sections_first dct = Ok out) <->
  Forall (fun r => exists s, in_section s r) dct.
Proof.
  unfold sections_first. split.
  - intros (out & H). apply bind_ok in H. destruct H as (ss & Hs & _).
    assert (E : exists ss, mapM section_of (map snd dct) = Ok ss) by eauto.
    apply mapM_is_ok in E. rewrite Forall_map in E. eapply Forall_impl; [|exact E].
    intros r (s & F). exists s. apply section_of_ok, F.
  - intro H. assert (E : exists ss, mapM section_of (map snd dct) = Ok ss).
    { apply mapM_is_ok. rewrite Forall_map. eapply Forall_impl; [|exact H].
      intros r (s & F). exists s. apply section_of_ok, F. }
    destruct E as (ss & E). rewrite E. simpl. eauto.
Qed.

Lemma sections_in dct ss s : mapM section_of (map snd dct) = Ok ss ->
  (In s ss <-> exists r, In r dct /\ in_section s r).
Proof.
  intro H. apply mapM_ok in H. split.
  - intro I. revert dct H. induction ss as [|x ss IH]; intros [|r dct] H; [destruct I| | |];
      try (inversion H; fail); try (destruct I; fail).
    simpl in H. inversion H; subst. destruct I as [->|I].
    + exists r. split; [left; auto|]. apply section_of_ok; auto.
    + destruct (IH I dct) as (r' & I' & F); auto. exists r'. split; [right; auto|auto].
  - intros (r & I & F). revert ss H. induction dct as [|x dct IH]; intros ss H; [destruct I|].
    simpl in H. inversion H; subst. destruct I as [->|I].
    + left. apply section_of_ok in F. congruence.
    + right. apply IH; auto.
Qed.

Lemma sections_keys dct out s : NoDup (map fst dct) -> sections_first dct = Ok out ->
  (In s (map fst out) <-> exists r, In r dct /\ in_section s r).
Proof.
  intros N H. destruct (sections_first_eq dct out N H) as (ss & E & ->).
  rewrite map_map. simpl. rewrite map_id, str_sorted_in, str_nub_in. apply sections_in, E.
Qed.

Lemma sections_sorted dct out : NoDup (map fst dct) -> sections_first dct = Ok out ->
  StronglySorted str_lt (map fst out).
Proof.
  intros N H. destruct (sections_first_eq dct out N H) as (ss & E & ->).
  rewrite map_map. simpl. rewrite map_id. apply str_sorted_strict, str_nub_nodup.
Qed.

(** Splitting a list along distinct labels that cover it. *)
Lemma split_labels {A} (lab : A -> str -> bool) (labels : list str) (l : list A) :
  NoDup labels ->
  (forall a, In a l -> exists s, In s labels /\ forall s', lab a s' = true <-> s' = s) ->
  Permutation (concat (map (fun s => filter (fun a => lab a s) l) labels)) l.
Proof.
  intros N. induction l as [|a l IH]; intro H.
  - assert (E : concat (map (fun s => filter (fun a => lab a s) (@nil A)) labels) = []).
    { clear. induction labels; simpl; auto. }
    rewrite E. constructor.
  - destruct (H a (or_introl eq_refl)) as (s & Hs & Hlab).
    assert (P : Permutation (concat (map (fun s => filter (fun a => lab a s) (a :: l)) labels))
                (a :: concat (map (fun s => filter (fun a => lab a s) l) labels))).
    { clear IH H. induction labels as [|x labels IH]; [destruct Hs|].
      inversion N as [|? ? Nx Nl]; subst. cbn [map concat].
      assert (K : filter (fun a0 => lab a0 x) (a :: l) =
                  if lab a x then a :: filter (fun a0 => lab a0 x) l else filter (fun a0 => lab a0 x) l)
        by reflexivity.
      rewrite K. destruct (lab a x) eqn:E.
      - apply Hlab in E. subst x.
        assert (R : map (fun s0 => filter (fun a0 => lab a0 s0) (a :: l)) labels
                    = map (fun s0 => filter (fun a0 => lab a0 s0) l) labels).
        { apply map_ext_in. intros y Hy. simpl. destruct (lab a y) eqn:F; auto.
          apply Hlab in F. subst y. contradiction. }
        rewrite R. reflexivity.
      - destruct Hs as [->|Hs]; [exfalso; assert (lab a s = true) by (apply Hlab; auto); congruence|].
        rewrite (IH Nl Hs). symmetry. apply Permutation_middle. }
    rewrite P. constructor. apply IH. intros b Hb. apply H. right; auto.
Qed.

Lemma sections_permutation dct out : NoDup (map fst dct) -> sections_first dct = Ok out ->
  Permutation (concat (map snd out)) dct.
Proof.
  intros N H. pose proof (sections_keys dct out) as K.
  destruct (sections_first_eq dct out N H) as (ss & E & Eo).
  assert (Em : map snd out = map (fun s => filter (fun a => has_section s a) dct) (str_sorted (str_nub ss))).
  { rewrite Eo, map_map. apply map_ext. reflexivity. }
  rewrite Em. apply (split_labels (fun a s => has_section s a)).
  - apply str_sorted_nodup, str_nub_nodup.
  - intros r Hr. assert (O : exists out, sections_first dct = Ok out) by eauto.
    apply sections_first_ok in O. rewrite Forall_forall in O. destruct (O r Hr) as (s & Hs).
    exists s. split.
    + rewrite str_sorted_in, str_nub_in. apply (sections_in dct ss s E). eauto.
    + intro s'. rewrite has_section_spec. unfold in_section in *. split; intro F; congruence.
Qed.

(** ** Objects *)

Lemma obj_to_dict_spec cls attr out :
  obj_to_dict cls attr = Ok out ->
  Forall2 (fun ni r => fst r = fst ni /\ exists v, attr (fst ni) = Ok v /\
     snd r = match v with
             | ODict _ => oset (lit "data") v (map (fun kv => (fst kv, OStr (snd kv))) (snd ni))
             | _ => oset (lit "value") v (map (fun kv => (fst kv, OStr (snd kv))) (snd ni))
             end) (cls_1288_info cls) out.
Proof.
  unfold obj_to_dict. intro H. apply mapM_ok in H.
  induction H as [|[n i] r l l' H0 H IH]; constructor; auto.
  apply bind_ok in H0. destruct H0 as (v & Hv & H0). injection H0 as <-. simpl.
  split; auto. exists v. destruct v; auto.
Qed.

Lemma obj_to_dict_ok cls attr :
  (exists out, obj_to_dict cls attr = Ok out) <->
  Forall (fun n => exists v, attr n = Ok v) (map fst (cls_1288_info cls)).
Proof.
  unfold obj_to_dict. rewrite mapM_is_ok, Forall_map. split; apply Forall_impl; intros [n i]; simpl.
  - intros (b & H). apply bind_ok in H. destruct H as (v & Hv & _). eauto.
  - intros (v & ->). simpl. eauto.
Qed.

Lemma oget_map_str k (i : dict str str) :
  oget k (map (fun kv => (fst kv, OStr (snd kv))) i) = option_map OStr (sget k i).
Proof.
  unfold oget. induction i as [|[x y] i IH]; simpl; auto. destruct (str_eqb k x); auto.
Qed.
