(** Doc strings, sections and results in the form of the properties. *)
From Coq Require Import Ascii String List Bool Arith ZArith QArith Sorted Permutation.
From Verif Require Import Base_Prelude Base_Str Base_Num Model_Info Spec_Parser Spec_Info
  Proofs_Dict Proofs_Info.
Import ListNotations.
Open Scope nat_scope.
Local Arguments lit : simpl never.

Lemma sget_iff {V} k v (d : list (str * V)) : NoDup (map fst d) ->
  (In (k, v) d <-> sget k d = Some v).
Proof. intro N. split; [apply sget_in, N|apply sget_some_in]. Qed.

Lemma metadata cls name t ls tags :
  NoDup (map fst cls) -> In (name, Some t) cls ->
  doc_text t ls -> block false ls tags ->
  (tags = [] -> ~ In name (map fst (cls_1288_info cls))) /\
  (tags <> [] -> exists info,
     In (name, info) (cls_1288_info cls) /\ NoDup (map fst info) /\
     forall k v, In (k, v) info <-> documented tags k = Some v).
Proof.
  intros N I Ht Hb. pose proof (cls_info_get cls name) as G.
  apply (sget_iff name (Some t) cls N) in I. rewrite I in G.
  pose proof (doc_info_spec t ls tags Ht Hb) as D.
  destruct (doc_info (Some t)) as [i|].
  - destruct D as (D1 & D2 & D3). split; [congruence|]. intros _. exists i.
    split; [apply sget_some_in, G|]. split; auto.
    intros k v. rewrite (sget_iff k v i D2), D3. reflexivity.
  - split; [|congruence]. intros _ F. apply sget_none in G. contradiction.
Qed.

Lemma undocumented cls name :
  NoDup (map fst cls) -> (In (name, None) cls \/ ~ In name (map fst cls)) ->
  ~ In name (map fst (cls_1288_info cls)).
Proof.
  intros N H. pose proof (cls_info_get cls name) as G. apply sget_none. rewrite G.
  destruct H as [H|H].
  - apply (sget_iff name None cls N) in H. rewrite H. reflexivity.
  - apply sget_none in H. rewrite H. reflexivity.
Qed.

Lemma filter_in_order {A} (f : A -> bool) l : in_order_of l (filter f l).
Proof.
  induction l as [|a l IH]; simpl; [constructor|]. destruct (f a); constructor; auto.
Qed.

Lemma grouped results out :
  NoDup (map fst results) -> sections_first results = Ok out ->
  StronglySorted str_lt (map fst out) /\
  (forall s, In s (map fst out) <-> exists r, In r results /\ in_section s r) /\
  (forall s rs, In (s, rs) out -> in_order_of results rs /\
     forall r, In r rs <-> In r results /\ in_section s r) /\
  Permutation (concat (map snd out)) results.
Proof.
  intros N H. split; [eapply sections_sorted; eauto|]. split; [intro s; eapply sections_keys; eauto|].
  split; [|eapply sections_permutation; eauto].
  intros s rs I. destruct (sections_first_eq results out N H) as (ss & _ & ->).
  apply in_map_iff in I. destruct I as (s' & E & _). injection E as -> <-.
  split; [apply filter_in_order|]. intro r. rewrite filter_In, has_section_spec. reflexivity.
Qed.

Lemma info_nodup_doc doc i : doc_info doc = Some i -> NoDup (map fst i).
Proof.
  unfold doc_info. destruct doc as [[|c t]|]; try discriminate.
  destruct (tag_lines false (map strip (splitlines (c :: t)))) as [|l ls]; [discriminate|].
  intro H. injection H as <-. apply setdefault_nodup, info_nodup.
Qed.

Lemma obj_keys cls attr out : obj_to_dict cls attr = Ok out ->
  map fst out = map fst (cls_1288_info cls).
Proof.
  intro H. apply obj_to_dict_spec in H. induction H as [|a b l l' (E & _) H IH]; auto.
  cbn [map]. f_equal; auto.
Qed.

Lemma object_results cls attr out :
  NoDup (map fst cls) -> obj_to_dict cls attr = Ok out ->
  StronglySorted str_lt (map fst out) /\
  (forall name, In name (map fst out) <-> In name (map fst (cls_1288_info cls))) /\
  forall name r info v,
    In (name, r) out -> In (name, info) (cls_1288_info cls) -> attr name = Ok v ->
    oget (match v with ODict _ => lit "data" | _ => lit "value" end) r = Some v /\
    forall k, k <> lit "data" -> k <> lit "value" ->
      (forall t, In (k, t) info -> oget k r = Some (OStr t)) /\
      (~ In k (map fst info) -> oget k r = None).
Proof.
  intros N H. pose proof (obj_keys _ _ _ H) as K. pose proof (cls_info_sorted cls N) as S.
  rewrite K. split; auto. split; [tauto|].
  intros name r info v Ir Ii Hv.
  pose proof (sorted_nodup _ S) as NI.
  assert (G : exists info', In (name, info') (cls_1288_info cls) /\ NoDup (map fst info') /\
     r = oset (match v with ODict _ => lit "data" | _ => lit "value" end) v
           (map (fun kv => (fst kv, OStr (snd kv))) info')).
  { pose proof (obj_to_dict_spec _ _ _ H) as F.
    assert (D : forall ni, In ni (cls_1288_info cls) -> NoDup (map fst (snd ni))).
    { intros [n i] I. simpl. apply (sget_iff n i _ NI) in I. rewrite cls_info_get in I.
      destruct (sget n cls) as [doc|]; [|discriminate].
      eapply info_nodup_doc, I. }
    clear -F Ir Hv D. induction F as [|ni r' l l' (E & w & Hw & Es) F IH]; [destruct Ir|].
    destruct Ir as [->|Ir].
    - simpl in E. subst name. rewrite Hv in Hw. injection Hw as <-. exists (snd ni).
      split; [left; destruct ni; reflexivity|]. split; [apply D; left; reflexivity|].
      simpl in Es. rewrite Es. destruct v; reflexivity.
    - destruct (IH Ir) as (i & I1 & I2 & I3).
      { intros x Hx. apply D. right. exact Hx. }
      exists i. split; [right|]; auto. }
  destruct G as (info' & I1 & ND & ->).
  assert (info' = info).
  { apply (sget_iff _ _ _ NI) in I1. apply (sget_iff _ _ _ NI) in Ii. congruence. }
  subst info'. split.
  - unfold oget, oset. apply sget_sset_same.
  - intros k K1 K2.
    assert (E : oget k (oset (match v with ODict _ => lit "data" | _ => lit "value" end) v
                 (map (fun kv => (fst kv, OStr (snd kv))) info)) = option_map OStr (sget k info)).
    { rewrite <- oget_map_str. unfold oget, oset. apply sget_sset_other. destruct v; auto. }
    rewrite E. split.
    + intros t It. apply (sget_iff _ _ _ ND) in It. rewrite It. reflexivity.
    + intro Hn. apply sget_none in Hn. rewrite Hn. reflexivity.
Qed.
