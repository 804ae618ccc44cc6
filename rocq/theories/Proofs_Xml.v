(** The XML round trip. *)
From Coq Require Import Ascii String List Bool Arith ZArith QArith Lia.
From Verif Require Import Base_Prelude Base_Str Base_Num Base_Repr Model_Info Model_Xml
  Spec_Parser Spec_Info Spec_Xml Proofs_Str Proofs_Repr Proofs_Dict Proofs_Info.
Import ListNotations.
Open Scope nat_scope.

Local Arguments lit : simpl never.

Definition entry_xml (kv : str * pobj) : res elem :=
  let '(k, v) := kv in
  if xml_name k
  then match v with
       | ODict _ => c <- key_to_xml v ;; Ok (Elem k None c)
       | OArr a => t <- set_text (join_on " " (map num_str a)) ;; Ok (Elem k t [])
       | _ => t <- set_text (py_str v) ;; Ok (Elem k t [])
       end
  else Err ValueError.

Lemma key_to_xml_eq d : key_to_xml (ODict d) = mapM entry_xml d.
Proof.
  induction d as [|[k v] d IH]; [reflexivity|].
  cbn [mapM entry_xml]. rewrite <- IH. cbn [key_to_xml].
  destruct (xml_name k); reflexivity.
Qed.

(** ** Names and texts *)

Lemma letter_name c : letter c -> name_start c = true.
Proof.
  unfold letter, name_start. intro H.
  destruct H as [H|[H|H]].
  - replace ((65 <=? nat_of_ascii c) && (nat_of_ascii c <=? 90)) with true; auto.
    symmetry. apply andb_true_iff. rewrite !Nat.leb_le. lia.
  - replace ((97 <=? nat_of_ascii c) && (nat_of_ascii c <=? 122)) with true; [rewrite orb_true_r; auto|].
    symmetry. apply andb_true_iff. rewrite !Nat.leb_le. lia.
  - rewrite H. reflexivity.
Qed.

Lemma identifier_name s : identifier s -> xml_name s = true.
Proof.
  destruct s as [|c s]; simpl; [tauto|]. intros (Hc & Hs).
  rewrite (letter_name c Hc). simpl. apply forallb_forall. intros x Hx.
  rewrite Forall_forall in Hs. unfold name_char. destruct (Hs x Hx) as [H|H].
  - rewrite (letter_name x H). reflexivity.
  - unfold decimal in H.
    replace ((48 <=? nat_of_ascii x) && (nat_of_ascii x <=? 57)) with true;
      [rewrite orb_true_r; reflexivity|].
    symmetry. apply andb_true_iff. rewrite !Nat.leb_le. lia.
Qed.

Lemma printable_text s : Forall (fun c => 32 <= nat_of_ascii c) s -> xml_text s = true.
Proof.
  intro H. apply forallb_forall. intros c Hc. rewrite Forall_forall in H. apply H in Hc.
  apply Nat.leb_le in Hc. cbv zeta. rewrite Hc. reflexivity.
Qed.

Lemma word_chars s : Forall (fun c => word_char c = true) s ->
  Forall (fun c => 32 <= nat_of_ascii c) s /\ Forall (fun c => is_space c = false) s /\
  Forall (fun c => chr_eqb c "," = false) s.
Proof.
  intro H. repeat split; (eapply Forall_impl; [|exact H]); intros c Hc; unfold word_char in Hc;
    apply andb_true_iff in Hc; destruct Hc as (Hc & H3); apply andb_true_iff in Hc;
    destruct Hc as (H1 & H2).
  - apply Nat.ltb_lt in H1. lia.
  - apply negb_true_iff in H2. exact H2.
  - apply negb_true_iff in H3. exact H3.
Qed.

Lemma num_str_word x : Forall (fun c => word_char c = true) (num_str x).
Proof.
  destruct x as [n|x]; simpl; [apply num_word, fmt_int_num|apply repr_word].
Qed.

Lemma num_str_reads x : machine_number x -> 
  py_float (num_str x) = Some (match as_float x with NF y => y | NI _ => FNan end).
Proof.
  destruct x as [n|x]; simpl; intro H.
  - apply fmt_int_reads.
  - apply repr_reads. destruct x; auto.
Qed.

Lemma num_str_nonnil x : machine_number x -> num_str x <> [].
Proof.
  intros H E. pose proof (num_str_reads x H) as R. rewrite E in R.
  assert (N : py_float [] = None) by (vm_compute; reflexivity). rewrite N in R. discriminate.
Qed.

Lemma num_str_is_word x : machine_number x -> is_word (num_str x).
Proof.
  intro H. split; [apply num_str_nonnil, H|]. apply word_chars, num_str_word.
Qed.

Lemma join_spaced ws : ws <> [] -> Forall is_word ws -> spaced ws (join_on " " ws).
Proof.
  intros Hne H. induction H as [|w ws Hw H IH]; [congruence|].
  destruct ws as [|w2 ws].
  - cbn [join_on]. rewrite <- (app_nil_r w) at 2. change (w ++ []) with ([] ++ w ++ []).
    apply sp_one; auto; constructor.
  - change (join_on " " (w :: w2 :: ws)) with ([] ++ w ++ [" "%char] ++ join_on " " (w2 :: ws)).
    apply sp_cons; auto; try constructor; try discriminate; auto.
    apply IH. discriminate.
Qed.

Lemma split_joined ws : ws <> [] -> Forall is_word ws -> split_ws (strip (join_on " " ws)) = ws.
Proof. intros. rewrite split_ws_strip. apply spaced_split, join_spaced; auto. Qed.

Lemma join_nonnil ws : ws <> [] -> Forall is_word ws -> join_on " " ws <> [].
Proof.
  intros Hne H. destruct H as [|w ws (Hw & _) H]; [congruence|].
  destruct ws; simpl; auto. destruct w; simpl; congruence.
Qed.

Lemma join_printable ws : Forall (Forall (fun c => 32 <= nat_of_ascii c)) ws ->
  Forall (fun c => 32 <= nat_of_ascii c) (join_on " " ws).
Proof.
  induction 1 as [|w ws Hw H IH]; [constructor|].
  destruct ws as [|w2 ws]; auto.
  change (join_on " " (w :: w2 :: ws)) with (w ++ " "%char :: join_on " " (w2 :: ws)). apply Forall_app. split; auto.
Qed.

Lemma float_of_num x : machine_number x ->
  float_of (num_str x) = Ok (match as_float x with NF y => y | NI _ => FNan end).
Proof.
  intro H. unfold float_of. rewrite strip_word by (apply num_str_is_word, H).
  rewrite num_str_reads by auto. reflexivity.
Qed.

Lemma as_float_NF x : NF (match as_float x with NF y => y | NI _ => FNan end) = as_float x.
Proof. destruct x; reflexivity. Qed.

Lemma replace_none a b s : Forall (fun c => chr_eqb c a = false) s -> replace_chr a b s = s.
Proof.
  unfold replace_chr. induction 1 as [|c s Hc H IH]; simpl; auto. rewrite Hc, IH. reflexivity.
Qed.

(** ** Trees *)

Definition leaf (k t : str) : elem := Elem k (Some t) [].

Definition content_elem (c : content) : elem :=
  match c with
  | Value None => leaf (lit "value") (lit "None")
  | Value (Some x) => leaf (lit "value") (num_str x)
  | Arrays a => Elem (lit "data") None
                  (map (fun p => leaf (fst p) (join_on " " (map num_str (snd p)))) a)
  end.

Definition result_elem (r : result) : elem :=
  Elem (r_name r) None (map (fun p => leaf (fst p) (snd p)) (r_texts r) ++ [content_elem (r_content r)]).

Definition section_elem (s : str * list result) : elem := Elem (fst s) None (map result_elem (snd s)).

Lemma mapM_all {A B} (f : A -> res B) (g : A -> B) l :
  Forall (fun a => f a = Ok (g a)) l -> mapM f l = Ok (map g l).
Proof.
  induction 1 as [|a l Ha H IH]; simpl; auto. rewrite Ha. cbn [bind]. rewrite IH. reflexivity.
Qed.

Lemma mapM_map {A B C} (f : B -> res C) (g : A -> B) l : mapM f (map g l) = mapM (fun a => f (g a)) l.
Proof. induction l as [|a l IH]; simpl; auto. rewrite IH. reflexivity. Qed.

Lemma set_text_ok s : Forall (fun c => 32 <= nat_of_ascii c) s -> set_text s = Ok (Some s).
Proof. intro H. unfold set_text. rewrite printable_text by auto. reflexivity. Qed.

Lemma num_printable x : Forall (fun c => 32 <= nat_of_ascii c) (num_str x).
Proof. apply word_chars, num_str_word. Qed.

Lemma content_xml c : good_content c -> entry_xml (content_obj c) = Ok (content_elem c).
Proof.
  destruct c as [[x|]|a]; simpl content_obj; intro H.
  - cbn [entry_xml]. change (xml_name (lit "value")) with true. cbv iota. cbn [py_str].
    rewrite set_text_ok by apply num_printable. reflexivity.
  - reflexivity.
  - destruct H as (_ & _ & H). cbn [entry_xml]. change (xml_name (lit "data")) with true. cbv iota.
    rewrite key_to_xml_eq, mapM_map.
    rewrite (mapM_all _ (fun p => leaf (fst p) (join_on " " (map num_str (snd p))))).
    + reflexivity.
    + eapply Forall_impl; [|exact H]. intros [k xs] (Hk & _ & _). simpl in Hk.
      cbn [fst snd entry_xml].
      rewrite (identifier_name k Hk). rewrite set_text_ok; [reflexivity|].
      apply join_printable. rewrite Forall_map. apply Forall_forall. intros; apply num_printable.
Qed.

Lemma mapM_app {A B} (f : A -> res B) l1 l2 r1 r2 :
  mapM f l1 = Ok r1 -> mapM f l2 = Ok r2 -> mapM f (l1 ++ l2) = Ok (r1 ++ r2).
Proof.
  revert r1. induction l1 as [|a l1 IH]; simpl; intros r1 H1 H2.
  - injection H1 as <-. exact H2.
  - destruct (f a) as [b|e]; [|discriminate]. cbn [bind] in *.
    destruct (mapM f l1) as [r|e] eqn:E; [|discriminate]. injection H1 as <-.
    rewrite (IH r eq_refl H2). reflexivity.
Qed.

Lemma result_xml r : good_result r -> entry_xml (result_obj r) = Ok (result_elem r).
Proof.
  intros (Hn & Hc & _ & Ht). unfold result_obj. cbn [entry_xml]. rewrite (identifier_name _ Hn).
  rewrite key_to_xml_eq.
  rewrite (mapM_app entry_xml _ _ (map (fun p => leaf (fst p) (snd p)) (r_texts r)) [content_elem (r_content r)]).
  - reflexivity.
  - rewrite mapM_map. apply mapM_all. eapply Forall_impl; [|exact Ht].
    intros [k t] (Hk & (_ & Hp) & _). simpl in Hk, Hp. cbn [fst snd entry_xml].
    rewrite (identifier_name k Hk). cbn [py_str]. rewrite set_text_ok by auto. reflexivity.
  - cbn [mapM]. rewrite content_xml by auto. reflexivity.
Qed.

Lemma results_xml root rs : identifier root -> good_results rs ->
  dict_to_xml root (results_obj rs) = Ok (Elem root None (map section_elem rs)).
Proof.
  intros Hr (_ & H). unfold dict_to_xml. rewrite (identifier_name _ Hr), key_to_xml_eq.
  unfold results_obj. rewrite mapM_map.
  rewrite (mapM_all _ section_elem); [reflexivity|].
  eapply Forall_impl; [|exact H]. intros [s l] (Hs & _ & _ & Hl). simpl in Hs, Hl.
  cbn [fst snd entry_xml]. rewrite (identifier_name _ Hs), key_to_xml_eq, mapM_map.
  rewrite (mapM_all _ result_elem); [reflexivity|].
  eapply Forall_impl; [|exact Hl]. apply result_xml.
Qed.

(** ** Reading back *)

Lemma reload_leaf k t : t <> [] -> reload (leaf k t) = leaf k t.
Proof. destruct t; [congruence|reflexivity]. Qed.

Lemma map_id_in {A} (f : A -> A) l : (forall a, In a l -> f a = a) -> map f l = l.
Proof. intro H. rewrite <- (map_id l) at 2. apply map_ext_in. exact H. Qed.

Lemma content_reload c : good_content c -> reload (content_elem c) = content_elem c.
Proof.
  destruct c as [[x|]|a]; simpl content_elem; intro H.
  - apply reload_leaf, num_str_nonnil, H.
  - reflexivity.
  - cbn [reload]. f_equal. rewrite map_map. apply map_ext_in. intros [k xs] Hin.
    destruct H as (_ & _ & H). rewrite Forall_forall in H. destruct (H _ Hin) as (_ & Hne & Hm).
    apply reload_leaf. cbn [fst snd] in *. apply join_nonnil; [destruct xs; [congruence|discriminate]|].
    rewrite Forall_map. eapply Forall_impl; [|exact Hm]. apply num_str_is_word.
Qed.

Lemma result_reload r : good_result r -> reload (result_elem r) = result_elem r.
Proof.
  intros (_ & Hc & _ & Ht). unfold result_elem. cbn [reload]. f_equal.
  rewrite map_app. cbn [map]. rewrite content_reload by auto. f_equal.
  rewrite map_map. apply map_ext_in. intros [k t] Hin. rewrite Forall_forall in Ht.
  destruct (Ht _ Hin) as (_ & (Hne & _) & _). apply reload_leaf. exact Hne.
Qed.

Lemma results_reload root rs : good_results rs ->
  reload (Elem root None (map section_elem rs)) = Elem root None (map section_elem rs).
Proof.
  intros (_ & H). cbn [reload]. f_equal. rewrite map_map. apply map_ext_in. intros [s l] Hin.
  rewrite Forall_forall in H. destruct (H _ Hin) as (_ & _ & _ & Hl). unfold section_elem.
  cbn [reload fst snd]. f_equal. rewrite map_map. apply map_ext_in. intros r Hr.
  rewrite Forall_forall in Hl. apply result_reload, Hl, Hr.
Qed.

(** Values of elements with distinct tags. *)
Lemma element_value_node k x cs : cs <> [] -> NoDup (map (fun c => lower (e_tag c)) cs) ->
  element_value (Elem k x cs) = ODict (map (fun c => (lower (e_tag c), element_value c)) cs).
Proof.
  intros Hne N. destruct cs as [|c cs]; [congruence|].
  change (element_value (Elem k x (c :: cs))) with
    (ODict (fold_left (fun d p => sset (fst p) (snd p) d)
               (map (fun c => (lower (e_tag c), element_value c)) (c :: cs)) [])).
  f_equal. rewrite fill_distinct; auto.
  rewrite app_nil_l. rewrite map_map. exact N.
Qed.

Definition content_text (c : content) : str * pobj :=
  match c with
  | Value None => (lit "value", OStr (lit "None"))
  | Value (Some x) => (lit "value", OStr (num_str x))
  | Arrays a => (lit "data",
      ODict (map (fun p => (lower (fst p), OStr (join_on " " (map num_str (snd p))))) a))
  end.

Lemma content_value c : good_content c ->
  (lower (e_tag (content_elem c)), element_value (content_elem c)) = content_text c.
Proof.
  destruct c as [[x|]|a]; simpl content_elem; intro H; try reflexivity.
  destruct H as (Hne & Hd & _). rewrite element_value_node.
  - rewrite map_map. reflexivity.
  - destruct a; [congruence|discriminate].
  - rewrite map_map. exact Hd.
Qed.

Lemma content_tag c : lower (e_tag (content_elem c)) = fst (content_text c).
Proof. destruct c as [[x|]|a]; reflexivity. Qed.

Lemma nodup_snoc {A} (l : list A) a : NoDup l -> ~ In a l -> NoDup (l ++ [a]).
Proof.
  intros N H. apply (Permutation.Permutation_NoDup (l := a :: l)).
  - apply Permutation.Permutation_cons_append.
  - constructor; auto.
Qed.

Lemma content_tag_new r : good_result r ->
  ~ In (fst (content_text (r_content r))) (map (fun p => lower (fst p)) (r_texts r)).
Proof.
  intros (_ & _ & _ & Ht) F. apply in_map_iff in F. destruct F as (p & E & Hp).
  rewrite Forall_forall in Ht. destruct (Ht p Hp) as (_ & _ & H1 & H2).
  destruct (r_content r) as [[x|]|a]; simpl in E; congruence.
Qed.

Lemma result_value r : good_result r ->
  element_value (result_elem r) =
  ODict (map (fun p => (lower (fst p), OStr (snd p))) (r_texts r) ++ [content_text (r_content r)]).
Proof.
  intro G. pose proof G as (_ & Hc & Hd & Ht). unfold result_elem. rewrite element_value_node.
  - rewrite map_app. cbn [map]. rewrite content_value by auto. rewrite map_map. reflexivity.
  - destruct (r_texts r); discriminate.
  - rewrite map_app. cbn [map]. rewrite map_map. rewrite content_tag.
    apply nodup_snoc; [exact Hd|]. apply content_tag_new, G.
Qed.

Lemma sget_app_last {V} (l : list (str * V)) k v : ~ In k (map fst l) -> sget k (l ++ [(k, v)]) = Some v.
Proof.
  induction l as [|[x y] l IH]; simpl; intro H.
  - rewrite str_eqb_refl. reflexivity.
  - destruct (str_eqb k x) eqn:E; [apply str_eqb_eq in E; subst; tauto|]. apply IH. tauto.
Qed.

Lemma sset_app_last {V} (l : list (str * V)) k v w :
  ~ In k (map fst l) -> sset k w (l ++ [(k, v)]) = l ++ [(k, w)].
Proof.
  induction l as [|[x y] l IH]; simpl; intro H.
  - rewrite str_eqb_refl. reflexivity.
  - destruct (str_eqb k x) eqn:E; [apply str_eqb_eq in E; subst; tauto|]. f_equal. apply IH. tauto.
Qed.

Lemma sget_app_none {V} (l m : list (str * V)) k : ~ In k (map fst l) -> sget k (l ++ m) = sget k m.
Proof.
  induction l as [|[x y] l IH]; simpl; intro H; auto.
  destruct (str_eqb k x) eqn:E; [apply str_eqb_eq in E; subst; tauto|]. apply IH. tauto.
Qed.

Lemma read_arrays a :
  Forall (fun p => identifier (fst p) /\ snd p <> [] /\ Forall machine_number (snd p)) a ->
  mapM (fun kv => x <- read_array (snd kv) ;; Ok (fst kv, x))
    (map (fun p => (lower (fst p), OStr (join_on " " (map num_str (snd p))))) a)
  = Ok (map (fun p => (lower (fst p), OArr (map as_float (snd p)))) a).
Proof.
  intro H. rewrite mapM_map. apply mapM_all. eapply Forall_impl; [|exact H].
  intros [k xs] (_ & Hne & Hm). cbn [fst snd read_array] in *.
  assert (W : Forall is_word (map num_str xs)).
  { rewrite Forall_map. eapply Forall_impl; [|exact Hm]. apply num_str_is_word. }
  rewrite split_joined; auto; [|destruct xs; [congruence|discriminate]].
  rewrite mapM_map.
  rewrite (mapM_all _ (fun x => match as_float x with NF y => y | NI _ => FNan end)).
  - cbn [bind]. rewrite map_map. do 3 f_equal. apply map_ext. apply as_float_NF.
  - eapply Forall_impl; [|exact Hm]. apply float_of_num.
Qed.

Lemma texts_new r k : good_result r -> k = lit "value" \/ k = lit "data" ->
  ~ In k (map fst (map (fun p : str * str => (lower (fst p), OStr (snd p))) (r_texts r))).
Proof.
  intros (_ & _ & _ & Ht) Hk F. rewrite map_map in F. apply in_map_iff in F.
  destruct F as (p & E & Hp). simpl in E.
  rewrite Forall_forall in Ht. destruct (Ht p Hp) as (_ & _ & H1 & H2).
  destruct Hk; congruence.
Qed.

Lemma read_result_ok r : good_result r ->
  read_result (ODict (map (fun p => (lower (fst p), OStr (snd p))) (r_texts r)
                      ++ [content_text (r_content r)]))
  = Ok (snd (result_obj (lower_result r))).
Proof.
  intro G. pose proof G as (_ & Hc & _ & _).
  pose proof (texts_new r (lit "value") G (or_introl eq_refl)) as Nv.
  pose proof (texts_new r (lit "data") G (or_intror eq_refl)) as Nd.
  unfold result_obj, lower_result. cbn [snd r_name r_texts r_content].
  rewrite map_map. cbn [fst snd].
  set (l := map (fun p : str * str => (lower (fst p), OStr (snd p))) (r_texts r)) in *.
  unfold read_result, oget, oset.
  destruct (r_content r) as [[x|]|a]; cbn [content_text content_obj option_map]; simpl good_content in Hc.
  - rewrite (sget_app_none l _ (lit "data")) by exact Nd.
    change (sget (lit "data") [(lit "value", OStr (num_str x))]) with (@None pobj). cbv iota.
    rewrite sget_app_last by exact Nv.
    assert (E1 : str_eqb (num_str x) (lit "None") = false).
    { destruct (str_eqb _ _) eqn:E; auto. apply str_eqb_eq in E.
      pose proof (num_str_reads x Hc) as R. rewrite E in R.
      assert (N : py_float (lit "None") = None) by (vm_compute; reflexivity).
      rewrite N in R. discriminate. }
    assert (E2 : str_eqb (num_str x) (lit "none") = false).
    { destruct (str_eqb _ (lit "none")) eqn:E; auto. apply str_eqb_eq in E.
      pose proof (num_str_reads x Hc) as R. rewrite E in R.
      assert (N : py_float (lit "none") = None) by (vm_compute; reflexivity).
      rewrite N in R. discriminate. }
    rewrite E1, E2. cbn [orb].
    rewrite replace_none by apply word_chars, num_str_word.
    rewrite float_of_num by auto. cbn [bind]. rewrite as_float_NF.
    rewrite sset_app_last by exact Nv. reflexivity.
  - rewrite (sget_app_none l _ (lit "data")) by exact Nd.
    change (sget (lit "data") [(lit "value", OStr (lit "None"))]) with (@None pobj). cbv iota.
    rewrite sget_app_last by exact Nv.
    change (str_eqb (lit "None") (lit "None")) with true. cbn [orb].
    rewrite sset_app_last by exact Nv. reflexivity.
  - destruct Hc as (_ & _ & Hc). rewrite sget_app_last by exact Nd.
    rewrite read_arrays by auto. cbn [bind].
    rewrite sset_app_last by exact Nd. rewrite map_map. reflexivity.
Qed.

Lemma results_read root rs : good_results rs ->
  xml_to_dict (XFile (Some (Elem root None (map section_elem rs)))) =
  Ok (Some (results_obj (lower_results rs))).
Proof.
  intros (Hd & H). unfold xml_to_dict.
  assert (E : element_to_dict (Elem root None (map section_elem rs)) =
              map (fun c => (lower (e_tag c), element_value c)) (map section_elem rs)).
  { unfold element_to_dict, oset. cbn [e_children].
    apply (fill_distinct (map (fun c => (lower (e_tag c), element_value c)) (map section_elem rs)) []).
    rewrite app_nil_l. rewrite !map_map. exact Hd. }
  rewrite E. rewrite map_map, mapM_map.
  rewrite (mapM_all _ (fun s => (lower (fst s), ODict (map result_obj (map lower_result (snd s)))))).
  - cbn [bind]. unfold results_obj, lower_results. rewrite map_map. reflexivity.
  - eapply Forall_impl; [|exact H]. intros [s l] (Hs & Hne & Hn & Hl). cbn [fst snd] in *.
    unfold section_elem. cbn [fst snd e_tag].
    rewrite element_value_node.
    + cbn [read_section]. rewrite !map_map, mapM_map.
      rewrite (mapM_all _ (fun r => result_obj (lower_result r))).
      * reflexivity.
      * eapply Forall_impl; [|exact Hl]. intros r Gr. cbn [fst snd].
        rewrite result_value by auto. rewrite read_result_ok by auto. reflexivity.
    + destruct l; [congruence|discriminate].
    + rewrite map_map. exact Hn.
Qed.

Lemma xml_round_trip root rs : identifier root -> good_results rs ->
  exists t, dict_to_xml root (results_obj rs) = Ok t /\
            xml_to_dict (XFile (Some (reload t))) = Ok (Some (results_obj (lower_results rs))).
Proof.
  intros Hr G. exists (Elem root None (map section_elem rs)). split.
  - apply results_xml; auto.
  - rewrite results_reload by auto. apply results_read, G.
Qed.
