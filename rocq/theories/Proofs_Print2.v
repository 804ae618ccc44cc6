(** Exporting the results of an evaluation and reading them back (C107). *)
From Coq Require Import Ascii String List Bool Arith ZArith QArith Lia.
From Verif Require Import Base_Prelude Base_Str Base_Num Model_Info Model_Xml Model_Docs Model_Print
  Spec_Info Spec_Xml Spec_Print Proofs_Dict Proofs_Info Proofs_Xml Proofs_Xml2 Proofs_Sheet2 Proofs_Print.
Import ListNotations.
Open Scope nat_scope.

Definition un_arr (v : pobj) : list pnum := match v with OArr a => a | _ => [] end.
Definition content_of (v : pobj) : content :=
  match v with
  | ONum x => Value (Some x)
  | ODict d => Arrays (map (fun p => (fst p, un_arr (snd p))) d)
  | _ => Value None
  end.

Lemma storable_content v : storable v -> good_content (content_of v) /\
  content_obj (content_of v) = (match v with ODict _ => lit "data" | _ => lit "value" end, v).
Proof.
  intros [->|[(x & -> & M)|(a & -> & G)]]; [split; [exact I|reflexivity]|split; [exact M|reflexivity]|].
  assert (E : map (fun p => (fst p, un_arr (snd p))) (map (fun p : str * list pnum => (fst p, OArr (snd p))) a) = a).
  { rewrite map_map. cbn [fst snd un_arr]. rewrite <- (map_id a) at 2. apply map_ext. intros []; reflexivity. }
  cbn [content_of]. rewrite E. split; [exact G|reflexivity].
Qed.

(** The results as a user sees them. *)
Definition user_result (fig : str -> pobj) (ni : str * dict str str) : result :=
  mkResult (fst ni) (snd ni) (content_of (fig (fst ni))).
Definition user_results (fig : str -> pobj) (g : list (str * dict str (dict str str))) : list (str * list result) :=
  map (fun s => (fst s, map (user_result fig) (snd s))) g.

Lemma dset_new {V} k (v : V) d : sget k d = None -> dset str_eqb k v d = d ++ [(k, v)].
Proof.
  unfold sget. induction d as [|[x y] d IH]; intros H; [reflexivity|]. cbn [dget] in H. cbn [dset app].
  destruct (str_eqb k x); [discriminate|]. rewrite (IH H). reflexivity.
Qed.

Lemma with_value_obj fig ni : plain_info ni = true -> storable (fig (fst ni)) ->
  (fst ni, ODict (with_value (fig (fst ni)) (snd ni))) = result_obj (user_result fig ni).
Proof.
  intros P S. destruct (storable_content _ S) as [_ C]. unfold plain_info in P.
  apply andb_true_iff in P. destruct P as [P P3]. apply andb_true_iff in P. destruct P as [_ P2].
  unfold result_obj, user_result. cbn [r_name r_texts r_content]. rewrite C. f_equal. f_equal.
  assert (A : forall k, match sget k (snd ni) with Some _ => false | None => true end = true ->
    sget k (map (fun kv : str * str => (fst kv, OStr (snd kv))) (snd ni)) = None).
  { intros k K. etransitivity; [apply oget_map_str|]. destruct (sget k (snd ni)); [discriminate|reflexivity]. }
  unfold with_value, oset. destruct (fig (fst ni)); apply dset_new, A; assumption.
Qed.

Lemma sections_obj_eq fig g :
  forallb (fun s : str * dict str (dict str str) => forallb plain_info (snd s)) g = true ->
  (forall s ni, In s g -> In ni (snd s) -> storable (fig (fst ni))) ->
  sections_obj (map (fun s => (fst s, filled fig (snd s))) g) = results_obj (user_results fig g).
Proof.
  intros P S. unfold sections_obj, results_obj, user_results. rewrite !map_map. apply map_ext_in.
  intros s Hs. cbn [fst snd]. f_equal. f_equal. unfold filled. rewrite !map_map. apply map_ext_in.
  intros ni Hn. cbn [fst snd]. apply with_value_obj.
  - rewrite forallb_forall in P. specialize (P s Hs). cbn beta in P. rewrite forallb_forall in P. exact (P ni Hn).
  - exact (S s ni Hs Hn).
Qed.

(** ** The documented quantities are well formed *)

Definition letterb (c : ascii) : bool :=
  let n := nat_of_ascii c in
  ((65 <=? n) && (n <=? 90)) || ((97 <=? n) && (n <=? 122)) || (n =? 95).
Definition decimalb (c : ascii) : bool := (48 <=? nat_of_ascii c) && (nat_of_ascii c <=? 57).
Definition identb (s : str) : bool :=
  match s with [] => false | c :: s' => letterb c && forallb (fun x => letterb x || decimalb x) s' end.
Definition printb (s : str) : bool := nonempty s && forallb (fun c => 32 <=? nat_of_ascii c) s.

Lemma letterb_ok c : letterb c = true -> letter c.
Proof.
  unfold letterb, letter. rewrite !orb_true_iff, !andb_true_iff, !Nat.leb_le, Nat.eqb_eq. tauto.
Qed.
Lemma decimalb_ok c : decimalb c = true -> decimal c.
Proof. unfold decimalb, decimal. rewrite andb_true_iff, !Nat.leb_le. tauto. Qed.
Lemma identb_ok s : identb s = true -> identifier s.
Proof.
  destruct s as [|c s]; [discriminate|]. cbn [identb identifier]. rewrite andb_true_iff, forallb_forall.
  intros [H1 H2]. split; [apply letterb_ok, H1|]. apply Forall_forall. intros x X.
  specialize (H2 x X). cbn beta in H2. apply orb_true_iff in H2.
  destruct H2; [left; apply letterb_ok|right; apply decimalb_ok]; assumption.
Qed.
Lemma printb_ok s : printb s = true -> printable s.
Proof.
  unfold printb, printable. rewrite andb_true_iff, forallb_forall. intros [H1 H2]. split.
  - destruct s; [discriminate|discriminate].
  - apply Forall_forall. intros c C. apply Nat.leb_le, H2, C.
Qed.

Definition textb (p : str * str) : bool :=
  identb (fst p) && printb (snd p) && negb (str_eqb (lower (fst p)) (lit "value"))
  && negb (str_eqb (lower (fst p)) (lit "data")).
Definition entryb (ni : str * dict str str) : bool :=
  identb (fst ni) && distinct (map (fun p => lower (fst p)) (snd ni)) && forallb textb (snd ni).
Definition sectionb (s : str * dict str (dict str str)) : bool :=
  identb (fst s) && match snd s with [] => false | _ => true end
  && distinct (map (fun ni : str * dict str str => lower (fst ni)) (snd s)) && forallb entryb (snd s)
  && str_eqb (lower (fst s)) (fst s).

Lemma grouped_good : distinct (map (fun s : str * dict str (dict str str) => lower (fst s)) grouped_tbl) = true /\
  forallb sectionb grouped_tbl = true.
Proof. split; vm_compute; reflexivity. Qed.

Lemma entryb_ok fig ni : entryb ni = true -> storable (fig (fst ni)) -> good_result (user_result fig ni).
Proof.
  unfold entryb. rewrite !andb_true_iff, forallb_forall. intros [[H1 H2] H3] S.
  unfold good_result, user_result. cbn [r_name r_texts r_content].
  split; [apply identb_ok, H1|]. split; [apply storable_content, S|]. split; [apply str_dup, H2|].
  apply Forall_forall. intros p P. specialize (H3 p P). unfold textb in H3.
  rewrite !andb_true_iff, !negb_true_iff in H3. destruct H3 as [[[A B] C] D].
  split; [apply identb_ok, A|]. split; [apply printb_ok, B|].
  split; [apply str_eqb_neq, C|apply str_eqb_neq, D].
Qed.

Lemma user_good fig :
  (forall s ni, In s grouped_tbl -> In ni (snd s) -> storable (fig (fst ni))) ->
  good_results (user_results fig grouped_tbl).
Proof.
  intros S. destruct grouped_good as [D G]. revert S D G. generalize grouped_tbl as g. intros g S D G.
  unfold good_results, user_results. split.
  - unfold distinct_names. rewrite map_map. cbn [fst]. apply str_dup, D.
  - apply Forall_forall. intros r R. apply in_map_iff in R. destruct R as (s & <- & R). cbn [fst snd].
    rewrite forallb_forall in G. specialize (G s R). unfold sectionb in G. rewrite !andb_true_iff in G.
    destruct G as [[[[G1 G2] G3] G4] _]. split; [apply identb_ok, G1|].
    split; [destruct s as [sn [|x l]]; cbn [snd] in G2; [discriminate G2|intros X; discriminate X]|]. split.
    + rewrite map_map. cbn [r_name user_result]. apply str_dup, G3.
    + apply Forall_forall. intros x X. apply in_map_iff in X. destruct X as (ni & <- & X).
      rewrite forallb_forall in G4. apply entryb_ok; [apply G4, X|exact (S s ni R X)].
Qed.

(** ** Reading back *)

Lemma oget_distinct k (v : pobj) d : NoDup (map fst d) -> In (k, v) d -> oget k d = Some v.
Proof. intros N I. unfold oget. exact (sget_in k v d N I). Qed.

Lemma oget_in k (v : pobj) d : oget k d = Some v -> In (k, v) d.
Proof. intros H. exact (sget_some_in k v d H). Qed.

Lemma lower_result_obj r : result_obj (lower_result r) =
  (lower (r_name r),
   ODict (map (fun p => (lower (fst p), OStr (snd p))) (r_texts r) ++
          [match r_content r with
           | Value None => (lit "value", ONone)
           | Value (Some x) => (lit "value", ONum (as_float x))
           | Arrays a => (lit "data", ODict (map (fun p => (lower (fst p), OArr (map as_float (snd p)))) a))
           end])).
Proof.
  unfold result_obj, lower_result. cbn [r_name r_texts r_content]. rewrite map_map. cbn [fst snd].
  destruct (r_content r) as [[x|]|a]; cbn [content_obj option_map]; try reflexivity.
  rewrite map_map. reflexivity.
Qed.

Lemma content_read_back v : storable v ->
  read_back v (match content_of v with
           | Value None => (lit "value", ONone)
           | Value (Some x) => (lit "value", ONum (as_float x))
           | Arrays a => (lit "data", ODict (map (fun p => (lower (fst p), OArr (map as_float (snd p)))) a))
           end).
Proof.
  intros [->|[(x & -> & _)|(a & -> & _)]]; cbn [content_of]; try constructor.
  rewrite !map_map. cbn [fst snd un_arr]. constructor.
Qed.

Lemma read_back_key v p : read_back v p -> fst p = lit "value" \/ fst p = lit "data".
Proof. intros []; auto. Qed.

(** One result as it is read back. *)
Lemma result_back fig ni : plain_info ni = true -> entryb ni = true -> storable (fig (fst ni)) ->
  exists d p, result_obj (lower_result (user_result fig ni)) = (lower (fst ni), ODict d) /\
  read_back (fig (fst ni)) p /\ oget (fst p) d = Some (snd p) /\
  oget (lit "short") d = option_map OStr (sget (lit "short") (snd ni)).
Proof.
  intros P B S. rewrite lower_result_obj. cbn [r_name r_texts r_content user_result].
  eexists _, _. split; [reflexivity|].
  pose proof (content_read_back _ S) as R. split; [exact R|].
  set (p := match content_of (fig (fst ni)) with Value None => _ | Value (Some x) => _ | Arrays a => _ end) in *.
  unfold entryb in B. rewrite !andb_true_iff, forallb_forall in B. destruct B as [[_ B2] B3].
  apply str_dup in B2.
  assert (T : forall k, k = lit "value" \/ k = lit "data" -> ~ In k (map (fun p => lower (fst p)) (snd ni))).
  { intros k K I. apply in_map_iff in I. destruct I as (q & Q & I). specialize (B3 q I). unfold textb in B3.
    rewrite !andb_true_iff, !negb_true_iff in B3. destruct B3 as [[_ C] D].
    apply str_eqb_neq in C. apply str_eqb_neq in D. destruct K; congruence. }
  assert (N : NoDup (map fst (map (fun p => (lower (fst p), OStr (snd p))) (snd ni) ++ [p]))).
  { rewrite map_app, map_map. cbn [map fst]. apply nodup_snoc; [exact B2|]. apply T, (read_back_key _ _ R). }
  split.
  - apply oget_distinct; [exact N|]. apply in_or_app. right. left. destruct p; reflexivity.
  - destruct (sget (lit "short") (snd ni)) as [s|] eqn:E.
    + apply oget_distinct; [exact N|]. apply in_or_app. left. apply sget_some_in in E.
      apply in_map_iff. exists (lit "short", s). split; [reflexivity|exact E].
    + unfold plain_info in P. rewrite E in P. discriminate.
Qed.

Lemma entry_back fig g s ni :
  NoDup (map (fun s : str * dict str (dict str str) => lower (fst s)) g) ->
  In s g -> sectionb s = true -> In ni (snd s) -> plain_info ni = true -> storable (fig (fst ni)) ->
  exists d p, entry (results_obj (lower_results (user_results fig g))) (fst s) (lower (fst ni)) = Some (ODict d) /\
  read_back (fig (fst ni)) p /\ oget (fst p) d = Some (snd p) /\
  oget (lit "short") d = option_map OStr (sget (lit "short") (snd ni)).
Proof.
  intros N Hs B Hn P S. unfold sectionb in B. rewrite !andb_true_iff in B.
  destruct B as [[[[_ _] B3] B4] B5]. apply str_eqb_eq in B5. apply str_dup in B3.
  rewrite forallb_forall in B4.
  destruct (result_back fig ni P (B4 ni Hn) S) as (d & p & E & R & O1 & O2).
  exists d, p. split; [|auto]. unfold entry, results_obj, lower_results, user_results. rewrite !map_map. cbn [fst snd].
  rewrite (oget_distinct (fst s) (ODict (map result_obj (map lower_result (map (user_result fig) (snd s)))))).
  - apply oget_distinct.
    + rewrite !map_map. rewrite (map_ext _ (fun ni : str * dict str str => lower (fst ni))); [exact B3|].
      intros x. rewrite lower_result_obj. reflexivity.
    + rewrite <- E. do 3 apply in_map. exact Hn.
  - rewrite map_map. cbn [fst]. exact N.
  - apply in_map_iff. exists s. split; [|exact Hs]. cbn [fst snd]. f_equal. exact B5.
Qed.

Lemma entry_known fig g c m o :
  entry (results_obj (lower_results (user_results fig g))) c m = Some o ->
  exists s ni, In s g /\ In ni (snd s) /\ c = lower (fst s) /\ m = lower (fst ni).
Proof.
  unfold entry, results_obj, lower_results, user_results. rewrite !map_map. cbn [fst snd]. intros H.
  destruct (oget c _) as [x|] eqn:E; [|discriminate]. apply oget_in in E. apply in_map_iff in E.
  destruct E as (s & E & Hs). injection E as <- <-. apply oget_in in H. rewrite !map_map in H.
  apply in_map_iff in H. destruct H as (ni & H & Hn). rewrite lower_result_obj in H. cbn [r_name user_result] in H.
  injection H as <- _. eauto 10.
Qed.

Lemma in_quantities s ni : In s grouped_tbl -> In ni (snd s) -> In (fst s, card ni) quantities.
Proof.
  intros Hs Hn. unfold quantities. rewrite catalogue_eq. apply in_flat_map.
  exists (fst s, map card (snd s)). split.
  - apply in_map_iff. exists s. split; [reflexivity|exact Hs].
  - apply in_map_iff. exists (card ni). split; [reflexivity|]. apply in_map, Hn.
Qed.

Lemma quantities_in c q : In (c, q) quantities -> exists s ni, In s grouped_tbl /\ In ni (snd s) /\ c = fst s /\ q = card ni.
Proof.
  unfold quantities. rewrite catalogue_eq. intros H. apply in_flat_map in H. destruct H as (x & X & H).
  apply in_map_iff in X. destruct X as (s & <- & Hs). cbn [fst snd] in H. apply in_map_iff in H.
  destruct H as (y & E & H). injection E as <- <-. apply in_map_iff in H. destruct H as (ni & <- & Hn). eauto 10.
Qed.

Definition identifier_results : identifier (lit "results").
Proof. apply identb_ok. vm_compute. reflexivity. Qed.

(** The tree written for an evaluation, and what reading it gives. *)
Lemma exported fig :
  (forall c name short symbol, In (c, (name, short, symbol)) quantities -> storable (fig name)) ->
  exists t f, by_section (fun n => Ok (fig n)) = Ok (map (fun s => (fst s, filled fig (snd s))) grouped_tbl) /\
  dict_to_xml (lit "results") (sections_obj (map (fun s => (fst s, filled fig (snd s))) grouped_tbl)) = Ok t /\
  xml_to_dict (XFile (Some (reload t))) = Ok (Some f) /\
  (forall c name short symbol, In (c, (name, short, symbol)) quantities ->
     exists d p, entry f c (lower name) = Some (ODict d) /\ read_back (fig name) p /\
       oget (fst p) d = Some (snd p) /\ oget (lit "short") d = Some (OStr short)) /\
  (forall c m o, entry f c m = Some o ->
     exists name short symbol, In (c, (name, short, symbol)) quantities /\ m = lower name).
Proof.
  intros H.
  assert (S : forall s ni, In s grouped_tbl -> In ni (snd s) -> storable (fig (fst ni))).
  { intros s ni Hs Hn. exact (H _ _ _ _ (in_quantities s ni Hs Hn)). }
  destruct (xml_round_trip (lit "results") (user_results fig grouped_tbl) identifier_results (user_good fig S))
    as (t & E1 & E2).
  exists t, (results_obj (lower_results (user_results fig grouped_tbl))).
  split; [apply by_section_eq|]. split; [rewrite sections_obj_eq; [exact E1|exact grouped_plain|exact S]|].
  split; [exact E2|]. destruct grouped_good as [D G]. rewrite forallb_forall in G. pose proof grouped_plain as P.
  rewrite forallb_forall in P. split.
  - intros c name short symbol Q. destruct (quantities_in _ _ Q) as (s & ni & Hs & Hn & -> & E).
    specialize (P s Hs). cbn beta in P. rewrite forallb_forall in P. specialize (P ni Hn).
    unfold card in E. injection E as -> Es ->.
    destruct (entry_back fig grouped_tbl s ni (str_dup _ D) Hs (G s Hs) Hn P (S s ni Hs Hn)) as (d & p & A & B & C & O).
    exists d, p. split; [exact A|]. split; [exact B|]. split; [exact C|]. rewrite O.
    unfold plain_info in P. destruct (sget (lit "short") (snd ni)); [subst; reflexivity|discriminate].
  - intros c m o E. destruct (entry_known _ _ _ _ _ E) as (s & ni & Hs & Hn & -> & ->).
    exists (fst ni). eexists _, _. split; [|reflexivity].
    pose proof (G s Hs) as B. unfold sectionb in B. rewrite !andb_true_iff in B. destruct B as [_ B].
    apply str_eqb_eq in B. rewrite B. exact (in_quantities s ni Hs Hn).
Qed.

Lemma xml_file fig can_open name :
  (forall c n short symbol, In (c, (n, short, symbol)) quantities -> storable (fig n)) ->
  name <> [] -> can_open name = true ->
  exists t f, export_xml can_open (fun n => Ok (fig n)) (Some name) = Ok (None, Some (name, t)) /\
  xml_to_dict (XFile (Some (reload t))) = Ok (Some f) /\
  (forall c n short symbol, In (c, (n, short, symbol)) quantities ->
     exists d p, entry f c (lower n) = Some (ODict d) /\ read_back (fig n) p /\
       oget (fst p) d = Some (snd p) /\ oget (lit "short") d = Some (OStr short)) /\
  (forall c m o, entry f c m = Some o ->
     exists n short symbol, In (c, (n, short, symbol)) quantities /\ m = lower n).
Proof.
  intros H Hn Ho. destruct (exported fig H) as (t & f & E1 & E2 & E3 & E4 & E5). exists t, f. split; [|auto].
  unfold export_xml. rewrite E1. cbn [bind]. rewrite E2. cbn [bind]. destruct name; [congruence|]. rewrite Ho. reflexivity.
Qed.

Lemma xml_text_returned fig can_open name :
  (forall c n short symbol, In (c, (n, short, symbol)) quantities -> storable (fig n)) ->
  name = None \/ name = Some [] ->
  exists t, export_xml can_open (fun n => Ok (fig n)) name = Ok (Some t, None) /\
  forall file, can_open file = true -> file <> [] ->
    export_xml can_open (fun n => Ok (fig n)) (Some file) = Ok (None, Some (file, t)).
Proof.
  intros H Hn. destruct (exported fig H) as (t & f & E1 & E2 & _). exists t.
  assert (A : forall g, export_xml can_open (fun n => Ok (fig n)) g = match g with
    | None | Some [] => Ok (Some t, None)
    | Some f => if can_open f then Ok (None, Some (f, t)) else Err IOError end).
  { intros g. unfold export_xml. rewrite E1. cbn [bind]. rewrite E2. reflexivity. }
  split; [rewrite A; destruct Hn as [->| ->]; reflexivity|].
  intros file Ho Hf. rewrite A. destruct file; [congruence|]. rewrite Ho. reflexivity.
Qed.

(** The spatial variance of the bright and that of the dark image are printed under the
    same description and symbol. *)
Lemma in_by_eqb (x : str) l : existsb (str_eqb x) l = true -> In x l.
Proof.
  intros H. apply existsb_exists in H. destruct H as (y & I & E). apply str_eqb_eq in E. subst. exact I.
Qed.

Fixpoint find_name (n : str) (l : list (str * (str * str * option str))) : option (str * (str * str * option str)) :=
  match l with
  | [] => None
  | q :: l' => if str_eqb n (fst (fst (snd q))) then Some q else find_name n l'
  end.
Lemma find_name_in n l q : find_name n l = Some q -> In q l.
Proof.
  induction l as [|x l IH]; [discriminate|]. cbn [find_name].
  destruct (str_eqb n (fst (fst (snd x)))); intros H; [injection H as <-; left; reflexivity|right; apply IH, H].
Qed.

Definition two_figs (n : str) : pobj := if str_eqb n (lit "s_2_y") then ONum (NI 25) else ONum (NI 4).
Lemma export_xml_eq can_open fig filename : export_xml can_open (fun n => Ok (fig n)) filename =
  (t <- dict_to_xml (lit "results") (sections_obj (map (fun s => (fst s, filled fig (snd s))) grouped_tbl)) ;;
   match filename with
   | None | Some [] => Ok (Some t, None)
   | Some f => if can_open f then Ok (None, Some (f, t)) else Err IOError
   end).
Proof. unfold export_xml. rewrite by_section_eq. reflexivity. Qed.

Lemma same_labels :
  exists s n1 n2 short symbol, n1 <> n2 /\
  In (s, (n1, short, Some symbol)) quantities /\ In (s, (n2, short, Some symbol)) quantities /\
  exists fig p l1 l2, fig n1 <> fig n2 /\
    print_results (fun n => Ok (fig n)) = (p, Ok tt) /\ In l1 p /\ In l2 p /\
    (exists t1, shown (fig n1) t1 /\ line_of short (Some symbol) t1 l1) /\
    (exists t2, shown (fig n2) t2 /\ line_of short (Some symbol) t2 l2).
Proof.
  exists (lit "spatial"), (lit "s_2_y"), (lit "s_2_y_dark"), (lit "Spatial variance from image"), (lit "$s^2_{y}$").
  split; [intros X; vm_compute in X; discriminate|].
  split; [apply (find_name_in (lit "s_2_y")); vm_compute; reflexivity|].
  split; [apply (find_name_in (lit "s_2_y_dark")); vm_compute; reflexivity|].
  exists two_figs, (fst (and_then (print_sections (map (fun s => (fst s, filled two_figs (snd s))) grouped_tbl)) ([stars; lit " "], Ok tt))).
  exists (ljust 50 (lit "Spatial variance from image") ++ ljust 30 (lit "$s^2_{y}$") ++ rjust 10 (lit "25")),
         (ljust 50 (lit "Spatial variance from image") ++ ljust 30 (lit "$s^2_{y}$") ++ rjust 10 (lit "4")).
  split; [intros X; vm_compute in X; discriminate|].
  split; [rewrite print_results_eq; vm_compute; reflexivity|].
  split; [apply in_by_eqb; vm_compute; reflexivity|].
  split; [apply in_by_eqb; vm_compute; reflexivity|].
  split.
  - exists (lit "25"). split; [exact (sh_num (NI 25))|].
    eexists _, _, _. split; [apply ljust_column|]. split; [apply ljust_column|]. split; [apply rjust_column|reflexivity].
  - exists (lit "4"). split; [exact (sh_num (NI 4))|].
    eexists _, _, _. split; [apply ljust_column|]. split; [apply ljust_column|]. split; [apply rjust_column|reflexivity].
Qed.
