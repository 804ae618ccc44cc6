(** Comparing result files. *)
From Coq Require Import Ascii String List Bool Arith ZArith QArith Qabs Lia Lqa Sorted.
From Coq Require Import Qpower Qround.
From Verif Require Import Base_Prelude Base_Str Base_Num Model_Info Model_Xml
  Spec_Info Spec_Xml Proofs_Dict Proofs_Info.
Import ListNotations.
Open Scope nat_scope.

Local Arguments lit : simpl never.

(** ** Symmetry *)

Lemma ok_inj {A} (a b : A) : Ok a = Ok b -> a = b.
Proof. congruence. Qed.

Lemma same_number_sym a b : same_number a b = same_number b a.
Proof.
  destruct a, b; simpl; auto. destruct (Qeq_bool q q0) eqn:E; symmetry.
  - apply Qeq_bool_iff. apply Qeq_bool_iff in E. symmetry. exact E.
  - destruct (Qeq_bool q0 q) eqn:F; auto. apply Qeq_bool_iff in F. symmetry in F.
    apply Qeq_bool_iff in F. congruence.
Qed.

Lemma forallb_ext {A} (f g : A -> bool) l : (forall a, f a = g a) -> forallb f l = forallb g l.
Proof. intro H. induction l as [|a l IH]; simpl; auto. rewrite H, IH. reflexivity. Qed.

Lemma combine_sym (a b : list pyfloat) :
  forallb (fun p => same_number (fst p) (snd p)) (combine a b) =
  forallb (fun p => same_number (fst p) (snd p)) (combine b a).
Proof.
  revert b. induction a as [|x a IH]; intros [|y b]; simpl; auto.
  rewrite same_number_sym, IH. reflexivity.
Qed.

Lemma all_equal_sym a b : all_equal a b = all_equal b a.
Proof.
  destruct a as [|x [|x2 a]], b as [|y [|y2 b]]; auto.
  - unfold all_equal. simpl. rewrite same_number_sym. reflexivity.
  - unfold all_equal. apply forallb_ext. intro z. apply same_number_sym.
  - unfold all_equal. apply forallb_ext. intro z. apply same_number_sym.
  - unfold all_equal. rewrite Nat.eqb_sym, combine_sym. reflexivity.
Qed.

Lemma values_equal_sym E v1 v2 : values_equal E v1 v2 = values_equal E v2 v1.
Proof.
  unfold values_equal.
  destruct (round_significant E false v1), (round_significant E false v2); auto.
  apply same_number_sym.
Qed.

Lemma arrays_equal_sym E v1 v2 : arrays_equal E v1 v2 = arrays_equal E v2 v1.
Proof.
  unfold arrays_equal. destruct v1 as [| | |a1|], v2 as [| | |a2|]; auto.
  destruct (mapM (fun x => round_significant E true (ONum x)) a1),
           (mapM (fun x => round_significant E true (ONum x)) a2); auto.
  apply all_equal_sym.
Qed.

Lemma forallb_keys_sym (d1 d2 : list (str * pobj)) (f : pobj -> pobj -> bool) :
  (forall x y, f x y = f y x) ->
  (forall k, In k (map fst d1) <-> In k (map fst d2)) ->
  forallb (fun k => match oget k d1, oget k d2 with Some x, Some y => f x y | _, _ => false end) (dkeys d1)
  = forallb (fun k => match oget k d2, oget k d1 with Some x, Some y => f x y | _, _ => false end) (dkeys d2).
Proof.
  intros Hf Hk.
  assert (G : forall (a b : bool), (a = true <-> b = true) -> a = b).
  { intros [|] [|] H; auto; destruct H as (H1 & H2); [symmetry; auto|auto]. }
  apply G. rewrite !forallb_forall. unfold dkeys. split; intros H k Hin.
  - apply Hk in Hin. specialize (H k Hin). destruct (oget k d1), (oget k d2); auto.
    rewrite Hf. exact H.
  - apply Hk in Hin. specialize (H k Hin). destruct (oget k d1), (oget k d2); auto.
    rewrite Hf. exact H.
Qed.

Lemma keys_same (d1 d2 : list (str * pobj)) :
  forallb (fun k => dmem str_eqb k d2) (dkeys d1) && forallb (fun k => dmem str_eqb k d1) (dkeys d2) = true
  <-> (forall k, In k (map fst d1) <-> In k (map fst d2)).
Proof.
  rewrite andb_true_iff, !forallb_forall. unfold dkeys. split.
  - intros (H1 & H2) k. split; intro H; apply dmem_in; auto.
  - intro H. split; intros k Hk; apply dmem_in; apply H, Hk.
Qed.

Lemma data_equal_sym E a1 a2 : data_equal E a1 a2 = data_equal E a2 a1.
Proof.
  unfold data_equal. destruct a1 as [| | | |d1], a2 as [| | | |d2]; auto.
  rewrite (andb_comm (forallb (fun k => dmem str_eqb k d1) (dkeys d2))).
  destruct (forallb (fun k => dmem str_eqb k d2) (dkeys d1) &&
            forallb (fun k => dmem str_eqb k d1) (dkeys d2)) eqn:K; auto.
  rename K into K0. pose proof (proj1 (keys_same d1 d2) K0) as K.
  destruct d1 as [|p1 d1], d2 as [|p2 d2]; auto.
  - exfalso. apply (K (fst p2)). left. reflexivity.
  - exfalso. apply (K (fst p1)). left. reflexivity.
  - f_equal. apply forallb_keys_sym; auto. apply arrays_equal_sym.
Qed.

Lemma compare_method_sym E m1 m2 : compare_method E m1 m2 = compare_method E m2 m1.
Proof.
  unfold compare_method.
  destruct (value_and_data m1) as [[v1 a1]|e1] eqn:E1, (value_and_data m2) as [[v2 a2]|e2] eqn:E2;
    cbn [bind]; auto.
  - rewrite (andb_comm (negb (is_none v1))), (andb_comm (formattable v1)),
      (andb_comm (negb (is_none a1))), values_equal_sym, data_equal_sym. reflexivity.
  - unfold value_and_data in E1, E2.
    destruct m1 as [[]|]; try discriminate; destruct m2 as [[]|]; try discriminate; congruence.
Qed.

Lemma keys_sorted_sym (a b : list str) : str_sorted (str_nub (a ++ b)) = str_sorted (str_nub (b ++ a)).
Proof.
  apply sorted_unique; try apply str_sorted_strict, str_nub_nodup.
  intro x. rewrite !str_sorted_in, !str_nub_in, !in_app_iff. tauto.
Qed.

Lemma mapM_rel {A B} (f g : A -> res B) (h : B -> B) l :
  (forall a b, f a = Ok b -> g a = Ok (h b)) ->
  forall r, mapM f l = Ok r -> mapM g l = Ok (map h r).
Proof.
  intro H. induction l as [|a l IH]; simpl; intros r Hr.
  - injection Hr as <-. reflexivity.
  - apply bind_ok in Hr. destruct Hr as (b & Hb & Hr). apply bind_ok in Hr.
    destruct Hr as (bs & Hbs & Hr). injection Hr as <-.
    rewrite (H a b Hb). cbn [bind]. rewrite (IH bs Hbs). reflexivity.
Qed.

Lemma compare_category_sym E f1 f2 c ls :
  compare_category E f1 f2 c = Ok ls -> compare_category E f2 f1 c = Ok (map exchanged ls).
Proof.
  unfold compare_category. intro H.
  destruct (oget c f1) as [[| | | |s1]|], (oget c f2) as [[| | | |s2]|]; try discriminate;
    try (injection H as <-; reflexivity).
  rewrite (keys_sorted_sym (dkeys s2) (dkeys s1)).
  eapply mapM_rel; [|exact H]. intros m b Hb. simpl in Hb.
  rewrite compare_method_sym. apply bind_ok in Hb. destruct Hb as (ok & Hok & Hb).
  injection Hb as <-. rewrite Hok. reflexivity.
Qed.

Lemma compare_sym E x1 x2 ls : compare_xml E x1 x2 = Ok ls ->
  compare_xml E x2 x1 = Ok (map exchanged ls).
Proof.
  unfold compare_xml. intro H. apply bind_ok in H. destruct H as (o1 & H1 & H).
  apply bind_ok in H. destruct H as (o2 & H2 & H). rewrite H2, H1. cbn [bind].
  destruct o1 as [f1|], o2 as [f2|]; try (injection H as <-; reflexivity).
  apply bind_ok in H. destruct H as (r & Hr & H). injection H as <-.
  rewrite (keys_sorted_sym (dkeys f2) (dkeys f1)).
  rewrite (mapM_rel _ (compare_category E f2 f1) (map exchanged) _ (compare_category_sym E f1 f2) r Hr).
  cbn [bind]. f_equal. clear. induction r as [|x r IH]; simpl; auto. rewrite map_app, IH. reflexivity.
Qed.

(** ** A file against itself *)

Lemma round_self E np n r : round_significant E np (ONum n) = Ok r ->
  same_number r r = true -> roundable E np (num_float n).
Proof.
  unfold round_significant. set (x := num_float n). cbv zeta. clearbody x. intros H S.
  destruct (feq x fzero) eqn:F.
  - destruct x as [q| |]; try discriminate. exists q. split; auto. left.
    simpl in F. apply Qeq_bool_iff in F. exact F.
  - destruct (ne_np_int E) eqn:I; [|discriminate]. destruct x as [q| |]; try discriminate.
    exists q. split; auto. right. split; auto.
    replace (6 - ne_log10 E q)%Z with (7 - ne_log10 E q - 1)%Z by lia.
    destruct r as [v| |]; try discriminate. exists v. exact H.
Qed.

Lemma roundable_round E np n : roundable E np (num_float n) ->
  exists q, round_significant E np (ONum n) = Ok (FFin q).
Proof.
  unfold round_significant. set (x := num_float n). cbv zeta. clearbody x.
  intros (q & -> & H). destruct (feq (FFin q) fzero) eqn:F; [eexists; reflexivity|].
  destruct H as [H|(I & r & H)].
  - simpl in F. apply Qeq_bool_iff in H. congruence.
  - rewrite I. replace (6 - ne_log10 E q)%Z with (7 - ne_log10 E q - 1)%Z in H by lia. eauto.
Qed.

Lemma same_self q : same_number (FFin q) (FFin q) = true.
Proof. simpl. apply Qeq_bool_iff. reflexivity. Qed.

Lemma values_self E n : values_equal E (ONum n) (ONum n) = true <-> roundable E false (num_float n).
Proof.
  unfold values_equal. split.
  - destruct (round_significant E false (ONum n)) eqn:R; [|discriminate]. apply round_self, R.
  - intro H. destruct (roundable_round _ _ _ H) as (q & ->). apply same_self.
Qed.

Lemma all_equal_self r : all_equal r r = true <-> r <> [] /\ Forall (fun x => same_number x x = true) r.
Proof.
  destruct r as [|x [|y r]].
  - split; [discriminate|]. intros (H & _). congruence.
  - unfold all_equal. simpl. rewrite andb_true_r. split; intro H.
    + split; [discriminate|]. constructor; auto.
    + destruct H as (_ & H). inversion H; auto.
  - unfold all_equal. rewrite Nat.eqb_refl. cbn [andb].
    assert (G : forall l, forallb (fun p => same_number (fst p) (snd p)) (combine l l) = true <->
                          Forall (fun x => same_number x x = true) l).
    { induction l as [|z l IH]; simpl; [split; auto|]. rewrite andb_true_iff, IH. split.
      - intros (H1 & H2). constructor; auto.
      - intro H. inversion H; auto. }
    rewrite G. split; [intro H; split; [discriminate|auto]|tauto].
Qed.

Lemma arrays_self E v : arrays_equal E v v = true <->
  exists xs, v = OArr xs /\ xs <> [] /\ Forall (fun x => roundable E true (num_float x)) xs.
Proof.
  split.
  - destruct v as [| | |a|]; try discriminate. unfold arrays_equal. intro H.
    exists a. split; auto.
    destruct (mapM (fun x => round_significant E true (ONum x)) a) as [r|] eqn:R; [|discriminate].
    apply all_equal_self in H. destruct H as (Hne & H). apply mapM_ok in R. split.
    + intros ->. inversion R. congruence.
    + clear Hne. induction R as [|x y a r Hx R IH]; constructor.
      * inversion H; subst. eapply round_self; eauto.
      * apply IH. inversion H; auto.
  - intros (xs & -> & Hne & H). unfold arrays_equal.
    assert (G : exists r, mapM (fun x => round_significant E true (ONum x)) xs = Ok r).
    { apply mapM_is_ok. eapply Forall_impl; [|exact H]. intros x Hx.
      destruct (roundable_round _ _ _ Hx) as (q & Hq). eauto. }
    destruct G as (r & R). rewrite R. apply all_equal_self. apply mapM_ok in R. split.
    + intros ->. inversion R. congruence.
    + clear Hne. induction R as [|x y a r Hx R IH]; constructor; inversion H; subst; auto.
      destruct (roundable_round _ _ _ H2) as (q & Hq). rewrite Hq in Hx. injection Hx as <-.
      apply same_self.
Qed.

Lemma data_self E a : data_equal E (ODict a) (ODict a) = Ok true <->
  a <> [] /\ forall k v, oget k a = Some v -> arrays_equal E v v = true.
Proof.
  unfold data_equal.
  assert (K : forallb (fun k => dmem str_eqb k a) (dkeys a) && forallb (fun k => dmem str_eqb k a) (dkeys a) = true)
    by (apply keys_same; tauto).
  rewrite K. destruct a as [|p a].
  - split; [discriminate|]. intros (H & _). congruence.
  - split.
    + intro H. apply ok_inj in H. split; [discriminate|]. intros k v Hk.
      rewrite forallb_forall in H. 
      assert (I : In k (dkeys (p :: a))).
      { apply sget_some_in in Hk. apply (in_map fst) in Hk. exact Hk. }
      specialize (H k I). rewrite Hk in H. exact H.
    + intros (_ & H). f_equal. apply forallb_forall. intros k I.
      destruct (sget_key k (p :: a) I) as (v & Hv). unfold oget. rewrite Hv. apply (H k). exact Hv.
Qed.

Lemma method_self E o : compare_method E (Some o) (Some o) = Ok true <-> comparable E o.
Proof.
  unfold compare_method, comparable. destruct o as [| | | |d];
    try (split; [discriminate|intros (d & F & _); discriminate]).
  cbn [value_and_data bind]. split.
  - intro H. exists d. split; auto.
    destruct (oget (lit "value") d) as [v|] eqn:V.
    + destruct v as [|s|n|a|dd]; cbn [is_none negb andb formattable] in H; try discriminate.
      * right. split; auto. destruct (oget (lit "data") d) as [w|] eqn:D; [|discriminate].
        destruct w as [| | | |a]; try discriminate. exists a. split; auto.
        apply data_self in H. destruct H as (Hne & H). split; auto.
        intros k v Hk. apply arrays_self. eapply H; eauto.
      * left. exists n. split; auto. injection H as H. apply values_self, H.
    + right. split; auto. cbn [is_none negb andb] in H.
      destruct (oget (lit "data") d) as [w|] eqn:D; [|discriminate].
      destruct w as [| | | |a]; try discriminate. exists a. split; auto.
      apply data_self in H. destruct H as (Hne & H). split; auto.
      intros k v Hk. apply arrays_self. eapply H; eauto.
  - intros (d' & F & H). injection F as <-.
    destruct H as [(n & V & H)|(V & a & D & Hne & H)].
    + rewrite V. cbn [is_none negb andb formattable]. f_equal. apply values_self, H.
    + assert (Hv : is_none (match oget (lit "value") d with Some v => v | None => ONone end) = true)
        by (destruct V as [-> | ->]; reflexivity).
      rewrite Hv, D. cbn [is_none negb andb]. apply data_self. split; auto.
      intros k v Hk. apply arrays_self. eapply H; eauto.
Qed.

Lemma in_lines E f1 f2 c ls l : compare_category E f1 f2 c = Ok ls -> In l ls ->
  (exists a b, l = LPresent c a b /\ (oget c f1 = None \/ oget c f2 = None)) \/
  exists m ok s1 s2, l = LMethod c m ok /\ oget c f1 = Some (ODict s1) /\ oget c f2 = Some (ODict s2) /\
     (In m (map fst s1) \/ In m (map fst s2)) /\
     compare_method E (oget m s1) (oget m s2) = Ok ok.
Proof.
  unfold compare_category. intros H I.
  assert (P : forall x y, Ok [LPresent c x y] = Ok ls -> exists a b, l = LPresent c a b).
  { intros x y F. injection F as <-. destruct I as [<-|[]]. eauto. }
  destruct (oget c f1) as [[| | | |s1]|] eqn:E1, (oget c f2) as [[| | | |s2]|] eqn:E2; try discriminate;
    try (left; destruct (P _ _ H) as (u & w & Hl); exists u, w; tauto).
  right. apply mapM_ok in H.
  assert (G : exists m, In m (str_sorted (str_nub (dkeys s1 ++ dkeys s2))) /\
     (ok <- compare_method E (oget m s1) (oget m s2) ;; Ok (LMethod c m ok)) = Ok l).
  { clear -H I. induction H as [|m l' ms ls Hm H IH]; [destruct I|].
    destruct I as [->|I]; [exists m; split; [left|]; auto|].
    destruct (IH I) as (m' & I' & H'). exists m'. split; [right|]; auto. }
  destruct G as (m & Im & Hm). apply bind_ok in Hm. destruct Hm as (ok & Hok & Hm).
  injection Hm as <-. exists m, ok, s1, s2. repeat split; auto.
  rewrite str_sorted_in, str_nub_in, in_app_iff in Im. exact Im.
Qed.

Lemma compare_lines E x1 x2 f1 f2 ls l :
  xml_to_dict x1 = Ok (Some f1) -> xml_to_dict x2 = Ok (Some f2) ->
  compare_xml E x1 x2 = Ok ls -> In l ls ->
  exists c ls', In c (map fst f1 ++ map fst f2) /\ compare_category E f1 f2 c = Ok ls' /\ In l ls'.
Proof.
  intros H1 H2 H I. unfold compare_xml in H. rewrite H1, H2 in H. cbn [bind] in H.
  apply bind_ok in H. destruct H as (r & Hr & H). injection H as <-.
  apply mapM_ok in Hr. apply in_concat in I. destruct I as (ls' & I1 & I2).
  assert (G : exists c, In c (str_sorted (str_nub (dkeys f1 ++ dkeys f2))) /\
                        compare_category E f1 f2 c = Ok ls').
  { clear -Hr I1. induction Hr as [|c l' cs r Hc H IH]; [destruct I1|].
    destruct I1 as [->|I]; [exists c; split; [left|]; auto|].
    destruct (IH I) as (c' & I' & H'). exists c'. split; [right|]; auto. }
  destruct G as (c & Ic & Hc). exists c, ls'. repeat split; auto.
  rewrite str_sorted_in, str_nub_in in Ic. exact Ic.
Qed.

Lemma compare_self E x f ls : xml_to_dict x = Ok (Some f) -> compare_xml E x x = Ok ls ->
  Forall (fun l => match l with
                   | LPresent _ _ _ => False
                   | LMethod c m ok => exists o, entry f c m = Some o /\ (ok = true <-> comparable E o)
                   end) ls.
Proof.
  intros Hx H. apply Forall_forall. intros l I.
  destruct (compare_lines E x x f f ls l Hx Hx H I) as (c & ls' & Ic & Hc & I').
  destruct (in_lines E f f c ls' l Hc I') as [(a & b & -> & F)|(m & ok & s1 & s2 & -> & E1 & E2 & Im & Hm)].
  - assert (In c (map fst f)) by (apply in_app_iff in Ic; tauto).
    destruct F as [F|F]; unfold oget in F; apply sget_none in F; contradiction.
  - rewrite E1 in E2. injection E2 as <-.
    assert (Im' : In m (map fst s1)) by tauto.
    destruct (sget_key m s1 Im') as (o & Ho). exists o. unfold entry. rewrite E1. split; auto.
    unfold oget in Hm. rewrite Ho in Hm. rewrite <- method_self, Hm. split; congruence.
Qed.

Lemma mapM_in {A B} (f : A -> res B) l r a : mapM f l = Ok r -> In a l ->
  exists b, f a = Ok b /\ In b r.
Proof.
  intros H. apply mapM_ok in H. induction H as [|x y l r Hx H IH]; intro I; [destruct I|].
  destruct I as [->|I]; [exists y; split; [|left]; auto|].
  destruct (IH I) as (b & Hb & Ib). exists b. split; [|right]; auto.
Qed.

Lemma compare_self_complete E x f ls c m o :
  xml_to_dict x = Ok (Some f) -> compare_xml E x x = Ok ls -> entry f c m = Some o ->
  exists ok, In (LMethod c m ok) ls.
Proof.
  intros Hx H He. unfold compare_xml in H. rewrite Hx in H. cbn [bind] in H.
  apply bind_ok in H. destruct H as (r & Hr & H). injection H as <-.
  unfold entry in He. destruct (oget c f) as [[| | | |s]|] eqn:Ec; try discriminate.
  destruct (mapM_in _ _ _ c Hr) as (ls & Hls & Il).
  { rewrite str_sorted_in, str_nub_in. apply in_app_iff. left. apply sget_some_in in Ec.
    apply (in_map fst) in Ec. exact Ec. }
  unfold compare_category in Hls. rewrite Ec in Hls.
  destruct (mapM_in _ _ _ m Hls) as (l & Hl & I).
  { rewrite str_sorted_in, str_nub_in. apply in_app_iff. left. apply sget_some_in in He.
    apply (in_map fst) in He. exact He. }
  apply bind_ok in Hl. destruct Hl as (ok & _ & Hl). injection Hl as <-.
  exists ok. apply in_concat. eauto.
Qed.

(** Sections of a loaded file are dictionaries. *)
Lemma loaded_sections x f c v : xml_to_dict x = Ok (Some f) -> In (c, v) f -> exists s, v = ODict s.
Proof.
  unfold xml_to_dict. destruct x as [[t|]|]; try discriminate. intros H I.
  apply bind_ok in H. destruct H as (d & Hd & H). injection H as <-.
  apply mapM_ok in Hd. induction Hd as [|a b l r Hab Hd IH]; [destruct I|].
  destruct I as [->|I]; auto. apply bind_ok in Hab. destruct Hab as (w & Hw & Hab).
  injection Hab as <- <-. unfold read_section in Hw. destruct (snd a); try discriminate.
  apply bind_ok in Hw. destruct Hw as (ms & _ & Hw). injection Hw as <-. eauto.
Qed.

Lemma compare_self_ok E x f : xml_to_dict x = Ok (Some f) ->
  (forall c m o, entry f c m = Some o -> comparable E o) ->
  exists ls, compare_xml E x x = Ok ls /\
  Forall (fun l => match l with LPresent _ _ _ => False | LMethod _ _ ok => ok = true end) ls.
Proof.
  intros Hx Hall.
  assert (G : exists ls, compare_xml E x x = Ok ls).
  { unfold compare_xml. rewrite Hx. cbn [bind].
    assert (K : exists r, mapM (compare_category E f f) (str_sorted (str_nub (dkeys f ++ dkeys f))) = Ok r).
    { apply mapM_is_ok. apply Forall_forall. intros c Ic.
      rewrite str_sorted_in, str_nub_in, in_app_iff in Ic.
      assert (Ic' : In c (map fst f)) by (unfold dkeys in Ic; tauto).
      destruct (sget_key c f Ic') as (v & Hv).
      destruct (loaded_sections x f c v Hx (sget_some_in _ _ _ Hv)) as (s & ->).
      assert (Hv' : oget c f = Some (ODict s)) by exact Hv.
      unfold compare_category. rewrite Hv'.
      apply mapM_is_ok. apply Forall_forall. intros m Im.
      rewrite str_sorted_in, str_nub_in, in_app_iff in Im.
      assert (Im' : In m (map fst s)) by (unfold dkeys in Im; tauto).
      destruct (sget_key m s Im') as (o & Ho).
      assert (C : comparable E o) by (apply (Hall c m); unfold entry, oget; rewrite Hv; exact Ho).
      apply method_self in C. unfold oget. rewrite Ho, C. cbn [bind]. eauto. }
    destruct K as (r & ->). cbn [bind]. eauto. }
  destruct G as (ls & Hls). exists ls. split; auto.
  pose proof (compare_self E x f ls Hx Hls) as F. eapply Forall_impl; [|exact F].
  intros [c a b|c m ok]; auto. intros (o & Ho & H). apply H. eapply Hall, Ho.
Qed.

(** ** What OK means *)

Open Scope Q_scope.

Lemma round_close E np n r : rounds_well E ->
  round_significant E np (ONum n) = Ok (FFin r) ->
  exists p, num_float n = FFin p /\ Qabs (r - p) <= (1 # 1000000) * Qabs p.
Proof.
  intros W. unfold round_significant. set (x := num_float n). cbv zeta. clearbody x.
  destruct (feq x fzero) eqn:F.
  - intro H. injection H as <-. destruct x as [q| |]; try discriminate. exists q. split; auto.
    simpl in F. apply Qeq_bool_iff in F. rewrite F. compute. discriminate.
  - destruct (ne_np_int E); [|discriminate]. destruct x as [q| |]; try discriminate. intro H.
    exists q. split; auto.
    assert (Hq : ~ q == 0) by (intro G; apply Qeq_bool_iff in G; simpl in F; congruence).
    destruct (W q Hq) as (Hl & H1 & H2).
    assert (B : Qabs (r - q) <= Qpower 10 (- (7 - ne_log10 E q - 1))).
    { destruct np; [apply H2|apply H1]; exact H. }
    eapply Qle_trans; [exact B|].
    replace (- (7 - ne_log10 E q - 1))%Z with (ne_log10 E q + (-6))%Z by lia.
    rewrite Qpower_plus by (compute; discriminate).
    change (Qpower 10 (-6)) with (/ 1000000). 
    setoid_replace (Qpower 10 (ne_log10 E q) * / 1000000) with ((1 # 1000000) * Qpower 10 (ne_log10 E q))
      by (rewrite Qmult_comm; reflexivity).
    apply Qmult_le_l; [reflexivity|exact Hl].
Qed.

Lemma same_close E np x y r s : rounds_well E ->
  round_significant E np (ONum x) = Ok r -> round_significant E np (ONum y) = Ok s ->
  same_number r s = true -> close x y.
Proof.
  intros W R S H. destruct r as [r| |], s as [s| |]; try discriminate.
  simpl in H. apply Qeq_bool_iff in H.
  destruct (round_close E np x r W R) as (p & Ep & Hp).
  destruct (round_close E np y s W S) as (q & Eq & Hq).
  exists p, q. split; auto. split; auto.
  assert (T : Qabs (p - q) <= (1 # 1000000) * Qabs p + (1 # 1000000) * Qabs q).
  { setoid_replace (p - q) with (- (r - p) + (s - q)) by (rewrite H; ring).
    eapply Qle_trans; [apply Qabs_triangle|]. rewrite Qabs_opp. lra. }
  destruct (Qlt_le_dec (Qabs p) (Qabs q)); [right|left]; lra.
Qed.

Open Scope nat_scope.

Lemma mapM_nth {A B} (f : A -> res B) l r i a : mapM f l = Ok r -> nth_error l i = Some a ->
  exists b, f a = Ok b /\ nth_error r i = Some b.
Proof.
  intro H. apply mapM_ok in H. revert i. induction H as [|x y l r Hx H IH]; intros i Hi.
  - destruct i; discriminate.
  - destruct i as [|i]; simpl in Hi.
    + injection Hi as <-. exists y. auto.
    + apply IH, Hi.
Qed.

Lemma all_equal_nth a b : all_equal a b = true ->
  (length a = length b \/ length a = 1 \/ length b = 1) /\
  forall i j x y, nth_error a i = Some x -> nth_error b j = Some y ->
  i = j \/ length a = 1 \/ length b = 1 -> same_number x y = true.
Proof.
  intro H.
  assert (One : forall z c, forallb (same_number z) c = true ->
     forall j y, nth_error c j = Some y -> same_number z y = true).
  { intros z c Hc j y Hy. rewrite forallb_forall in Hc. apply Hc. eapply nth_error_In, Hy. }
  destruct a as [|x0 [|x1 a]]; [discriminate| |].
  - split; [auto|]. intros i j x y Hx Hy _.
    assert (Hb : forallb (same_number x0) b = true) by (destruct b; [discriminate|exact H]).
    destruct i as [|i]; [|destruct i; discriminate]. injection Hx as <-. eapply One; eauto.
  - destruct b as [|y0 [|y1 b]]; [discriminate| |].
    + split; [auto|]. intros i j x y Hx Hy _.
      destruct j as [|j]; [|destruct j; discriminate]. injection Hy as <-.
      unfold all_equal in H. rewrite forallb_forall in H. apply H. eapply nth_error_In, Hx.
    + unfold all_equal in H. apply andb_true_iff in H. destruct H as (L & H).
      apply Nat.eqb_eq in L. split; auto. intros i j x y Hx Hy [->|[D|D]]; try discriminate.
      clear L. revert H Hx Hy. generalize (x0 :: x1 :: a) (y0 :: y1 :: b). clear. intros a b H.
      revert b j H. induction a as [|u a IH]; intros [|v b] j H Hx Hy; try (destruct j; discriminate).
      simpl in H. apply andb_true_iff in H. destruct H as (H1 & H2). destruct j as [|j].
      * injection Hx as <-. injection Hy as <-. exact H1.
      * eapply IH; eauto.
Qed.

Lemma mapM_length {A B} (f : A -> res B) l r : mapM f l = Ok r -> length r = length l.
Proof. intro H. apply mapM_ok in H. induction H; simpl; congruence. Qed.

Lemma arrays_close E v1 v2 : rounds_well E -> arrays_equal E v1 v2 = true ->
  exists xs ys, v1 = OArr xs /\ v2 = OArr ys /\ close_arrays xs ys.
Proof.
  intros W H. unfold arrays_equal in H. destruct v1 as [| | |a1|], v2 as [| | |a2|]; try discriminate.
  destruct (mapM (fun x => round_significant E true (ONum x)) a1) as [r1|] eqn:R1; [|discriminate].
  destruct (mapM (fun x => round_significant E true (ONum x)) a2) as [r2|] eqn:R2; [|discriminate].
  exists a1, a2. repeat split; auto.
  - destruct (all_equal_nth _ _ H) as (L & _).
    rewrite <- (mapM_length _ _ _ R1), <- (mapM_length _ _ _ R2). exact L.
  - intros i j x y Hx Hy L. destruct (all_equal_nth _ _ H) as (_ & N).
    destruct (mapM_nth _ _ _ _ _ R1 Hx) as (r & Hr & Nr).
    destruct (mapM_nth _ _ _ _ _ R2 Hy) as (s & Hs & Ns).
    eapply same_close; eauto. eapply N; eauto.
    rewrite (mapM_length _ _ _ R1), (mapM_length _ _ _ R2). exact L.
Qed.

Lemma method_close E m1 m2 : rounds_well E -> compare_method E m1 m2 = Ok true ->
  exists o1 o2, m1 = Some o1 /\ m2 = Some o2 /\ close_results o1 o2.
Proof.
  intros W H. unfold compare_method in H.
  destruct m1 as [[| | | |d1]|]; try discriminate.
  2:{ cbn [value_and_data bind] in H. destruct (value_and_data m2) as [[v2 a2]|]; discriminate. }
  destruct m2 as [[| | | |d2]|]; try discriminate.
  2:{ cbn [value_and_data bind is_none negb andb] in H. rewrite !andb_false_r in H. discriminate. }
  exists (ODict d1), (ODict d2). split; auto. split; auto.
  exists d1, d2. split; auto. split; auto.
  cbn [value_and_data bind] in H.
  destruct (negb (is_none match oget (lit "value") d1 with Some v => v | None => ONone end) &&
            negb (is_none match oget (lit "value") d2 with Some v => v | None => ONone end)) eqn:B.
  - left. destruct (oget (lit "value") d1) as [v1|]; [|discriminate].
    destruct (oget (lit "value") d2) as [v2|]; [|rewrite andb_false_r in B; discriminate].
    destruct (formattable v1 && formattable v2); [|discriminate]. injection H as H.
    unfold values_equal in H.
    destruct (round_significant E false v1) as [r|] eqn:R; [|discriminate].
    destruct (round_significant E false v2) as [s|] eqn:S; [|discriminate].
    destruct v1 as [| |x| |]; try discriminate. destruct v2 as [| |y| |]; try discriminate.
    exists x, y. split; auto. split; auto. eapply same_close; eauto.
  - right. destruct (oget (lit "data") d1) as [w1|]; [|discriminate].
    destruct (oget (lit "data") d2) as [w2|];
      [|cbn [is_none negb] in H; rewrite andb_false_r in H; discriminate].
    match type of H with (if ?b then _ else _) = _ => destruct b; [|discriminate] end.
    unfold data_equal in H. destruct w1 as [| | | |a1]; try discriminate.
    destruct w2 as [| | | |a2]; try discriminate.
    exists a1, a2. split; auto. split; auto.
    match type of H with (if ?b then _ else _) = _ => destruct b eqn:K; [|discriminate] end.
    pose proof (proj1 (keys_same a1 a2) K) as KK. split; auto.
    intros k v1 v2 H1 H2. destruct a1 as [|p a1]; [discriminate|]. apply ok_inj in H.
    rewrite forallb_forall in H. specialize (H k). rewrite H1, H2 in H.
    apply (arrays_close E); auto. apply H. apply sget_some_in in H1. apply (in_map fst) in H1. exact H1.
Qed.

Lemma ok_means_close E x1 x2 f1 f2 ls c m : rounds_well E ->
  xml_to_dict x1 = Ok (Some f1) -> xml_to_dict x2 = Ok (Some f2) ->
  compare_xml E x1 x2 = Ok ls -> In (LMethod c m true) ls ->
  exists o1 o2, entry f1 c m = Some o1 /\ entry f2 c m = Some o2 /\ close_results o1 o2.
Proof.
  intros W H1 H2 H I.
  destruct (compare_lines E x1 x2 f1 f2 ls _ H1 H2 H I) as (c' & ls' & _ & Hc & I').
  destruct (in_lines E f1 f2 c' ls' _ Hc I') as [(a & b & F & _)|(m' & ok & s1 & s2 & F & E1 & E2 & _ & Hm)];
    [discriminate|]. injection F as -> -> <-.
  destruct (method_close E _ _ W Hm) as (o1 & o2 & O1 & O2 & C).
  exists o1, o2. unfold entry. rewrite E1, E2. auto.
Qed.

(** ** An environment that rounds well *)

Definition demo_log10 (q : Q) : Z :=
  if (Zpos (Qden q) <=? Z.abs (Qnum q))%Z then 0%Z else (- (Z.log2 (Zpos (Qden q)) + 1))%Z.
Definition demo_round (q : Q) (k : Z) : res pyfloat :=
  Ok (FFin (inject_Z (Qfloor (q * Qpower 10 k)) * Qpower 10 (- k))).
Definition demo_env : numenv := mkNE true demo_log10 demo_round demo_round.

Lemma demo_round_close q k : (Qabs (inject_Z (Qfloor (q * Qpower 10 k)) * Qpower 10 (- k) - q)
                              <= Qpower 10 (- k))%Q.
Proof.
  assert (P : (0 < Qpower 10 (- k))%Q) by (apply Qpower_0_lt; reflexivity).
  assert (I : (Qpower 10 k * Qpower 10 (- k) == 1)%Q).
  { rewrite <- Qpower_plus by (compute; discriminate). rewrite Z.add_opp_diag_r. reflexivity. }
  set (u := Qpower 10 k) in *. set (w := Qpower 10 (- k)) in *.
  pose proof (Qfloor_le (q * u)) as A. pose proof (Qlt_floor (q * u)) as B.
  rewrite inject_Z_plus in B. set (f := inject_Z (Qfloor (q * u))) in *.
  assert (A' : (f * w <= q * u * w)%Q) by (apply Qmult_le_compat_r; [exact A|apply Qlt_le_weak, P]).
  assert (B' : (q * u * w <= (f + inject_Z 1) * w)%Q)
    by (apply Qmult_le_compat_r; [apply Qlt_le_weak, B|apply Qlt_le_weak, P]).
  assert (E : (q * u * w == q)%Q) by (rewrite <- Qmult_assoc, I; ring).
  assert (F : ((f + inject_Z 1) * w == f * w + w)%Q) by (change (inject_Z 1) with 1%Q; ring).
  rewrite E in A', B'. rewrite F in B'. apply Qabs_Qle_condition. split; lra.
Qed.

Lemma demo_env_well : rounds_well demo_env.
Proof.
  intros q Hq. split; [|split].
  - cbn [ne_log10 demo_env]. unfold demo_log10. destruct q as [n d]. cbn [Qnum Qden].
    destruct (Z.leb_spec (Zpos d) (Z.abs n)) as [L|L].
    + unfold Qabs, Qle. cbn [Qpower Qnum Qden]. simpl (Qpower 10 0). cbn [Qnum Qden]. lia.
    + assert (N : (1 <= Z.abs n)%Z).
      { assert (n <> 0%Z) by (intro G; apply Hq; subst n; reflexivity). lia. }
      pose proof (Z.log2_spec (Zpos d) ltac:(lia)) as (_ & D).
      pose proof (Z.log2_nonneg (Zpos d)) as L0. set (l := Z.log2 (Zpos d)) in *.
      assert (T : (2 ^ (l + 1) <= 10 ^ (l + 1))%Z) by (apply Z.pow_le_mono_l; lia).
      rewrite Qpower_opp. change (10%Q) with (inject_Z 10). rewrite <- Zpower_Qpower by lia.
      replace (Z.succ l) with (l + 1)%Z in D by lia.
      set (t := (10 ^ (l + 1))%Z) in *. assert (Ht : (0 < t)%Z) by lia.
      unfold Qle, Qinv, inject_Z, Qabs. cbn [Qnum Qden]. destruct t as [|t|t]; try lia.
      cbn [Qnum Qden]. nia.
  - intros k r H. cbn [ne_round demo_env] in H. unfold demo_round in H. injection H as <-.
    apply demo_round_close.
  - intros k r H. cbn [ne_np_round demo_env] in H. unfold demo_round in H. injection H as <-.
    apply demo_round_close.
Qed.

(** ** Witnesses *)

Definition value_file (v : str) : xml_source :=
  XFile (Some (Elem (lit "results") None
    [Elem (lit "sensitivity") None [Elem (lit "k") None [Elem (lit "value") (Some v) []]]])).

Lemma none_fails : exists x f, xml_to_dict x = Ok (Some f) /\
  forall E, exists c m, compare_xml E x x = Ok [LMethod c m false].
Proof.
  exists (value_file (lit "None")). eexists. split; [vm_compute; reflexivity|].
  intro E. exists (lit "sensitivity"), (lit "k"). reflexivity.
Qed.

Lemma nan_fails : exists x f, xml_to_dict x = Ok (Some f) /\
  (exists c m, entry f c m = Some (ODict [(lit "value", ONum (NF FNan))])) /\
  forall E, exists c m, compare_xml E x x = Ok [LMethod c m false].
Proof.
  exists (value_file (lit "nan")). eexists. split; [vm_compute; reflexivity|].
  split; [exists (lit "sensitivity"), (lit "k"); reflexivity|].
  intros [np l r r']. exists (lit "sensitivity"), (lit "k"). destruct np; reflexivity.
Qed.

Lemma new_numpy_fails : exists x f, xml_to_dict x = Ok (Some f) /\
  (exists c m, entry f c m = Some (ODict [(lit "value", ONum (NF (FFin 1)))])) /\
  forall E, ne_np_int E = false -> exists c m, compare_xml E x x = Ok [LMethod c m false].
Proof.
  exists (value_file (lit "1.0")). eexists. split; [vm_compute; reflexivity|].
  split; [exists (lit "sensitivity"), (lit "k"); reflexivity|].
  intros [np l r r'] H. simpl in H. subst np. exists (lit "sensitivity"), (lit "k").
  unfold compare_xml.
  assert (X : xml_to_dict (value_file (lit "1.0")) = Ok (Some [(lit "sensitivity",
     ODict [(lit "k", ODict [(lit "value", ONum (NF (FFin 1)))])])])) by (vm_compute; reflexivity).
  rewrite X. reflexivity.
Qed.

Lemma compare_itself E x f ls :
  xml_to_dict x = Ok (Some f) -> compare_xml E x x = Ok ls ->
  Forall (fun l => match l with
                   | LPresent _ _ _ => False
                   | LMethod c m ok => exists o, entry f c m = Some o /\ (ok = true <-> comparable E o)
                   end) ls /\
  (forall c m o, entry f c m = Some o -> exists ok, In (LMethod c m ok) ls).
Proof.
  intros H1 H2. split; [apply (compare_self E x f ls H1 H2)|].
  intros c m o. apply (compare_self_complete E x f ls c m o H1 H2).
Qed.

Definition third : Q := (6004799503160661 # 18014398509481984)%Q.
Definition demo_results : list (str * list result) :=
  [(lit "sensitivity",
    [mkResult (lit "K") [(lit "Short", lit "gain <DN/e>")] (Value (Some (NF (FFin third))));
     mkResult (lit "u_p_sat") [] (Value None);
     mkResult (lit "n") [] (Value (Some (NI (-12))))]);
   (lit "plots",
    [mkResult (lit "curve") [] (Arrays [(lit "X", [NI 1; NF FNan]); (lit "y", [NF (FFin third)])])])].

Ltac chars := repeat (apply Forall_cons || apply Forall_nil); vm_compute; lia.
Ltac good_name := split; [vm_compute; lia|chars].
Ltac distinct := repeat (apply NoDup_cons || apply NoDup_nil); vm_compute; intuition discriminate.

Lemma third_machine : rnd64 third = FFin third.
Proof. vm_compute. reflexivity. Qed.

Lemma demo_good : identifier (lit "results") /\ good_results demo_results.
Proof.
  split; [good_name|]. split; [distinct|].
  apply Forall_cons; [|apply Forall_cons; [|apply Forall_nil]].
  - split; [good_name|]. split; [discriminate|]. split; [distinct|].
    apply Forall_cons; [|apply Forall_cons; [|apply Forall_cons; [|apply Forall_nil]]].
    + split; [good_name|]. split; [exact third_machine|]. split; [distinct|].
      apply Forall_cons; [|apply Forall_nil]. split; [good_name|].
      split; [split; [discriminate|chars]|]. split; vm_compute; discriminate.
    + split; [good_name|]. split; [exact I|]. split; [distinct|apply Forall_nil].
    + split; [good_name|]. split; [exact I|]. split; [distinct|apply Forall_nil].
  - split; [good_name|]. split; [discriminate|]. split; [distinct|].
    apply Forall_cons; [|apply Forall_nil]. split; [good_name|].
    split; [|split; [distinct|apply Forall_nil]].
    split; [discriminate|]. split; [distinct|].
    apply Forall_cons; [|apply Forall_cons; [|apply Forall_nil]].
    + split; [good_name|]. split; [discriminate|]. repeat (apply Forall_cons || apply Forall_nil); exact I.
    + split; [good_name|]. split; [discriminate|].
      apply Forall_cons; [exact third_machine|apply Forall_nil].
Qed.

Lemma empty_array_unreadable :
  exists name t,
    dict_to_xml (lit "results")
      (results_obj [(lit "plots", [mkResult name [] (Arrays [(lit "x", [])])])]) = Ok t /\
    xml_to_dict (XFile (Some (reload t))) = Err AttributeError.
Proof. exists (lit "curve"). eexists. split; vm_compute; reflexivity. Qed.

Lemma case_merged :
  exists (r1 r2 : result) t f,
    r_name r1 <> r_name r2 /\ good_result r1 /\ good_result r2 /\
    dict_to_xml (lit "results") (results_obj [(lit "sensitivity", [r1; r2])]) = Ok t /\
    xml_to_dict (XFile (Some (reload t))) = Ok (Some f) /\
    (forall c s, In (c, ODict s) f -> length s = 1).
Proof.
  exists (mkResult (lit "K") [] (Value (Some (NI 1)))), (mkResult (lit "k") [] (Value (Some (NI 2)))).
  eexists. eexists. split; [vm_compute; discriminate|].
  split; [split; [good_name|split; [exact I|split; [distinct|apply Forall_nil]]]|].
  split; [split; [good_name|split; [exact I|split; [distinct|apply Forall_nil]]]|].
  split; [vm_compute; reflexivity|]. split; [vm_compute; reflexivity|].
  intros c s [H|[]]. injection H as <- <-. reflexivity.
Qed.

Lemma demo_compare :
  exists f, xml_to_dict (value_file (lit "0.25")) = Ok (Some f) /\
  comparable demo_env (ODict [(lit "value", ONum (NF (FFin (1 # 4))))]) /\
  entry f (lit "sensitivity") (lit "k") = Some (ODict [(lit "value", ONum (NF (FFin (1 # 4))))]) /\
  compare_xml demo_env (value_file (lit "0.25")) (value_file (lit "0.25")) =
    Ok [LMethod (lit "sensitivity") (lit "k") true].
Proof.
  eexists. split; [vm_compute; reflexivity|]. split; [|split; vm_compute; reflexivity].
  eexists. split; [reflexivity|]. left. eexists. split; [reflexivity|].
  exists (1 # 4)%Q. split; auto. right. split; [reflexivity|].
  eexists. vm_compute. reflexivity.
Qed.
