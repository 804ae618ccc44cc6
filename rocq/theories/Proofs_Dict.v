(** Facts about dictionaries with string keys. *)
From Coq Require Import Ascii String List Bool Arith Lia Permutation Sorted.
From Verif Require Import Base_Prelude Base_Str Model_Info Spec_Info.
Import ListNotations.

Notation sget := (dget str_eqb).
Notation sset := (dset str_eqb).

Lemma sget_sset_same {V} k (v : V) d : sget k (sset k v d) = Some v.
Proof.
  induction d as [|[k' v'] d IH]; simpl.
  - rewrite str_eqb_refl. reflexivity.
  - destruct (str_eqb k k') eqn:E; simpl; rewrite E; auto.
Qed.

Lemma sget_sset_other {V} k k' (v : V) d : k <> k' -> sget k (sset k' v d) = sget k d.
Proof.
  intro H. apply str_eqb_neq in H. induction d as [|[x y] d IH]; simpl.
  - rewrite H. reflexivity.
  - destruct (str_eqb k' x) eqn:E; simpl.
    + apply str_eqb_eq in E. subst x. rewrite H. reflexivity.
    + destruct (str_eqb k x); auto.
Qed.

Lemma sget_in {V} k (v : V) d : NoDup (map fst d) -> In (k, v) d -> sget k d = Some v.
Proof.
  induction d as [|[x y] d IH]; simpl; intros N H; [contradiction|].
  inversion N as [|? ? Hx Hd]; subst. destruct H as [E|H].
  - injection E as -> ->. rewrite str_eqb_refl. reflexivity.
  - destruct (str_eqb k x) eqn:E.
    + apply str_eqb_eq in E. subst x. exfalso. apply Hx. apply (in_map fst) in H. exact H.
    + apply IH; auto.
Qed.

Lemma sget_some_in {V} k (v : V) d : sget k d = Some v -> In (k, v) d.
Proof.
  induction d as [|[x y] d IH]; simpl; [discriminate|].
  destruct (str_eqb k x) eqn:E.
  - intro H. injection H as ->. apply str_eqb_eq in E. subst x. auto.
  - intro H. right. auto.
Qed.

Lemma sget_none {V} k (d : list (str * V)) : sget k d = None <-> ~ In k (map fst d).
Proof.
  induction d as [|[x y] d IH]; simpl.
  - tauto.
  - destruct (str_eqb k x) eqn:E.
    + apply str_eqb_eq in E. subst x. split; [discriminate|tauto].
    + apply str_eqb_neq in E. rewrite IH. split; intro H; [intros [F|F]|]; auto; congruence.
Qed.

Lemma sget_key {V} k (d : list (str * V)) : In k (map fst d) -> exists v, sget k d = Some v.
Proof.
  intro H. destruct (sget k d) eqn:E; eauto. apply sget_none in E. contradiction.
Qed.

Lemma dmem_in {V} k (d : list (str * V)) : dmem str_eqb k d = true <-> In k (map fst d).
Proof.
  unfold dmem. rewrite existsb_exists. split.
  - intros ((x & y) & H & E). apply str_eqb_eq in E. simpl in E. subst x.
    apply (in_map fst) in H. exact H.
  - intro H. apply in_map_iff in H. destruct H as (p & <- & H). exists p.
    split; auto. apply str_eqb_refl.
Qed.

Lemma sset_keys_in {V} k (v : V) d : In k (map fst d) -> map fst (sset k v d) = map fst d.
Proof.
  induction d as [|[x y] d IH]; simpl; [tauto|].
  intro H. destruct (str_eqb k x) eqn:E; auto. simpl. f_equal. apply IH.
  destruct H as [->|H]; auto. rewrite str_eqb_refl in E. discriminate.
Qed.

Lemma sset_new {V} k (v : V) d : ~ In k (map fst d) -> sset k v d = d ++ [(k, v)].
Proof.
  induction d as [|[x y] d IH]; simpl; auto.
  intro H. destruct (str_eqb k x) eqn:E.
  - apply str_eqb_eq in E. subst x. tauto.
  - f_equal. apply IH. tauto.
Qed.

Lemma sset_nodup {V} k (v : V) d : NoDup (map fst d) -> NoDup (map fst (sset k v d)).
Proof.
  intro H. destruct (in_dec str_eq_dec k (map fst d)) as [I|I].
  - rewrite sset_keys_in; auto.
  - rewrite sset_new by auto. rewrite map_app. simpl.
    apply (Permutation_NoDup (l := k :: map fst d)).
    + apply Permutation_cons_append.
    + constructor; auto.
Qed.

(** Filling a dictionary with distinct keys. *)
Lemma fill_distinct {V} (l d : list (str * V)) :
  NoDup (map fst (d ++ l)) ->
  fold_left (fun d p => sset (fst p) (snd p) d) l d = d ++ l.
Proof.
  revert d. induction l as [|[k v] l IH]; intros d H; simpl.
  - rewrite app_nil_r. reflexivity.
  - rewrite map_app in H. simpl in H.
    rewrite sset_new.
    + rewrite IH; rewrite <- app_assoc; [reflexivity|]. simpl. rewrite map_app. exact H.
    + intro F. apply NoDup_remove_2 in H. apply H. apply in_or_app. auto.
Qed.

(** ** Order of strings *)

Lemma str_ltb_spec a b : str_ltb a b = true <-> str_lt a b.
Proof.
  revert b; induction a as [|x a IH]; intros [|y b]; simpl; split; intro H;
    try discriminate; try (apply lt_prefix); try reflexivity; try (inversion H; fail).
  - destruct (nat_of_ascii x <? nat_of_ascii y) eqn:E.
    + apply Nat.ltb_lt in E. apply lt_here. exact E.
    + destruct (nat_of_ascii y <? nat_of_ascii x) eqn:F; [discriminate|].
      apply Nat.ltb_ge in E, F.
      assert (x = y).
      { rewrite <- (ascii_nat_embedding x), <- (ascii_nat_embedding y). f_equal. lia. }
      subst y. apply lt_later. apply IH, H.
  - inversion H as [|? ? ? ? L|? ? ? L]; subst.
    + apply Nat.ltb_lt in L. rewrite L. reflexivity.
    + rewrite Nat.ltb_irrefl. apply IH, L.
Qed.

Lemma str_lt_irrefl a : ~ str_lt a a.
Proof. induction a as [|x a IH]; intro H; inversion H; subst; try lia; auto. Qed.

Lemma str_lt_trans a b c : str_lt a b -> str_lt b c -> str_lt a c.
Proof.
  intro H. revert c. induction H as [x s|x y a b L|x a b L IH]; intros c H2; inversion H2; subst;
    try constructor; auto; lia.
Qed.

Lemma str_lt_total a b : str_lt a b \/ a = b \/ str_lt b a.
Proof.
  revert b; induction a as [|x a IH]; intros [|y b].
  - auto.
  - left; constructor.
  - right; right; constructor.
  - destruct (lt_eq_lt_dec (nat_of_ascii x) (nat_of_ascii y)) as [[L|E]|L].
    + left. apply lt_here. exact L.
    + assert (x = y) by (rewrite <- (ascii_nat_embedding x), <- (ascii_nat_embedding y); congruence).
      subst y. destruct (IH b) as [H|[->|H]]; [left; apply lt_later|right; left|right; right; apply lt_later]; auto.
    + right; right. apply lt_here. exact L.
Qed.

Lemma str_insert_perm x l : Permutation (str_insert x l) (x :: l).
Proof.
  induction l as [|y l IH]; simpl; auto. destruct (str_ltb y x); auto.
  rewrite IH. apply perm_swap.
Qed.

Lemma str_sorted_perm l : Permutation (str_sorted l) l.
Proof. induction l as [|x l IH]; simpl; auto. rewrite str_insert_perm. auto. Qed.

Lemma str_sorted_in x l : In x (str_sorted l) <-> In x l.
Proof.
  split; apply Permutation_in; [|apply Permutation_sym]; apply str_sorted_perm.
Qed.

Lemma str_sorted_nodup l : NoDup l -> NoDup (str_sorted l).
Proof. apply Permutation_NoDup, Permutation_sym, str_sorted_perm. Qed.

Lemma str_insert_strict x l :
  ~ In x l -> StronglySorted str_lt l -> StronglySorted str_lt (str_insert x l).
Proof.
  intros Hx H. induction H as [|y l H IH Hy]; simpl.
  - repeat constructor.
  - destruct (str_ltb y x) eqn:E.
    + constructor; [apply IH; intro F; apply Hx; right; auto|].
      apply str_ltb_spec in E. apply Forall_forall. intros z Hz.
      apply (Permutation_in _ (str_insert_perm x l)) in Hz.
      destruct Hz as [<-|Hz]; auto. rewrite Forall_forall in Hy. auto.
    + assert (L : str_lt x y).
      { destruct (str_lt_total x y) as [L|[->|L]]; auto.
        - exfalso. apply Hx. left. reflexivity.
        - apply str_ltb_spec in L. congruence. }
      constructor; [constructor; auto|]. constructor; auto.
      eapply Forall_impl; [|exact Hy]. intros z Hz. eapply str_lt_trans; eauto.
Qed.

Lemma str_sorted_strict l : NoDup l -> StronglySorted str_lt (str_sorted l).
Proof.
  induction 1 as [|x l Hx H IH]; simpl; [constructor|].
  apply str_insert_strict; auto. rewrite str_sorted_in. exact Hx.
Qed.

Lemma str_nub_in x l : In x (str_nub l) <-> In x l.
Proof.
  induction l as [|y l IH]; simpl; [tauto|].
  destruct (existsb (str_eqb y) l) eqn:E.
  - rewrite IH. split; auto. intros [<-|H]; auto.
    apply existsb_exists in E. destruct E as (z & Hz & E). apply str_eqb_eq in E. subst z. exact Hz.
  - simpl. rewrite IH. reflexivity.
Qed.

Lemma str_nub_nodup l : NoDup (str_nub l).
Proof.
  induction l as [|y l IH]; simpl; [constructor|].
  destruct (existsb (str_eqb y) l) eqn:E; auto. constructor; auto.
  rewrite str_nub_in. intro F.
  assert (existsb (str_eqb y) l = true).
  { apply existsb_exists. exists y. split; auto. apply str_eqb_refl. }
  congruence.
Qed.

(** Sorted lists with the same elements are equal. *)
Lemma sorted_unique l1 l2 :
  StronglySorted str_lt l1 -> StronglySorted str_lt l2 ->
  (forall x, In x l1 <-> In x l2) -> l1 = l2.
Proof.
  intro H1. revert l2. induction H1 as [|x l1 H1 IH Hx]; intros l2 H2 E.
  - destruct l2 as [|y l2]; auto. exfalso. apply (E y). left. reflexivity.
  - destruct H2 as [|y l2 H2 Hy].
    + exfalso. apply (E x). left. reflexivity.
    + rewrite Forall_forall in Hx, Hy.
      assert (x = y).
      { destruct (proj1 (E x) (or_introl eq_refl)) as [F|F]; auto.
        destruct (proj2 (E y) (or_introl eq_refl)) as [G|G]; auto.
        exfalso. apply (str_lt_irrefl x). eapply str_lt_trans; [apply Hx, G|apply Hy, F]. }
      subst y. f_equal. apply IH; auto.
      intro z. split; intro Hz.
      * destruct (proj1 (E z) (or_intror Hz)) as [<-|F]; auto.
        exfalso. apply (str_lt_irrefl x), Hx, Hz.
      * destruct (proj2 (E z) (or_intror Hz)) as [<-|F]; auto.
        exfalso. apply (str_lt_irrefl x), Hy, Hz.
Qed.
