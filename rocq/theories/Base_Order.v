(** Order of Python floats and sorted(). *)
From Coq Require Import List Bool Arith ZArith QArith Lia Permutation Sorting.Sorted.
From Verif Require Import Base_Num.
Import ListNotations.
Open Scope Q_scope.

(** Python [<] on floats. *)
Definition flt (a b : pyfloat) : bool :=
  match a, b with
  | FFin x, FFin y => negb (Qle_bool y x)
  | FFin _, FInf n => negb n
  | FInf n, FFin _ => n
  | FInf n, FInf m => n && negb m
  | _, _ => false
  end.

Definition not_nan (f : pyfloat) : Prop := f <> FNan.

(** sorted(l), a stable sort by [<].  When a NaN is present Python's result depends
    on the algorithm; the theorems exclude NaN. *)
Fixpoint insert_sorted (x : pyfloat) (l : list pyfloat) : list pyfloat :=
  match l with
  | [] => [x]
  | y :: l' => if flt y x then y :: insert_sorted x l' else x :: l
  end.
Definition py_sorted (l : list pyfloat) : list pyfloat := fold_right insert_sorted [] l.

Lemma insert_perm x l : Permutation (insert_sorted x l) (x :: l).
Proof.
  induction l as [|y l IH]; simpl; auto. destruct (flt y x); auto.
  rewrite IH. apply perm_swap.
Qed.

Lemma sorted_perm l : Permutation (py_sorted l) l.
Proof. induction l as [|x l IH]; simpl; auto. rewrite insert_perm. auto. Qed.

Lemma qlt_bool x y : negb (Qle_bool y x) = true <-> x < y.
Proof.
  rewrite negb_true_iff. split; intro H.
  - apply Qnot_le_lt. intro G. apply Qle_bool_iff in G. congruence.
  - destruct (Qle_bool y x) eqn:E; auto. apply Qle_bool_iff in E. exfalso.
    apply (Qlt_not_le _ _ H). auto.
Qed.

Lemma flt_trans a b c : flt a b = true -> flt b c = true -> flt a c = true.
Proof.
  destruct a as [x|n|], b as [y|m|], c as [z|k|]; simpl; try discriminate; auto;
    rewrite ?qlt_bool; try (destruct n; try destruct m; try destruct k; simpl; auto; discriminate);
    try (destruct m; simpl; auto; discriminate); try (destruct k; simpl; auto; discriminate).
  intros. eapply Qlt_trans; eauto.
Qed.

Lemma flt_irrefl a : flt a a = false.
Proof.
  destruct a as [x|n|]; simpl; auto.
  - destruct (negb (Qle_bool x x)) eqn:E; auto. apply qlt_bool in E. apply Qlt_irrefl in E. tauto.
  - destruct n; auto.
Qed.

Lemma flt_asym a b : flt a b = true -> flt b a = false.
Proof.
  intro H. destruct (flt b a) eqn:E; auto. pose proof (flt_trans _ _ _ H E) as F.
  rewrite flt_irrefl in F. discriminate.
Qed.

Lemma flt_total a b : not_nan a -> not_nan b ->
  flt a b = true \/ feq a b = true \/ flt b a = true.
Proof.
  unfold not_nan. destruct a as [x|n|], b as [y|m|]; simpl; intros; try congruence; auto.
  - rewrite !qlt_bool, Qeq_bool_iff. destruct (Q_dec x y) as [[|]|]; auto.
  - destruct m; auto.
  - destruct n; auto.
  - destruct n, m; auto.
Qed.

Lemma feq_refl a : not_nan a -> feq a a = true.
Proof.
  unfold not_nan. destruct a as [x|n|]; simpl; intros; try congruence.
  - apply Qeq_bool_iff. reflexivity.
  - destruct n; auto.
Qed.

Lemma feq_comm a b : feq a b = feq b a.
Proof.
  destruct a as [x|n|], b as [y|m|]; simpl; auto.
  - destruct (Qeq_bool x y) eqn:E, (Qeq_bool y x) eqn:F; auto.
    + apply Qeq_bool_iff in E. symmetry in E. apply Qeq_bool_iff in E. congruence.
    + apply Qeq_bool_iff in F. symmetry in F. apply Qeq_bool_iff in F. congruence.
  - destruct n, m; auto.
Qed.

Lemma feq_tr a b c : feq a b = true -> feq b c = true -> feq a c = true.
Proof.
  destruct a as [x|n|], b as [y|m|], c as [z|k|]; simpl; try discriminate.
  - rewrite !Qeq_bool_iff. intros. eapply Qeq_trans; eauto.
  - destruct n, m, k; auto.
Qed.

Lemma feq_flt_l a b c : feq a b = true -> flt a c = flt b c.
Proof.
  destruct a as [x|n|], b as [y|m|], c as [z|k|]; simpl; try discriminate; auto.
  - rewrite Qeq_bool_iff. intro E. f_equal.
    destruct (Qle_bool z x) eqn:A, (Qle_bool z y) eqn:B; auto.
    + apply Qle_bool_iff in A. rewrite E in A. apply Qle_bool_iff in A. congruence.
    + apply Qle_bool_iff in B. rewrite <- E in B. apply Qle_bool_iff in B. congruence.
  - destruct n, m; auto; discriminate.
  - destruct n, m; auto; discriminate.
Qed.

Lemma feq_flt_r a b c : feq a b = true -> flt c a = flt c b.
Proof.
  destruct a as [x|n|], b as [y|m|], c as [z|k|]; simpl; try discriminate; auto.
  - rewrite Qeq_bool_iff. intro E. f_equal.
    destruct (Qle_bool x z) eqn:A, (Qle_bool y z) eqn:B; auto.
    + apply Qle_bool_iff in A. rewrite E in A. apply Qle_bool_iff in A. congruence.
    + apply Qle_bool_iff in B. rewrite <- E in B. apply Qle_bool_iff in B. congruence.
  - destruct n, m; auto; discriminate.
  - destruct n, m; auto; discriminate.
Qed.

Lemma feq_not_flt a b : feq a b = true -> flt a b = false.
Proof. intro H. rewrite (feq_flt_l a b b H). apply flt_irrefl. Qed.

Definition fle (a b : pyfloat) : Prop := flt b a = false.

Lemma fle_trans a b c : not_nan a -> not_nan b -> not_nan c -> fle a b -> fle b c -> fle a c.
Proof.
  unfold fle. intros Na Nb Nc H G. destruct (flt c a) eqn:E; auto.
  destruct (flt_total a b Na Nb) as [F|[F|F]]; [|rewrite (feq_flt_r a b c F) in E|]; try congruence.
  pose proof (flt_trans _ _ _ E F). congruence.
Qed.

Lemma insert_sorted_sorted x l :
  not_nan x -> Forall not_nan l -> StronglySorted fle l -> StronglySorted fle (insert_sorted x l).
Proof.
  intros Nx Nl H. induction H as [|y l H IH F]; simpl.
  - repeat constructor.
  - inversion Nl as [|? ? Ny Nl']; subst. destruct (flt y x) eqn:E.
    + constructor; auto. apply Forall_forall. intros z Hz.
      apply (Permutation_in _ (insert_perm x l)) in Hz. destruct Hz as [<-|Hz].
      * unfold fle. apply flt_asym. auto.
      * rewrite Forall_forall in F. auto.
    + constructor; [constructor; auto|]. constructor; auto.
      rewrite Forall_forall in *. intros z Hz.
      apply (fle_trans x y z Nx Ny (Nl' z Hz) E (F z Hz)).
Qed.

Lemma py_sorted_sorted l : Forall not_nan l -> StronglySorted fle (py_sorted l).
Proof.
  induction 1 as [|x l Nx Nl IH]; simpl; [constructor|].
  apply insert_sorted_sorted; auto. rewrite Forall_forall in *. intros y Hy.
  apply Nl. apply (Permutation_in _ (sorted_perm l)). auto.
Qed.

(** Pairwise different numbers. *)
Definition distinct (l : list pyfloat) : Prop :=
  ForallOrdPairs (fun a b => feq a b = false) l.

Lemma distinct_cons a l : distinct (a :: l) <-> Forall (fun b => feq a b = false) l /\ distinct l.
Proof.
  split; [intro H; inversion H; auto|]. intros (H & G). constructor; auto.
Qed.

Lemma distinct_perm a b : Permutation a b -> distinct a -> distinct b.
Proof.
  induction 1; auto.
  - rewrite !distinct_cons. intros (H1 & H2). split; auto. eapply Permutation_Forall; eauto.
  - rewrite !distinct_cons. intros (H1 & H2 & H3). inversion H1 as [|? ? A B]; subst.
    split; [|split]; auto. constructor; auto. rewrite feq_comm. auto.
Qed.

Lemma py_sorted_strict l : Forall not_nan l -> distinct l ->
  StronglySorted (fun a b => flt a b = true) (py_sorted l).
Proof.
  intros N D. pose proof (py_sorted_sorted l N) as S.
  apply (distinct_perm _ _ (Permutation_sym (sorted_perm l))) in D.
  assert (N' : Forall not_nan (py_sorted l)).
  { rewrite Forall_forall in *. intros x Hx. apply N.
    apply (Permutation_in _ (sorted_perm l)). auto. }
  induction S as [|x s S IH F]; constructor.
  - inversion N'; subst. apply distinct_cons in D. apply IH; tauto.
  - apply distinct_cons in D. destruct D as (D & _). inversion N' as [|? ? Nx Ns]; subst.
    rewrite Forall_forall in *. intros y Hy.
    destruct (flt_total x y Nx (Ns y Hy)) as [G|[G|G]]; auto.
    + rewrite (D y Hy) in G. discriminate.
    + specialize (F y Hy). unfold fle in F. congruence.
Qed.
