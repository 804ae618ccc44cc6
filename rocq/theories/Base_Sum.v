(** Finite sums over [0..n-1] and over lists, in Z and Q. *)
From Coq Require Import List Bool Arith ZArith QArith Lia Permutation Setoid Morphisms.
Import ListNotations.

(** ** Sums over indices *)
Fixpoint sumz (n : nat) (f : nat -> Z) : Z :=
  match n with O => 0%Z | S k => (sumz k f + f k)%Z end.

Fixpoint sumq (n : nat) (f : nat -> Q) : Q :=
  match n with O => 0%Q | S k => (sumq k f + f k)%Q end.

(** Double sums over a height x width rectangle. *)
Definition sumz2 (h w : nat) (f : nat -> nat -> Z) : Z :=
  sumz h (fun i => sumz w (fun j => f i j)).
Definition sumq2 (h w : nat) (f : nat -> nat -> Q) : Q :=
  sumq h (fun i => sumq w (fun j => f i j)).

(** Sums over lists. *)
Fixpoint lsumz (l : list Z) : Z :=
  match l with [] => 0%Z | x :: l' => (x + lsumz l')%Z end.
Fixpoint lsumq (l : list Q) : Q :=
  match l with [] => 0%Q | x :: l' => (x + lsumq l')%Q end.

(** A natural number as a rational. *)
Definition qn (n : nat) : Q := inject_Z (Z.of_nat n).

Lemma qn_S n : (qn (S n) == qn n + 1)%Q.
Proof. unfold qn. rewrite Nat2Z.inj_succ, <- Z.add_1_r, inject_Z_plus. reflexivity. Qed.

Lemma qn_pos n : (0 < n)%nat -> (0 < qn n)%Q.
Proof. intro H. unfold qn. change 0%Q with (inject_Z 0). rewrite <- Zlt_Qlt. lia. Qed.

Lemma qn_nonneg n : (0 <= qn n)%Q.
Proof. unfold qn. change 0%Q with (inject_Z 0). rewrite <- Zle_Qle. lia. Qed.

Lemma qn_neq0 n : (0 < n)%nat -> ~ (qn n == 0)%Q.
Proof. intros H E. apply qn_pos in H. rewrite E in H. apply Qlt_irrefl in H. auto. Qed.

Lemma qn_mult a b : (qn (a * b) == qn a * qn b)%Q.
Proof. unfold qn. rewrite Nat2Z.inj_mul, inject_Z_mult. reflexivity. Qed.

Lemma qn_add a b : (qn (a + b) == qn a + qn b)%Q.
Proof. unfold qn. rewrite Nat2Z.inj_add, inject_Z_plus. reflexivity. Qed.

Lemma qsq_nonneg x : (0 <= x * x)%Q.
Proof. unfold Qle, Qmult. simpl. nia. Qed.

(** ** sumz *)
Lemma sumz_ext n f g : (forall i, (i < n)%nat -> f i = g i) -> sumz n f = sumz n g.
Proof. induction n; simpl; intro H; auto. rewrite IHn, H by auto. reflexivity. Qed.

Lemma sumz_plus n f g : sumz n (fun i => f i + g i)%Z = (sumz n f + sumz n g)%Z.
Proof. induction n; simpl; lia. Qed.

Lemma sumz_scal n c f : sumz n (fun i => c * f i)%Z = (c * sumz n f)%Z.
Proof. induction n; simpl; lia. Qed.

Lemma sumz_const n c : sumz n (fun _ => c) = (Z.of_nat n * c)%Z.
Proof. induction n; [reflexivity|]. cbn [sumz]. rewrite IHn. lia. Qed.

Lemma sumz_bounds n f lo hi :
  (forall i, (i < n)%nat -> (lo <= f i <= hi)%Z) ->
  (Z.of_nat n * lo <= sumz n f <= Z.of_nat n * hi)%Z.
Proof.
  induction n; intro H; [simpl; lia|]. cbn [sumz].
  assert (G : forall i, (i < n)%nat -> (lo <= f i <= hi)%Z) by (intros; apply H; lia).
  specialize (IHn G). specialize (H n ltac:(lia)). lia.
Qed.

(** ** sumq *)
Lemma sumq_ext n f g : (forall i, (i < n)%nat -> f i == g i)%Q -> (sumq n f == sumq n g)%Q.
Proof.
  induction n; simpl; intro H; [reflexivity|].
  rewrite IHn by (intros; apply H; lia). rewrite H by lia. reflexivity.
Qed.

Lemma sumq_plus n f g : (sumq n (fun i => f i + g i) == sumq n f + sumq n g)%Q.
Proof. induction n; simpl; [reflexivity|]. rewrite IHn. ring. Qed.

Lemma sumq_minus n f g : (sumq n (fun i => f i - g i) == sumq n f - sumq n g)%Q.
Proof. induction n; simpl; [reflexivity|]. rewrite IHn. ring. Qed.

Lemma sumq_scal n c f : (sumq n (fun i => c * f i) == c * sumq n f)%Q.
Proof. induction n; simpl; [ring|]. rewrite IHn. ring. Qed.

Lemma sumq_scal_r n c f : (sumq n (fun i => f i * c) == sumq n f * c)%Q.
Proof. induction n; simpl; [ring|]. rewrite IHn. ring. Qed.

Lemma sumq_div n c f : (sumq n (fun i => f i / c) == sumq n f / c)%Q.
Proof. unfold Qdiv. apply sumq_scal_r. Qed.

Lemma sumq_const n c : (sumq n (fun _ => c) == qn n * c)%Q.
Proof.
  induction n; [unfold qn; simpl; ring|]. cbn [sumq]. rewrite IHn, qn_S. ring.
Qed.

Lemma sumq_0 n : (sumq n (fun _ => 0) == 0)%Q.
Proof. rewrite sumq_const. ring. Qed.

Lemma sumq_swap n m f :
  (sumq n (fun i => sumq m (fun j => f i j)) == sumq m (fun j => sumq n (fun i => f i j)))%Q.
Proof.
  induction n; simpl.
  - rewrite sumq_0. reflexivity.
  - rewrite IHn. rewrite <- sumq_plus. reflexivity.
Qed.

Lemma sumq_nonneg n f : (forall i, (i < n)%nat -> 0 <= f i)%Q -> (0 <= sumq n f)%Q.
Proof.
  induction n; simpl; intro H; [apply Qle_refl|].
  assert (A : (0 <= sumq n f)%Q) by (apply IHn; intros; apply H; lia).
  assert (B : (0 <= f n)%Q) by (apply H; lia).
  rewrite <- (Qplus_0_r 0). apply Qplus_le_compat; auto.
Qed.

Lemma sumq_le n f g : (forall i, (i < n)%nat -> f i <= g i)%Q -> (sumq n f <= sumq n g)%Q.
Proof.
  induction n; simpl; intro H; [apply Qle_refl|].
  apply Qplus_le_compat; [apply IHn; intros; apply H; lia|apply H; lia].
Qed.

Lemma sumq_zero_inv n f :
  (forall i, (i < n)%nat -> 0 <= f i)%Q -> (sumq n f == 0)%Q ->
  forall i, (i < n)%nat -> (f i == 0)%Q.
Proof.
  induction n; simpl; intros H E i Hi; [lia|].
  assert (A : (0 <= sumq n f)%Q) by (apply sumq_nonneg; intros; apply H; lia).
  assert (B : (0 <= f n)%Q) by (apply H; lia).
  assert (A0 : (sumq n f == 0)%Q).
  { apply Qle_antisym; auto. rewrite <- E. rewrite <- (Qplus_0_r (sumq n f)) at 1.
    apply Qplus_le_compat; [apply Qle_refl|auto]. }
  destruct (Nat.eq_dec i n) as [->|Hne].
  - rewrite A0 in E. rewrite Qplus_0_l in E. exact E.
  - apply IHn; auto. lia.
Qed.

Lemma sumq_inject n f : (sumq n (fun i => inject_Z (f i)) == inject_Z (sumz n f))%Q.
Proof. induction n; simpl; [reflexivity|]. rewrite IHn, inject_Z_plus. reflexivity. Qed.

Lemma sumq_opp n f : (sumq n (fun i => - f i) == - sumq n f)%Q.
Proof. induction n; simpl; [reflexivity|]. rewrite IHn. ring. Qed.

(** ** Double sums *)
Lemma sumz2_ext h w f g :
  (forall i j, (i < h)%nat -> (j < w)%nat -> f i j = g i j) -> sumz2 h w f = sumz2 h w g.
Proof. intro H. apply sumz_ext. intros i Hi. apply sumz_ext. intros j Hj. auto. Qed.

Lemma sumz2_plus h w f g :
  sumz2 h w (fun i j => f i j + g i j)%Z = (sumz2 h w f + sumz2 h w g)%Z.
Proof.
  unfold sumz2. rewrite <- sumz_plus. apply sumz_ext. intros. apply sumz_plus.
Qed.

Lemma sumz2_scal h w c f :
  sumz2 h w (fun i j => c * f i j)%Z = (c * sumz2 h w f)%Z.
Proof. unfold sumz2. rewrite <- sumz_scal. apply sumz_ext. intros. apply sumz_scal. Qed.

Lemma sumz2_bounds h w f lo hi :
  (forall i j, (i < h)%nat -> (j < w)%nat -> (lo <= f i j <= hi)%Z) ->
  (Z.of_nat (h * w) * lo <= sumz2 h w f <= Z.of_nat (h * w) * hi)%Z.
Proof.
  intro H. unfold sumz2.
  assert (G := sumz_bounds h (fun i => sumz w (fun j => f i j))
                 (Z.of_nat w * lo) (Z.of_nat w * hi)).
  rewrite Nat2Z.inj_mul.
  assert (forall i, (i < h)%nat ->
     (Z.of_nat w * lo <= sumz w (fun j => f i j) <= Z.of_nat w * hi)%Z).
  { intros i Hi. apply sumz_bounds. intros j Hj. auto. }
  specialize (G H0). lia.
Qed.

Lemma sumq2_ext h w f g :
  (forall i j, (i < h)%nat -> (j < w)%nat -> f i j == g i j)%Q ->
  (sumq2 h w f == sumq2 h w g)%Q.
Proof. intro H. apply sumq_ext. intros i Hi. apply sumq_ext. intros j Hj. auto. Qed.

Lemma sumq2_plus h w f g :
  (sumq2 h w (fun i j => f i j + g i j) == sumq2 h w f + sumq2 h w g)%Q.
Proof. unfold sumq2. rewrite <- sumq_plus. apply sumq_ext. intros. apply sumq_plus. Qed.

Lemma sumq2_minus h w f g :
  (sumq2 h w (fun i j => f i j - g i j) == sumq2 h w f - sumq2 h w g)%Q.
Proof. unfold sumq2. rewrite <- sumq_minus. apply sumq_ext. intros. apply sumq_minus. Qed.

Lemma sumq2_scal h w c f :
  (sumq2 h w (fun i j => c * f i j) == c * sumq2 h w f)%Q.
Proof. unfold sumq2. rewrite <- sumq_scal. apply sumq_ext. intros. apply sumq_scal. Qed.

Lemma sumq2_scal_r h w c f :
  (sumq2 h w (fun i j => f i j * c) == sumq2 h w f * c)%Q.
Proof. unfold sumq2. rewrite <- sumq_scal_r. apply sumq_ext. intros. apply sumq_scal_r. Qed.

Lemma sumq2_div h w c f :
  (sumq2 h w (fun i j => f i j / c) == sumq2 h w f / c)%Q.
Proof. unfold Qdiv. apply sumq2_scal_r. Qed.

Lemma sumq2_const h w c : (sumq2 h w (fun _ _ => c) == qn (h * w) * c)%Q.
Proof.
  unfold sumq2. rewrite (sumq_ext _ _ (fun _ => qn w * c)%Q) by (intros; apply sumq_const).
  rewrite sumq_const, qn_mult. ring.
Qed.

Lemma sumq2_nonneg h w f :
  (forall i j, (i < h)%nat -> (j < w)%nat -> 0 <= f i j)%Q -> (0 <= sumq2 h w f)%Q.
Proof. intro H. apply sumq_nonneg. intros. apply sumq_nonneg. intros. auto. Qed.

Lemma sumq2_zero_inv h w f :
  (forall i j, (i < h)%nat -> (j < w)%nat -> 0 <= f i j)%Q -> (sumq2 h w f == 0)%Q ->
  forall i j, (i < h)%nat -> (j < w)%nat -> (f i j == 0)%Q.
Proof.
  intros H E i j Hi Hj.
  pose proof (sumq_zero_inv h (fun i => sumq w (fun j => f i j))) as G.
  assert (Z1 : (sumq w (fun j => f i j) == 0)%Q).
  { apply G; auto. intros. apply sumq_nonneg. auto. }
  apply (sumq_zero_inv w (fun j => f i j)); auto.
Qed.

Lemma sumq2_inject h w f :
  (sumq2 h w (fun i j => inject_Z (f i j)) == inject_Z (sumz2 h w f))%Q.
Proof.
  unfold sumq2, sumz2. rewrite <- sumq_inject. apply sumq_ext. intros. apply sumq_inject.
Qed.

Lemma sumq2_swap h w f :
  (sumq2 h w f == sumq2 w h (fun j i => f i j))%Q.
Proof. unfold sumq2. apply sumq_swap. Qed.

(** ** Lists *)
Lemma lsumz_app a b : lsumz (a ++ b) = (lsumz a + lsumz b)%Z.
Proof. induction a; simpl; lia. Qed.

Lemma lsumz_perm a b : Permutation a b -> lsumz a = lsumz b.
Proof. induction 1; simpl; lia. Qed.

Lemma lsumz_bounds l lo hi :
  Forall (fun x => (lo <= x <= hi)%Z) l ->
  (Z.of_nat (length l) * lo <= lsumz l <= Z.of_nat (length l) * hi)%Z.
Proof. induction 1; cbn [lsumz length]; lia. Qed.

Lemma lsumq_inject l : (lsumq (map inject_Z l) == inject_Z (lsumz l))%Q.
Proof. induction l; simpl; [reflexivity|]. rewrite IHl, inject_Z_plus. reflexivity. Qed.

Lemma lsumq_app a b : (lsumq (a ++ b) == lsumq a + lsumq b)%Q.
Proof. induction a; simpl; [ring|]. rewrite IHa. ring. Qed.

Lemma lsumq_plus {A} (f g : A -> Q) l :
  (lsumq (map (fun x => f x + g x) l) == lsumq (map f l) + lsumq (map g l))%Q.
Proof. induction l; simpl; [reflexivity|]. rewrite IHl. ring. Qed.

Lemma lsumq_scal {A} c (f : A -> Q) l :
  (lsumq (map (fun x => c * f x) l) == c * lsumq (map f l))%Q.
Proof. induction l; simpl; [ring|]. rewrite IHl. ring. Qed.

Lemma lsumq_const {A} c (l : list A) :
  (lsumq (map (fun _ => c) l) == qn (length l) * c)%Q.
Proof.
  induction l; [unfold qn; simpl; ring|]. cbn [map lsumq length].
  rewrite IHl, qn_S. ring.
Qed.

Lemma lsumq_ext {A} (f g : A -> Q) l :
  (forall x, In x l -> f x == g x)%Q -> (lsumq (map f l) == lsumq (map g l))%Q.
Proof.
  induction l; simpl; intro H; [reflexivity|].
  rewrite IHl by auto. rewrite H by auto. reflexivity.
Qed.

Lemma lsumq_nonneg l : Forall (fun x => 0 <= x)%Q l -> (0 <= lsumq l)%Q.
Proof.
  induction 1; simpl; [apply Qle_refl|].
  rewrite <- (Qplus_0_r 0). apply Qplus_le_compat; auto.
Qed.

Lemma lsumq_zero_inv l : Forall (fun x => 0 <= x)%Q l -> (lsumq l == 0)%Q ->
  Forall (fun x => x == 0)%Q l.
Proof.
  induction 1 as [|x l Hx H IH]; simpl; intro E; constructor.
  - apply Qle_antisym; auto. rewrite <- E. rewrite <- (Qplus_0_r x) at 1.
    apply Qplus_le_compat; [apply Qle_refl|apply lsumq_nonneg; auto].
  - apply IH. apply Qle_antisym; [|apply lsumq_nonneg; auto].
    rewrite <- E. rewrite <- (Qplus_0_l (lsumq l)) at 1.
    apply Qplus_le_compat; [auto|apply Qle_refl].
Qed.

Lemma lsumq_sumq n f : (lsumq (map f (seq 0 n)) == sumq n f)%Q.
Proof.
  induction n; [reflexivity|]. rewrite seq_S, map_app, lsumq_app, IHn. simpl. ring.
Qed.
