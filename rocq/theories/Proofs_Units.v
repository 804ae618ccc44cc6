(** Every figure of Results1288 in the new units. *)
From Coq Require Import List Bool Arith ZArith QArith Qfield Qpower Reals Qreals Lia Lra Lqa.
From Verif Require Import Base_Prelude Base_Sum Base_Xreal Model_Images Model_Data
  Model_Results Spec_Results Spec_Emva Spec_Units Proofs_Results Proofs_Results2 Proofs_Fit Proofs_Same.
Import ListNotations.
Open Scope Q_scope.

(** ** Extended reals *)
Definition xt (k : Q) (x : xr) : xr := match x with XR r => XR (Q2R k * r) | _ => x end.
Lemma times_x_iff k x y : times_x k x y <-> y = xt k x.
Proof. destruct x; simpl; tauto. Qed.

Lemma q2r_pos k : 0 < k -> (0 < Q2R k)%R.
Proof. intro H. rewrite <- Q2R_0'. apply Qlt_Rlt. auto. Qed.

Lemma xt_ext j k x : j == k -> xt j x = xt k x.
Proof. intro E. unfold xt. rewrite (Qeq_eqR _ _ E). reflexivity. Qed.
Lemma xt_one k x : k == 1 -> xt k x = x.
Proof. intro E. rewrite (xt_ext _ _ _ E). destruct x; simpl; auto. rewrite Q2R_1'. f_equal. Lra.lra. Qed.
Lemma xt_xt j k x : xt j (xt k x) = xt (j * k) x.
Proof. destruct x; simpl; auto. rewrite Q2R_mult. f_equal. Lra.lra. Qed.
Lemma xt_q k x y : y == k * x -> xq y = xt k (xq x).
Proof. intro E. simpl. unfold xq. rewrite (Qeq_eqR _ _ E), Q2R_mult. reflexivity. Qed.

Lemma scaled_zero k r : (0 < k)%R -> ((k * r = 0)%R <-> r = 0%R).
Proof. intro K. split; intro H; [|subst; ring]. apply Rmult_integral in H. destruct H; [Lra.lra|auto]. Qed.
Lemma scaled_neg k r : (0 < k)%R -> ((k * r < 0)%R <-> (r < 0)%R).
Proof. intro K. split; intro H; Lra.nra. Qed.

Lemma neg_bool k r : (0 < k)%R ->
  (if Rlt_dec (k * r) 0 then true else false) = (if Rlt_dec r 0 then true else false).
Proof.
  intro K. destruct (Rlt_dec (k * r) 0) as [H|H], (Rlt_dec r 0) as [G|G]; auto; exfalso;
    [apply G; apply (scaled_neg _ _ K)|apply H; apply (scaled_neg _ _ K)]; auto.
Qed.

Lemma xt_div j k a b : 0 < j -> 0 < k -> xdiv (xt j a) (xt k b) = xt (j / k) (xdiv a b).
Proof.
  intros HJ HK. assert (J := q2r_pos _ HJ). assert (K := q2r_pos _ HK).
  assert (NK : ~ k == 0) by (intro E; rewrite E in HK; apply (Qlt_irrefl 0 HK)).
  destruct a as [x|n|], b as [y|m|]; simpl; auto.
  - destruct (Req_EM_T (Q2R k * y) 0) as [Z|Z], (Req_EM_T y 0) as [Y|Y];
      try (exfalso; rewrite (scaled_zero _ _ K) in Z; contradiction).
    + destruct (Req_EM_T (Q2R j * x) 0) as [U|U], (Req_EM_T x 0) as [X|X];
        try (exfalso; rewrite (scaled_zero _ _ J) in U; contradiction); simpl; auto.
      rewrite neg_bool; auto.
    + simpl. rewrite Q2R_div by auto. f_equal. field. split; [auto|Lra.lra].
  - f_equal. ring.
  - rewrite neg_bool; auto.
Qed.

Lemma xt_mul j k a b : 0 < j -> 0 < k -> xmul (xt j a) (xt k b) = xt (j * k) (xmul a b).
Proof.
  intros HJ HK. assert (J := q2r_pos _ HJ). assert (K := q2r_pos _ HK).
  destruct a as [x|n|], b as [y|m|]; simpl; auto; unfold inf_mul.
  - rewrite Q2R_mult. f_equal. ring.
  - rewrite (neg_bool _ _ J). destruct (Req_EM_T (Q2R j * x) 0) as [U|U], (Req_EM_T x 0) as [X|X];
      try (exfalso; rewrite (scaled_zero _ _ J) in U; contradiction); auto.
  - rewrite (neg_bool _ _ K). destruct (Req_EM_T (Q2R k * y) 0) as [U|U], (Req_EM_T y 0) as [X|X];
      try (exfalso; rewrite (scaled_zero _ _ K) in U; contradiction); auto.
Qed.

Lemma xt_sqrt k a : 0 < k -> xsqrt (xt (k * k) a) = xt k (xsqrt a).
Proof.
  intro HK. assert (K := q2r_pos _ HK). destruct a as [x|[|]|]; simpl; auto. rewrite Q2R_mult.
  assert (KK : (0 < Q2R k * Q2R k)%R) by Lra.nra.
  destruct (Rlt_dec (Q2R k * Q2R k * x) 0) as [H|H], (Rlt_dec x 0) as [G|G]; auto;
    try (exfalso; rewrite (scaled_neg _ _ KK) in H; contradiction).
  simpl. f_equal. rewrite sqrt_mult by Lra.lra. rewrite sqrt_square by Lra.lra. reflexivity.
Qed.

Lemma xt_add k a b : xadd (xt k a) (xt k b) = xt k (xadd a b).
Proof.
  destruct a as [x|n|], b as [y|m|]; simpl; auto; [f_equal; ring|].
  destruct (Bool.eqb n m); reflexivity.
Qed.
Lemma xt_neg k a : xneg (xt k a) = xt k (xneg a).
Proof. destruct a; simpl; auto. f_equal. ring. Qed.
Lemma xt_sub k a b : xsub (xt k a) (xt k b) = xt k (xsub a b).
Proof. unfold xsub. rewrite xt_neg, xt_add. reflexivity. Qed.
Lemma xt_lt0 k a : 0 < k -> xlt0 (xt k a) = xlt0 a.
Proof. intro HK. assert (K := q2r_pos _ HK). destruct a; simpl; auto. apply neg_bool. auto. Qed.

Lemma xoq_times k a b : same_opt (times_q k) a b -> xoq b = xt k (xoq a).
Proof. destruct a, b; simpl; intro H; try tauto. apply xt_q. exact H. Qed.

(** Division by an unchanged number, multiplication by an unchanged number. *)
Lemma xt_div_l k a b : 0 < k -> xdiv (xt k a) b = xt k (xdiv a b).
Proof.
  intro HK. rewrite <- (xt_one 1 b) at 1 by reflexivity. rewrite xt_div by (auto; reflexivity).
  apply xt_ext. field.
Qed.
Lemma xt_div_r k a b : 0 < k -> xdiv a (xt k b) = xt (1 / k) (xdiv a b).
Proof.
  intro HK. rewrite <- (xt_one 1 a) at 1 by reflexivity. rewrite xt_div by (auto; reflexivity). reflexivity.
Qed.
Lemma xt_mul_l k a b : 0 < k -> xmul (xt k a) b = xt k (xmul a b).
Proof.
  intro HK. rewrite <- (xt_one 1 b) at 1 by reflexivity. rewrite xt_mul by (auto; reflexivity).
  apply xt_ext. ring.
Qed.
Lemma xt_mul_r k a b : 0 < k -> xmul a (xt k b) = xt k (xmul a b).
Proof.
  intro HK. rewrite <- (xt_one 1 a) at 1 by reflexivity. rewrite xt_mul by (auto; reflexivity).
  apply xt_ext. ring.
Qed.

(** ** Lists *)
Lemma map_rel {A B} (R : A -> A -> Prop) (S : B -> B -> Prop) (f : A -> B) (h : A -> B) l l' :
  Forall2 R l l' -> (forall x y, R x y -> S (f x) (h y)) -> Forall2 S (map f l) (map h l').
Proof. intros H G. induction H; simpl; constructor; auto. Qed.

Lemma lsumq_times k l l' : times_list k l l' -> lsumq l' == k * lsumq l.
Proof.
  induction 1 as [|x y l l' E H IH]; simpl; [ring|]. unfold times_q in E. rewrite E, IH. ring.
Qed.

Definition pairs_rel (R S : Q -> Q -> Prop) (p q : Q * Q) : Prop := R (fst p) (fst q) /\ S (snd p) (snd q).

Lemma combine_rel R S a b : Forall2 R a b -> forall c d, Forall2 S c d ->
  Forall2 (pairs_rel R S) (combine a c) (combine b d).
Proof.
  induction 1 as [|x y a b E H IH]; intros c d G; simpl; [constructor|].
  destruct G; constructor; auto. split; auto.
Qed.

Lemma np_pairs_rel R S a b c d : Forall2 R a b -> Forall2 S c d ->
  same_res (Forall2 (pairs_rel R S)) (np_pairs a c) (np_pairs b d).
Proof.
  intros H G. unfold np_pairs. rewrite (f2_length _ _ _ H), (f2_length _ _ _ G).
  destruct (length b =? length d)%nat; [apply combine_rel; auto|].
  assert (B1 : forall x y, R x y -> Forall2 (pairs_rel R S) (map (fun z => (x, z)) c) (map (fun z => (y, z)) d)).
  { intros x y E. clear H. induction G; simpl; constructor; auto. split; auto. }
  assert (B2 : forall x y, S x y -> Forall2 (pairs_rel R S) (map (fun z => (z, x)) a) (map (fun z => (z, y)) b)).
  { intros x y E. clear G B1. induction H; simpl; constructor; auto. split; auto. }
  destruct H as [|x y a b E H]; [|destruct H as [|x' y' a b E' H]].
  - destruct G as [|u v c d E2 G]; [reflexivity|]. destruct G; simpl; auto.
  - simpl. apply B1. auto.
  - destruct G as [|u v c d E2 G]; [reflexivity|]. destruct G; simpl; auto.
    specialize (B2 u v E2). simpl in B2. exact B2.
Qed.

Lemma nth_error_rel {A} (R : A -> A -> Prop) l l' : Forall2 R l l' ->
  forall i, same_opt R (nth_error l i) (nth_error l' i).
Proof. induction 1; intros [|i]; simpl; auto. Qed.
Lemma of_option_rel {A} (R : A -> A -> Prop) e (a b : option A) : same_opt R a b ->
  same_res R (of_option e a) (of_option e b).
Proof. destruct a, b; simpl; auto; tauto. Qed.
Lemma py_get_rel (R : Q -> Q -> Prop) l l' i : Forall2 R l l' -> same_res R (py_get l i) (py_get l' i).
Proof.
  intro H. unfold py_get. rewrite (f2_length _ _ _ H).
  set (j := (if (i <? 0)%Z then _ else _)). destruct (j <? 0)%Z; [reflexivity|].
  apply of_option_rel, nth_error_rel; auto.
Qed.
Lemma argwhere_rel (R : Q -> Q -> Prop) (f h : Q -> bool) l l' : Forall2 R l l' ->
  (forall x y, R x y -> f x = h y) -> argwhere f l = argwhere h l'.
Proof.
  intros H G. unfold argwhere. rewrite (f2_length _ _ _ H). generalize 0%nat as a.
  induction H as [|x y l l' E H IH]; intro a; simpl; auto.
  rewrite (G x y E). destruct (h y); simpl; rewrite IH; reflexivity.
Qed.

Lemma Qle_times k a b : 0 < k -> Qle_bool (k * a) (k * b) = Qle_bool a b.
Proof.
  intro K. apply eq_true_iff_eq. rewrite !Qle_bool_iff. split; intro H; [|nra].
  apply (Qmult_le_l _ _ k K). auto.
Qed.
Lemma Qle_rel k a b c d : 0 < k -> times_q k a c -> times_q k b d -> Qle_bool c d = Qle_bool a b.
Proof. intros K E F. unfold times_q in *. rewrite (Qle_bool_same _ _ _ _ E F). apply Qle_times. auto. Qed.
Lemma Qeq0_times k a b : 0 < k -> times_q k a b -> Qeq_bool b 0 = Qeq_bool a 0.
Proof.
  intros K E. unfold times_q in E. apply eq_true_iff_eq. rewrite !Qeq_bool_iff. split; intro H.
  - rewrite E in H. apply Qmult_integral in H. destruct H; auto. rewrite H in K. discriminate.
  - rewrite E, H. ring.
Qed.

Lemma times_ext k x y z : y == z -> times_q k x y -> times_q k x z.
Proof. unfold times_q. intros E F. rewrite <- E. auto. Qed.

(** ** Fits *)
Lemma fit_b0_times a b P P' : 0 < a -> 0 < b ->
  Forall2 (pairs_rel (times_q a) (times_q b)) P P' ->
  a == b \/ ~ lsumq (map (fun p => fst p * fst p) P) == 0 ->
  fit_b0 P' == b / a * fit_b0 P.
Proof.
  intros HA HB H D.
  assert (E1 : lsumq (map (fun p => fst p * fst p) P') == a * a * lsumq (map (fun p => fst p * fst p) P)).
  { apply lsumq_times. eapply map_rel; [exact H|]. intros x y (X & Y). unfold times_q in *. rewrite X. ring. }
  assert (E2 : lsumq (map (fun p => fst p * snd p) P') == a * b * lsumq (map (fun p => fst p * snd p) P)).
  { apply lsumq_times. eapply map_rel; [exact H|]. intros x y (X & Y). unfold times_q in *. rewrite X, Y. ring. }
  unfold fit_b0. cbv zeta.
  set (a1 := lsumq (map (fun p => fst p * fst p) P)) in *.
  set (b1 := lsumq (map (fun p => fst p * fst p) P')) in *.
  set (a2 := lsumq (map (fun p => fst p * snd p) P)) in *.
  set (b2 := lsumq (map (fun p => fst p * snd p) P')) in *.
  clearbody a1 a2 b1 b2.
  assert (NA : ~ a == 0) by (intro Z; rewrite Z in HA; discriminate).
  assert (AA : 0 < a * a) by nra.
  rewrite (Qeq0_times _ _ _ AA E1). destruct (Qeq_bool a1 0) eqn:Z.
  - apply Qeq_bool_iff in Z. destruct D as [D|D]; [|contradiction]. rewrite D. field. rewrite <- D. auto.
  - assert (Z' : ~ a1 == 0) by (intro X; apply Qeq_bool_iff in X; congruence).
    rewrite E1, E2. field. auto.
Qed.

Lemma best_line_unique X Y m a b a' b' : best_line X Y m a b -> best_line X Y m a' b' -> a' == a /\ b' == b.
Proof.
  intros B B'.
  assert (D : (Q2R a' = Q2R a /\ Q2R b' = Q2R b) \/ (Q2R a' <> Q2R a \/ Q2R b' <> Q2R b)).
  { destruct (Req_dec (Q2R a') (Q2R a)); destruct (Req_dec (Q2R b') (Q2R b)); tauto. }
  destruct D as [(E1 & E2)|D]; [split; apply eqR_Qeq; auto|].
  exfalso. pose proof (B _ _ D). assert (D' : Q2R a <> Q2R a' \/ Q2R b <> Q2R b') by (destruct D; auto).
  pose proof (B' _ _ D'). Lra.lra.
Qed.

Lemma best_line_times kx ky c X Y X' Y' m a b : 0 < kx -> 0 < ky ->
  (forall i, (i <= m)%nat -> X' i == kx * X i) -> (forall i, (i <= m)%nat -> Y' i == ky * Y i + c) ->
  best_line X Y m a b -> best_line X' Y' m (ky / kx * a) (ky * b + c).
Proof.
  intros HX HY EX EY B a' b' D.
  assert (PX := q2r_pos _ HX). assert (PY := q2r_pos _ HY).
  assert (NX : ~ kx == 0) by (intro Z; rewrite Z in HX; discriminate).
  assert (S : forall u v, sse_line X' Y' m u v =
     (Q2R ky * Q2R ky * sse_line X Y m (u * Q2R kx / Q2R ky) ((v - Q2R c) / Q2R ky))%R).
  { intros u v. unfold sse_line. rewrite scal_sum. apply sum_eq. intros i Hi. unfold sq.
    rewrite (Qeq_eqR _ _ (EX i Hi)), (Qeq_eqR _ _ (EY i Hi)), Q2R_plus, !Q2R_mult. field. Lra.lra. }
  rewrite !S. apply Rmult_lt_compat_l; [Lra.nra|].
  rewrite !Q2R_plus, !Q2R_mult, Q2R_div by auto.
  replace (Q2R ky / Q2R kx * Q2R a * Q2R kx / Q2R ky)%R with (Q2R a) by (field; Lra.lra).
  replace ((Q2R ky * Q2R b + Q2R c - Q2R c) / Q2R ky)%R with (Q2R b) by (field; Lra.lra).
  apply B. rewrite Q2R_plus, !Q2R_mult, Q2R_div in D by auto.
  destruct D as [D|D]; [left|right]; intro E; apply D.
  - rewrite <- E. field. Lra.lra.
  - rewrite <- E. field. Lra.lra.
Qed.

Lemma at_rel (R : Q -> Q -> Prop) l l' i : Forall2 R l l' -> (i < length l)%nat -> R (at_ l i) (at_ l' i).
Proof.
  unfold at_. intro H. revert i. induction H; intros [|i] I; simpl in *; try lia; auto. apply IHForall2. lia.
Qed.

Lemma times_two t l l' : 0 < t -> times_list t l l' -> at_most_two l' -> at_most_two l.
Proof.
  intros T H (a & b & F). exists (a / t), (b / t).
  assert (NT : ~ t == 0) by (intro Z; rewrite Z in T; discriminate).
  induction H as [|x y l l' E H IH]; constructor; inversion F; subst; auto.
  unfold times_q in E. assert (X : x == y / t) by (rewrite E; field; auto).
  destruct H2 as [H2|H2]; [left|right]; rewrite X, H2; reflexivity.
Qed.
Lemma times_two' t l l' : times_list t l l' -> at_most_two l -> at_most_two l'.
Proof.
  intros H (a & b & F). exists (t * a), (t * b).
  induction H as [|x y l l' E H IH]; constructor; inversion F; subst; auto.
  unfold times_q in E. destruct H2 as [H2|H2]; [left|right]; rewrite E, H2; reflexivity.
Qed.
