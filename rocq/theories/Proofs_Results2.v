(** Proofs for C27, C29, C30, C31. *)
From Coq Require Import List Bool Arith ZArith QArith Reals Qreals Lia Lra.
From Verif Require Import Base_Prelude Base_Sum Base_Xreal Model_Images Model_Data Model_Results Spec_Results
  Proofs_Results Proofs_Fit.
Import ListNotations.
Open Scope R_scope.

Notation dq := (0%Q, 0%Q).

Lemma best_slope_ext X Y X' Y' m a :
  (forall i, (i <= m)%nat -> X i = X' i /\ Y i = Y' i) ->
  best_slope X Y m a -> best_slope X' Y' m a.
Proof.
  intros E H a' N. specialize (H a' N). unfold sse_slope in *.
  assert (G : forall c, sumr (fun i => sq (Q2R (Y i) - c * Q2R (X i))) m
                        = sumr (fun i => sq (Q2R (Y' i) - c * Q2R (X' i))) m).
  { intro c. apply sumr_ext. intros i Hi. destruct (E i Hi) as (-> & ->). reflexivity. }
  rewrite !G in H. exact H.
Qed.

Lemma best_line_ext X Y X' Y' m a b :
  (forall i, (i <= m)%nat -> X i = X' i /\ Y i = Y' i) ->
  best_line X Y m a b -> best_line X' Y' m a b.
Proof.
  intros E H a' b' N. specialize (H a' b' N). unfold sse_line in *.
  assert (G : forall c d, sumr (fun i => sq (Q2R (Y i) - (c * Q2R (X i) + d))) m
                        = sumr (fun i => sq (Q2R (Y' i) - (c * Q2R (X' i) + d))) m).
  { intros c d. apply sumr_ext. intros i Hi. destruct (E i Hi) as (-> & ->). reflexivity. }
  rewrite !G in H. exact H.
Qed.

Lemma Qeq_bool_false a b : Qeq_bool a b = false <-> ~ (a == b)%Q.
Proof.
  split; intro H.
  - apply Qeq_bool_neq. auto.
  - destruct (Qeq_bool a b) eqn:E; auto. apply Qeq_bool_eq in E. contradiction.
Qed.

Lemma fit_b0_best P m :
  length P = S m ->
  (exists i, (i <= m)%nat /\ ~ (fst (nth i P dq) == 0)%Q) ->
  best_slope (fun i => fst (nth i P dq)) (fun i => snd (nth i P dq)) m (fit_b0 P).
Proof.
  intros L (i & Hi & N) a' NE. unfold sse_slope, fit_b0.
  set (sxx := lsumq (map (fun p => fst p * fst p)%Q P)).
  set (sxy := lsumq (map (fun p => fst p * snd p)%Q P)).
  assert (PNE : P <> []) by (intro H; rewrite H in L; discriminate).
  assert (Exx : Q2R sxx = sumr (fun i => Q2R (fst (nth i P dq)) * Q2R (fst (nth i P dq))) m).
  { unfold sxx. rewrite (Q2R_lsumq _ P dq PNE). replace (length P - 1)%nat with m by lia.
    apply sumr_ext. intros. rewrite Q2R_mult. reflexivity. }
  assert (Exy : Q2R sxy = sumr (fun i => Q2R (fst (nth i P dq)) * Q2R (snd (nth i P dq))) m).
  { unfold sxy. rewrite (Q2R_lsumq _ P dq PNE). replace (length P - 1)%nat with m by lia.
    apply sumr_ext. intros. rewrite Q2R_mult. reflexivity. }
  assert (NZ : ~ (sxx == 0)%Q).
  { apply Q2R_neq0. rewrite Exx. intro Z. apply Q2R_neq0 in N. apply N.
    apply (sumr_sq_zero (fun i => Q2R (fst (nth i P dq))) m Z i Hi). }
  unfold fit_b0 in NE. fold sxx sxy in NE.
  assert (F : Qeq_bool sxx 0 = false) by (apply Qeq_bool_false; auto). rewrite F in *.
  apply slope_best; auto.
  - exists i. split; auto. apply Q2R_neq0. auto.
  - rewrite <- Exx, <- Exy. rewrite Q2R_div by auto. apply Q2R_neq0 in NZ. field. auto.
Qed.

Lemma fit_b_best P m :
  length P = S m ->
  (exists i j, (i <= m)%nat /\ (j <= m)%nat /\ ~ (fst (nth i P dq) == fst (nth j P dq))%Q) ->
  best_line (fun i => fst (nth i P dq)) (fun i => snd (nth i P dq)) m
    (fst (fit_b P)) (snd (fit_b P)).
Proof.
  intros L (i & j & Hi & Hj & N) a' b' NE. unfold sse_line.
  set (X := fun i => Q2R (fst (nth i P dq))). set (Y := fun i => Q2R (snd (nth i P dq))).
  assert (PNE : P <> []) by (intro H; rewrite H in L; discriminate).
  assert (Indep : exists i j, (i <= m)%nat /\ (j <= m)%nat /\ X i * 1 - X j * 1 <> 0).
  { exists i, j. repeat split; auto. unfold X. intro Z. apply N. apply eqR_Qeq. lra. }
  assert (D := det_pos X (fun _ => 1) Y m Indep).
  unfold fit_b in NE |- *.
  set (n := qn (length P)) in *. set (sx := lsumq (map fst P)) in *.
  set (sy := lsumq (map snd P)) in *.
  set (sxx := lsumq (map (fun p => fst p * fst p)%Q P)) in *.
  set (sxy := lsumq (map (fun p => fst p * snd p)%Q P)) in *.
  assert (En : Q2R n = sumr (fun _ => 1 * 1) m).
  { unfold n. rewrite Q2R_qn, L. rewrite <- sumr_const1. apply sumr_ext. intros. ring. }
  assert (Ex : Q2R sx = sumr (fun i => X i * 1) m).
  { unfold sx. rewrite (Q2R_lsumq _ P dq PNE). replace (length P - 1)%nat with m by lia.
    apply sumr_ext. intros. unfold X. ring. }
  assert (Ey : Q2R sy = sumr (fun i => 1 * Y i) m).
  { unfold sy. rewrite (Q2R_lsumq _ P dq PNE). replace (length P - 1)%nat with m by lia.
    apply sumr_ext. intros. unfold Y. ring. }
  assert (Exx : Q2R sxx = sumr (fun i => X i * X i) m).
  { unfold sxx. rewrite (Q2R_lsumq _ P dq PNE). replace (length P - 1)%nat with m by lia.
    apply sumr_ext. intros. rewrite Q2R_mult. reflexivity. }
  assert (Exy : Q2R sxy = sumr (fun i => X i * Y i) m).
  { unfold sxy. rewrite (Q2R_lsumq _ P dq PNE). replace (length P - 1)%nat with m by lia.
    apply sumr_ext. intros. rewrite Q2R_mult. reflexivity. }
  simpl in D. rewrite <- Exx, <- Ex, <- En in D.
  set (det := (n * sxx - sx * sx)%Q) in *.
  assert (Ed : Q2R det = Q2R sxx * Q2R n - Q2R sx * Q2R sx).
  { unfold det. rewrite Q2R_minus, !Q2R_mult. ring. }
  assert (NZ : ~ (det == 0)%Q) by (apply Q2R_neq0; lra).
  assert (F : Qeq_bool det 0 = false) by (apply Qeq_bool_false; auto). rewrite F in *.
  simpl in NE |- *.
  assert (Ea : Q2R ((n * sxy - sx * sy) / det) = (Q2R n * Q2R sxy - Q2R sx * Q2R sy) / Q2R det)
    by (rewrite Q2R_div by auto; rewrite Q2R_minus, !Q2R_mult; reflexivity).
  assert (Eb : Q2R ((sxx * sy - sx * sxy) / det) = (Q2R sxx * Q2R sy - Q2R sx * Q2R sxy) / Q2R det)
    by (rewrite Q2R_div by auto; rewrite Q2R_minus, !Q2R_mult; reflexivity).
  assert (B := normal_best X (fun _ => 1) Y m Indep
                 (Q2R ((n * sxy - sx * sy) / det)) (Q2R ((sxx * sy - sx * sxy) / det))).
  simpl in B. rewrite <- Exx, <- Ex, <- En, <- Exy, <- Ey in B.
  assert (DR : Q2R sxx * Q2R n - Q2R sx * Q2R sx <> 0) by lra.
  assert (S : forall a b, sse2 X (fun _ => 1) Y m a b
                = sumr (fun i => sq (Q2R (snd (nth i P dq)) - (a * Q2R (fst (nth i P dq)) + b))) m).
  { intros a b. unfold sse2. apply sumr_ext. intros. unfold X, Y. rewrite Rmult_1_r. reflexivity. }
  rewrite <- !S. apply B; auto.
  - rewrite Ea, Eb, Ed. field. auto.
  - rewrite Ea, Eb, Ed. field. auto.
Qed.

(** ** Slices and pairs *)
Lemma np_pairs_eq a b : length a = length b -> np_pairs a b = Ok (combine a b).
Proof. intro H. unfold np_pairs. rewrite H, Nat.eqb_refl. reflexivity. Qed.

Lemma slice_length {A} lo hi (l : list A) :
  (hi <= length l)%nat -> length (slice lo hi l) = (hi - lo)%nat.
Proof. intro H. unfold slice. rewrite firstn_length, skipn_length. lia. Qed.

Lemma nth_firstn' {A} (l : list A) : forall k i d, (i < k)%nat -> nth i (firstn k l) d = nth i l d.
Proof.
  induction l; intros [|k] [|i] d H; simpl; auto; try lia. apply IHl. lia.
Qed.

Lemma nth_skipn' {A} (l : list A) : forall k i d, nth i (skipn k l) d = nth (k + i) l d.
Proof.
  induction l; intros [|k] i d; simpl; auto. destruct i; reflexivity.
Qed.

Lemma slice_nth {A} lo hi (l : list A) i d :
  (lo + i < hi)%nat -> nth i (slice lo hi l) d = nth (lo + i) l d.
Proof. intro H. unfold slice. rewrite nth_firstn' by lia. apply nth_skipn'. Qed.

Lemma sig_list_nth o n i : (i < n)%nat -> nth i (map (sig o) (seq 0 n)) 0%Q = sig o i.
Proof. apply nth_map_seq. Qed.

Lemma noise_shaped o n :
  shaped o n -> np_sub (r_s2y (o_t o)) (r_s2ydark (o_t o)) = Ok (map (noise o) (seq 0 n)).
Proof.
  intros (_ & _ & _ & H1 & _ & H2). unfold np_sub, np_pairs.
  rewrite H1, H2, Nat.eqb_refl. simpl. f_equal.
  unfold noise. revert H1 H2. generalize (r_s2y (o_t o)) (r_s2ydark (o_t o)).
  clear. induction n; intros [|x l] [|y l'] H1 H2; try discriminate; [reflexivity|].
  simpl. f_equal. rewrite (IHn l l') by (simpl in *; lia).
  rewrite <- seq_shift, map_map. reflexivity.
Qed.

Lemma linear_b0_slices X Y n m :
  length X = n -> length Y = n -> (m < n)%nat ->
  exists P, linear_b0 (slice 0 (m + 1) X) (slice 0 (m + 1) Y) = Ok (fit_b0 P) /\
    length P = S m /\ forall i, (i <= m)%nat -> nth i P dq = (nth i X 0%Q, nth i Y 0%Q).
Proof.
  intros HX HY Hm. unfold linear_b0.
  assert (LX : length (slice 0 (m + 1) X) = (m + 1)%nat) by (rewrite slice_length; lia).
  assert (LY : length (slice 0 (m + 1) Y) = (m + 1)%nat) by (rewrite slice_length; lia).
  rewrite np_pairs_eq by congruence. cbn [bind].
  exists (combine (slice 0 (m + 1) X) (slice 0 (m + 1) Y)).
  assert (LP : length (combine (slice 0 (m + 1) X) (slice 0 (m + 1) Y)) = S m)
    by (rewrite combine_length; lia).
  rewrite LP. split; [reflexivity|]. split; auto.
  intros i Hi. rewrite combine_nth by congruence. rewrite !slice_nth by lia. reflexivity.
Qed.

Lemma sensitivity_max_lt o n m :
  shaped o n -> index_sensitivity_max o = Ok m -> (m < n)%nat.
Proof.
  intros SH H. unfold index_sensitivity_max in H. rewrite (signal_shaped o n SH) in H. simpl in H.
  apply bind_ok in H. destruct H as (z & _ & H). apply bind_ok in H. destruct H as (y & _ & H).
  rewrite argwhere_seq in H. apply max_index_iff in H. destruct H as (H & _).
  apply filter_In in H. destruct H as (H & _). apply in_seq in H. lia.
Qed.

Lemma responsivity_fit o n m :
  shaped o n -> index_sensitivity_max o = Ok m ->
  exists P, responsivity o = Ok (fit_b0 P) /\ length P = S m /\
    forall i, (i <= m)%nat -> nth i P dq = (photons o i, sig o i).
Proof.
  intros SH E. assert (M := sensitivity_max_lt o n m SH E).
  unfold responsivity. rewrite (signal_shaped o n SH), E. cbn [bind].
  destruct SH as (_ & HU & _).
  destruct (linear_b0_slices (r_up (o_t o)) (map (sig o) (seq 0 n)) n m) as (P & A & B & C); auto.
  { rewrite map_length, seq_length. reflexivity. }
  exists P. split; [exact A|]. split; auto. intros i Hi. rewrite C by auto.
  rewrite sig_list_nth by lia. reflexivity.
Qed.

Lemma gain_fit o n m :
  shaped o n -> index_sensitivity_max o = Ok m ->
  exists P, gain o = Ok (fit_b0 P) /\ length P = S m /\
    forall i, (i <= m)%nat -> nth i P dq = (sig o i, noise o i).
Proof.
  intros SH E. assert (M := sensitivity_max_lt o n m SH E).
  unfold gain. rewrite (signal_shaped o n SH), (noise_shaped o n SH), E. cbn [bind].
  destruct (linear_b0_slices (map (sig o) (seq 0 n)) (map (noise o) (seq 0 n)) n m) as (P & A & B & C); auto.
  { rewrite map_length, seq_length. reflexivity. }
  { rewrite map_length, seq_length. reflexivity. }
  exists P. split; [exact A|]. split; auto. intros i Hi. rewrite C by auto.
  rewrite !nth_map_seq by lia. reflexivity.
Qed.

Lemma responsivity_best o n m :
  shaped o n -> index_sensitivity_max o = Ok m ->
  (exists i, (i <= m)%nat /\ ~ (photons o i == 0)%Q) ->
  exists r, responsivity o = Ok r /\ best_slope (photons o) (sig o) m r.
Proof.
  intros SH E (i & Hi & N). destruct (responsivity_fit o n m SH E) as (P & A & B & C).
  exists (fit_b0 P). split; auto.
  eapply best_slope_ext; [|apply fit_b0_best; auto].
  - intros j Hj. simpl. rewrite C by auto. auto.
  - exists i. split; auto. rewrite C by auto. auto.
Qed.

Lemma gain_best o n m :
  shaped o n -> index_sensitivity_max o = Ok m ->
  (exists i, (i <= m)%nat /\ ~ (sig o i == 0)%Q) ->
  exists k, gain o = Ok k /\ best_slope (sig o) (noise o) m k.
Proof.
  intros SH E (i & Hi & N). destruct (gain_fit o n m SH E) as (P & A & B & C).
  exists (fit_b0 P). split; auto.
  eapply best_slope_ext; [|apply fit_b0_best; auto].
  - intros j Hj. simpl. rewrite C by auto. auto.
  - exists i. split; auto. rewrite C by auto. auto.
Qed.

(** The best slope of exactly proportional data. *)
Lemma best_slope_exact X Y m a c :
  best_slope X Y m a -> (forall i, (i <= m)%nat -> (Y i == c * X i)%Q) -> (a == c)%Q.
Proof.
  intros B H. destruct (Req_dec (Q2R c) (Q2R a)) as [E|E].
  - apply eqR_Qeq. auto.
  - exfalso. specialize (B (Q2R c) E).
    assert (Z : sse_slope X Y m (Q2R c) = 0).
    { unfold sse_slope. apply sum_eq_R0. intros i Hi. unfold sq.
      rewrite (Qeq_eqR _ _ (H i Hi)), Q2R_mult. ring. }
    rewrite Z in B. assert (0 <= sse_slope X Y m (Q2R a)); [|lra].
    unfold sse_slope, sq. apply (sumr_sq_nonneg (fun i => Q2R (Y i) - Q2R a * Q2R (X i))).
Qed.

(** LinearB on two arrays. *)
Lemma linear_b_best X Y m :
  length X = S m -> length Y = S m -> (0 < m)%nat ->
  (exists i j, (i <= m)%nat /\ (j <= m)%nat /\ ~ (at_ X i == at_ X j)%Q) ->
  exists a b, linear_b X Y = Ok (a, b) /\ best_line (at_ X) (at_ Y) m a b.
Proof.
  intros HX HY Hm (i & j & Hi & Hj & N). unfold linear_b.
  rewrite np_pairs_eq by congruence. cbn [bind].
  assert (L : length (combine X Y) = S m) by (rewrite combine_length; lia).
  rewrite L. destruct (S m <? 2)%nat eqn:T; [apply Nat.ltb_lt in T; lia|].
  exists (fst (fit_b (combine X Y))), (snd (fit_b (combine X Y))).
  split; [rewrite <- surjective_pairing; reflexivity|].
  assert (C : forall k, nth k (combine X Y) dq = (at_ X k, at_ Y k))
    by (intro k; apply combine_nth; congruence).
  eapply best_line_ext; [|apply fit_b_best; auto].
  - intros k Hk. simpl. rewrite C. auto.
  - exists i, j. rewrite !C. auto.
Qed.

Lemma best_line_exact X Y m a b c d :
  best_line X Y m a b -> (forall i, (i <= m)%nat -> (Y i == c * X i + d)%Q) -> (a == c)%Q /\ (b == d)%Q.
Proof.
  intros B H.
  assert (D : Q2R c = Q2R a /\ Q2R d = Q2R b \/ (Q2R c <> Q2R a \/ Q2R d <> Q2R b)).
  { destruct (Req_dec (Q2R c) (Q2R a)); destruct (Req_dec (Q2R d) (Q2R b)); tauto. }
  destruct D as [(E1 & E2)|E].
  - split; apply eqR_Qeq; auto.
  - exfalso. specialize (B _ _ E).
    assert (Z : sse_line X Y m (Q2R c) (Q2R d) = 0).
    { unfold sse_line. apply sum_eq_R0. intros i Hi. unfold sq.
      rewrite (Qeq_eqR _ _ (H i Hi)), Q2R_plus, Q2R_mult. ring. }
    rewrite Z in B. assert (0 <= sse_line X Y m (Q2R a) (Q2R b)); [|lra].
    unfold sse_line, sq. apply (sumr_sq_nonneg (fun i => Q2R (Y i) - (Q2R a * Q2R (X i) + Q2R b))).
Qed.

(** ** Distinct exposure times *)
Lemma existsb_Qeq x l : existsb (Qeq_bool x) l = true <-> exists y, In y l /\ (x == y)%Q.
Proof.
  rewrite existsb_exists. split; intros (y & I & E); exists y; split; auto;
    [apply Qeq_bool_eq|apply Qeq_eq_bool]; auto.
Qed.

Lemma unique_count_le1 l :
  (unique_count l <= 1)%nat <-> exists a, Forall (fun x => (x == a)%Q) l.
Proof.
  induction l as [|x l IH]; simpl.
  - split; [exists 0%Q; constructor|lia].
  - destruct (existsb (Qeq_bool x) l) eqn:E.
    + simpl. rewrite IH. apply existsb_Qeq in E. destruct E as (y & I & E). split.
      * intros (a & H). exists a. constructor; auto. rewrite E. rewrite Forall_forall in H. auto.
      * intros (a & H). inversion H; subst. exists a. auto.
    + assert (N : forall y, In y l -> ~ (x == y)%Q).
      { intros y I Q. assert (existsb (Qeq_bool x) l = true) by (apply existsb_Qeq; eauto). congruence. }
      split.
      * intro H. assert (unique_count l = 0)%nat by lia.
        destruct l as [|y l]; [exists x; constructor; [reflexivity|constructor]|].
        exfalso. clear -H0. revert y H0. induction l; intros y H0; simpl in H0; [lia|].
        destruct (existsb (Qeq_bool y) (a :: l)) eqn:E; simpl in E; rewrite ?E in H0;
          [apply (IHl a); simpl; lia|lia].
      * intros (a & H). inversion H; subst. destruct l as [|y l]; [simpl; lia|].
        exfalso. apply (N y); [left; auto|]. inversion H3; subst. rewrite H2. symmetry. auto.
Qed.

Lemma unique_count_le2 l : (unique_count l <=? 2)%nat = true <-> at_most_two l.
Proof.
  rewrite Nat.leb_le. unfold at_most_two. induction l as [|x l IH]; simpl.
  - split; [exists 0%Q, 0%Q; constructor|lia].
  - destruct (existsb (Qeq_bool x) l) eqn:E.
    + simpl. rewrite IH. apply existsb_Qeq in E. destruct E as (y & I & E). split.
      * intros (a & b & H). exists a, b. constructor; auto. rewrite Forall_forall in H.
        rewrite E. auto.
      * intros (a & b & H). inversion H; subst. eauto.
    + assert (N : forall y, In y l -> ~ (x == y)%Q).
      { intros y I Q. assert (existsb (Qeq_bool x) l = true) by (apply existsb_Qeq; eauto). congruence. }
      split.
      * intro H. assert (U : (unique_count l <= 1)%nat) by lia. apply unique_count_le1 in U.
        destruct U as (a & U). exists x, a. constructor; [left; reflexivity|].
        eapply Forall_impl; [|exact U]. intros; right; auto.
      * intros (a & b & H). inversion H; subst.
        assert (U : (unique_count l <= 1)%nat); [|lia]. apply unique_count_le1.
        destruct H2 as [H2|H2]; [exists b|exists a]; rewrite Forall_forall in *; intros y I;
          destruct (H3 y I) as [Q|Q]; auto; exfalso; apply (N y I); rewrite H2; symmetry; auto.
Qed.

Lemma not_two_distinct l :
  ~ at_most_two l -> exists i j, (i < length l)%nat /\ (j < length l)%nat /\ ~ (at_ l i == at_ l j)%Q.
Proof.
  intro H. destruct l as [|x l].
  - exfalso. apply H. exists 0%Q, 0%Q. constructor.
  - destruct (Forall_Exists_dec (fun y => (y == x)%Q) ltac:(intro; apply Qeq_dec) l) as [F|X].
    + exfalso. apply H. exists x, x. constructor; [left; reflexivity|].
      eapply Forall_impl; [|exact F]. auto.
    + apply Exists_exists in X. destruct X as (y & I & N).
      destruct (In_nth _ _ 0%Q I) as (j & J & E).
      exists 0%nat, (S j). simpl. repeat split; [lia|lia|]. unfold at_. simpl. rewrite E.
      intro Q. apply N. symmetry. auto.
Qed.

Lemma dark_fit o n (Y : list Q) :
  shaped o n -> length Y = n -> ~ at_most_two (r_texp (o_t o)) ->
  (1 < n)%nat /\ exists a b, linear_b (r_texp (o_t o)) Y = Ok (a, b) /\
    best_line (at_ (r_texp (o_t o))) (at_ Y) (n - 1) a b.
Proof.
  intros (HT & _) HY N. destruct (not_two_distinct _ N) as (i & j & Hi & Hj & D).
  rewrite HT in Hi, Hj.
  assert (L : (1 < n)%nat).
  { destruct n as [|[|n]]; try lia. exfalso. assert (i = j) by lia. subst. apply D. reflexivity. }
  split; auto. apply linear_b_best; try lia. exists i, j. repeat split; auto; lia.
Qed.

Lemma dark_variance_value o n :
  shaped o n -> (0 < n)%nat ->
  exists v, dark_value o n v /\
    dark_variance o = Ok (if Qle_bool (24 # 100) v then v else 24 # 100)%Q.
Proof.
  intros SH Hn. unfold dark_variance.
  destruct (unique_count (r_texp (o_t o)) <=? 2)%nat eqn:U.
  - apply unique_count_le2 in U. exists (at_ (r_s2ydark (o_t o)) 0). split; [left; auto|].
    destruct SH as (_ & _ & _ & _ & _ & HD).
    rewrite (py_get_sat _ n 0 0); auto.
    simpl. destruct (Qle_bool (24 # 100) _); reflexivity.
  - assert (N : ~ at_most_two (r_texp (o_t o))).
    { intro H. apply unique_count_le2 in H. congruence. }
    destruct (dark_fit o n (r_s2ydark (o_t o)) SH) as (L & a & b & E & B); auto.
    { destruct SH as (_ & _ & _ & _ & _ & HD). auto. }
    exists b. split; [right; split; auto; exists a; auto|].
    rewrite E. simpl. destruct (Qle_bool (24 # 100) b); reflexivity.
Qed.

Lemma Q2R_frac a b : Q2R (a # b) = IZR a / IZR (Zpos b).
Proof. reflexivity. Qed.

Lemma sigma_y_dark_value o n :
  shaped o n -> (0 < n)%nat ->
  exists v s, dark_value o n v /\ sigma_y_dark o = Ok (XR s) /\
    0 < s /\ s * s = Rmax (24 / 100) (Q2R v).
Proof.
  intros SH Hn. destruct (dark_variance_value o n SH Hn) as (v & D & E).
  set (w := (if Qle_bool (24 # 100) v then v else 24 # 100)%Q) in *.
  assert (W : Q2R w = Rmax (24 / 100) (Q2R v)).
  { unfold w. destruct (Qle_bool (24 # 100) v) eqn:B.
    - apply Qle_bool_iff in B. apply Qle_Rle in B. rewrite Q2R_frac in B.
      rewrite Rmax_right; auto.
    - apply Qle_bool_false in B. apply Qlt_Rlt in B. rewrite Q2R_frac in B.
      rewrite Rmax_left by lra. rewrite Q2R_frac. reflexivity. }
  assert (P : 0 < Q2R w) by (rewrite W; apply Rlt_le_trans with (24 / 100); [lra|apply Rmax_l]).
  exists v, (sqrt (Q2R w)). split; auto. split.
  - unfold sigma_y_dark. rewrite E. cbn [bind]. unfold xq. rewrite xsqrt_fin by lra. reflexivity.
  - split; [apply sqrt_lt_R0; auto|]. rewrite sqrt_sqrt by lra. auto.
Qed.

Lemma Q2R_s2q : Q2R s2q = 1 / 12.
Proof. unfold s2q, Q2R. simpl. field. Qed.

Lemma sigma_d_value o s k :
  sigma_y_dark o = Ok (XR s) -> 24 / 100 <= s * s -> gain o = Ok k -> ~ (k == 0)%Q ->
  exists d, sigma_d o = Ok (XR d) /\ s * s = (Q2R k * d) * (Q2R k * d) + 1 / 12.
Proof.
  intros E H K N. unfold sigma_d. rewrite E, K. cbn [bind].
  assert (N' : Q2R k <> 0) by (apply Q2R_neq0; auto).
  unfold xsq, xq, xsub. cbn [xmul xneg xadd]. rewrite Q2R_s2q.
  rewrite xsqrt_fin by lra. rewrite xdiv_fin by auto.
  eexists. split; [reflexivity|].
  replace (Q2R k * (sqrt (s * s + - (1 / 12)) / Q2R k)) with (sqrt (s * s + - (1 / 12))) by (field; auto).
  rewrite sqrt_sqrt by lra. lra.
Qed.

(** ** C30 *)
Lemma u_I_mean_value o n k :
  shaped o n -> gain o = Ok k -> ~ (k == 0)%Q ->
  (at_most_two (r_texp (o_t o)) -> u_I_mean_DN o = Ok XNan /\ u_I_mean o = Ok XNan) /\
  (~ at_most_two (r_texp (o_t o)) ->
   exists a b, best_line (at_ (r_texp (o_t o))) (at_ (r_uydark (o_t o))) (n - 1) a b /\
     u_I_mean_DN o = Ok (XR (10 ^ 9 * Q2R a)) /\
     u_I_mean o = Ok (XR (10 ^ 9 * Q2R a / Q2R k))).
Proof.
  intros SH K NK. split.
  - intro H. apply unique_count_le2 in H.
    assert (E : u_I_mean_DN o = Ok XNan) by (unfold u_I_mean_DN; rewrite H; reflexivity).
    split; auto. unfold u_I_mean. rewrite E. reflexivity.
  - intro H. destruct (dark_fit o n (r_uydark (o_t o)) SH) as (L & a & b & E & B); auto.
    { destruct SH as (_ & _ & _ & _ & HD & _). auto. }
    exists a, b. split; auto.
    assert (U : (unique_count (r_texp (o_t o)) <=? 2)%nat = false).
    { destruct (unique_count (r_texp (o_t o)) <=? 2)%nat eqn:U; auto.
      exfalso. apply H. apply unique_count_le2. auto. }
    assert (D : u_I_mean_DN o = Ok (XR (10 ^ 9 * Q2R a))).
    { unfold u_I_mean_DN. rewrite U, E. cbn [bind]. unfold xq. cbn [xmul]. do 2 f_equal.
      unfold Q2R at 2. simpl. field. }
    split; auto. unfold u_I_mean. rewrite D. cbn [bind]. rewrite K. cbn [bind].
    apply Q2R_neq0 in NK. unfold xq. rewrite xdiv_fin by auto. reflexivity.
Qed.

Lemma u_I_var_value o n k :
  shaped o n -> gain o = Ok k -> ~ (k == 0)%Q ->
  (at_most_two (r_texp (o_t o)) -> u_I_var_DN o = Ok XNan /\ u_I_var o = Ok XNan) /\
  (~ at_most_two (r_texp (o_t o)) ->
   exists a b, best_line (at_ (r_texp (o_t o))) (at_ (r_s2ydark (o_t o))) (n - 1) a b /\
     ((a < 0)%Q -> u_I_var_DN o = Ok XNan /\ u_I_var o = Ok XNan) /\
     ((0 <= a)%Q -> u_I_var_DN o = Ok (XR (10 ^ 9 * Q2R a / Q2R k)) /\
                    u_I_var o = Ok (XR (10 ^ 9 * Q2R a / (Q2R k * Q2R k))))).
Proof.
  intros SH K NK. split.
  - intro H. apply unique_count_le2 in H.
    assert (E : u_I_var_DN o = Ok XNan) by (unfold u_I_var_DN; rewrite H; reflexivity).
    split; auto. unfold u_I_var. rewrite E. reflexivity.
  - intro H. destruct (dark_fit o n (r_s2ydark (o_t o)) SH) as (L & a & b & E & B); auto.
    { destruct SH as (_ & _ & _ & _ & _ & HD). auto. }
    exists a, b. split; auto.
    assert (U : (unique_count (r_texp (o_t o)) <=? 2)%nat = false).
    { destruct (unique_count (r_texp (o_t o)) <=? 2)%nat eqn:U; auto.
      exfalso. apply H. apply unique_count_le2. auto. }
    assert (NK' := NK). apply Q2R_neq0 in NK'. split.
    + intro A. assert (D : u_I_var_DN o = Ok XNan).
      { unfold u_I_var_DN. rewrite U, E. cbn [bind].
        assert (F : Qle_bool 0 a = false) by (apply Qle_bool_false; auto). simpl fst. rewrite F. reflexivity. }
      split; auto. unfold u_I_var. rewrite D. reflexivity.
    + intro A. assert (D : u_I_var_DN o = Ok (XR (10 ^ 9 * Q2R a / Q2R k))).
      { unfold u_I_var_DN. rewrite U, E. cbn [bind]. simpl fst.
        assert (F : Qle_bool 0 a = true) by (apply Qle_bool_iff; auto). rewrite F. simpl negb. cbn iota.
        rewrite K. cbn [bind]. unfold xq. rewrite xdiv_fin by auto. cbn [xmul]. do 2 f_equal.
        unfold Q2R at 3. simpl. field. auto. }
      split; auto. unfold u_I_var. rewrite D. cbn [bind]. rewrite K. cbn [bind].
      unfold xq. rewrite xdiv_fin by auto. do 2 f_equal. field. auto.
Qed.
