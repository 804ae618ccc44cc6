(** Every figure of Results1288 in the new units: the figures one by one. *)
From Coq Require Import List Bool Arith ZArith QArith Qfield Qpower Reals Qreals Lia Lra Lqa.
From Verif Require Import Base_Prelude Base_Sum Base_Xreal Model_Images Model_Data
  Model_Results Spec_Results Spec_Emva Spec_Units Proofs_Results Proofs_Results2 Proofs_Fit Proofs_Same
  Proofs_Units.
Import ListNotations.
Open Scope Q_scope.

Lemma dark_fit_det o n m : shaped o n -> index_sensitivity_max o = Ok m -> (m < n)%nat.
Proof. intros S H. eapply sensitivity_max_lt; eauto. Qed.

Lemma sq_sum_nonzero P j : (j < length P)%nat -> ~ fst (nth j P (0, 0)) == 0 ->
  ~ lsumq (map (fun p => fst p * fst p) P) == 0.
Proof.
  intros J N. assert (NN : forall A, 0 <= lsumq (map (fun p : Q * Q => fst p * fst p) A)).
  { induction A as [|p A IH]; simpl; [discriminate|]. assert (0 <= fst p * fst p) by nra. lra. }
  revert j J N. induction P as [|p P IH]; intros j J N; simpl in *; [lia|].
  specialize (NN P). destruct j as [|j].
  - assert (0 < fst p * fst p); [|lra]. destruct (Qlt_le_dec (fst p) 0); [nra|].
    apply Qle_lteq in q. destruct q as [q|q]; [nra|]. exfalso. apply N. symmetry. auto.
  - assert (0 <= fst p * fst p) by nra. assert (X := IH j ltac:(lia) N). intro Z. apply X. lra.
Qed.

Section Units.
Context (g c p t : Q) (o o' : robj) (n : nat).
Hypothesis G : 0 < g.
Hypothesis P : 0 < p.
Hypothesis T : 0 < t.
Hypothesis RS : rescaled g c p t o o'.
Hypothesis SH : shaped o n.

Lemma NG : ~ g == 0. Proof. intro Z. rewrite Z in G. discriminate. Qed.
Lemma NP : ~ p == 0. Proof. intro Z. rewrite Z in P. discriminate. Qed.
Lemma NT : ~ t == 0. Proof. intro Z. rewrite Z in T. discriminate. Qed.
Lemma GG : 0 < g * g. Proof. nra. Qed.

Lemma SH' : shaped o' n.
Proof.
  destruct SH as (A1 & A2 & A3 & A4 & A5 & A6). destruct RS as [B1 B2 B3 B4 B5 B6 _ _ _ _].
  apply f2_length in B1, B2, B3, B4, B5, B6. unfold shaped. repeat split; congruence.
Qed.

Lemma sat_loop_times s s' : times_list (g * g) s s' -> forall k mx mx' mi, times_q (g * g) mx mx' ->
  sat_loop s' k mx' mi = sat_loop s k mx mi.
Proof.
  intros H k. induction k as [|i IH]; intros mx mx' mi E; simpl; auto. symmetry.
  eapply eq_bind; [apply of_option_rel, nth_error_rel; exact H|].
  intros a b Eab. unfold Qge_b. rewrite (Qle_rel _ _ _ _ _ GG E Eab).
  destruct (Qle_bool mx a); [symmetry; apply IH; auto|].
  eapply eq_bind; [apply of_option_rel, nth_error_rel; exact H|].
  intros x y Exy. rewrite (Qle_rel _ _ _ _ _ GG E Exy). destruct (Qle_bool mx x); auto.
  symmetry. apply IH. auto.
Qed.

Lemma index_units : fst (index_u_ysat o') = fst (index_u_ysat o).
Proof.
  assert (H := rs_s2y _ _ _ _ _ _ RS). unfold index_u_ysat. rewrite (rs_sat _ _ _ _ _ _ RS).
  rewrite (sat_loop_times _ _ H (length (r_s2y (o_t o'))) 0 0 0%nat) by (unfold times_q; ring).
  rewrite <- (f2_length _ _ _ H).
  destruct (o_sat o) as [z|]; [destruct (negb _); auto|]; destruct (sat_loop _ _ _ _); auto.
Qed.

Lemma signal_units : same_res (times_list g) (signal o) (signal o').
Proof.
  unfold signal, np_sub. eapply same_bind.
  - apply np_pairs_rel; [apply (rs_uy _ _ _ _ _ _ RS)|apply (rs_uydark _ _ _ _ _ _ RS)].
  - intros x y H. simpl. eapply map_rel; [exact H|]. intros u v (E & F). unfold times_q. rewrite E, F. ring.
Qed.

Lemma range_units (pick : list nat -> res nat) (f : Q -> Q -> bool) :
  (forall a b x y, times_q g a b -> times_q g x y -> f b y = f a x) ->
  (Y <- signal o' ;; i <- fst (index_u_ysat o') ;; y <- py_get Y i ;;
     pick (argwhere (fun v => f v y) Y)) =
  (Y <- signal o ;; i <- fst (index_u_ysat o) ;; y <- py_get Y i ;;
     pick (argwhere (fun v => f v y) Y)).
Proof.
  intro H. symmetry. eapply eq_bind; [apply signal_units|]. intros Y Y' EY. rewrite index_units.
  destruct (fst (index_u_ysat o)) as [i|e]; simpl; auto.
  eapply eq_bind; [apply py_get_rel; exact EY|]. intros y y' Ey.
  f_equal. eapply argwhere_rel; [exact EY|]. intros a b E. symmetry. apply H; auto.
Qed.

Lemma times_const k x y : times_q g x y -> times_q g (k * x) (k * y).
Proof. unfold times_q. intro E. rewrite E. ring. Qed.

Lemma sens_units : index_sensitivity_max o' = index_sensitivity_max o.
Proof.
  apply (range_units max_index (fun v y => Qle_bool v ((7 # 10) * y))).
  intros a b x y E F. apply (Qle_rel g); auto using times_const.
Qed.
Lemma lin_max_units : index_linearity_max o' = index_linearity_max o.
Proof.
  apply (range_units max_index (fun v y => Qle_bool v ((95 # 100) * y))).
  intros a b x y E F. apply (Qle_rel g); auto using times_const.
Qed.
Lemma lin_min_units : index_linearity_min o' = index_linearity_min o.
Proof.
  apply (range_units min_index (fun v y => Qge_b v ((5 # 100) * y))).
  intros a b x y E F. unfold Qge_b. apply (Qle_rel g); auto using times_const.
Qed.

Lemma linear_b0_units a b X X' Y Y' : 0 < a -> 0 < b -> times_list a X X' -> times_list b Y Y' ->
  a == b \/ (length X = length Y /\ exists j, (j < length X)%nat /\ ~ at_ X j == 0) ->
  same_res (times_q (b / a)) (linear_b0 X Y) (linear_b0 X' Y').
Proof.
  intros HA HB H K D. unfold linear_b0.
  destruct D as [D|(L & j & J & N)].
  - eapply same_bind; [apply np_pairs_rel; [exact H|exact K]|].
    intros Q Q' E. rewrite (f2_length _ _ _ E). destruct (_ <? 1)%nat; [reflexivity|].
    apply fit_b0_times; auto.
  - rewrite np_pairs_eq by auto.
    rewrite np_pairs_eq by (rewrite <- (f2_length _ _ _ H), <- (f2_length _ _ _ K); auto).
    cbn [bind]. rewrite !combine_length, <- (f2_length _ _ _ H), <- (f2_length _ _ _ K).
    destruct (_ <? 1)%nat; [reflexivity|]. simpl. apply fit_b0_times; auto; [apply combine_rel; auto|].
    right. apply (sq_sum_nonzero _ j); [rewrite combine_length; lia|].
    rewrite combine_nth by auto. exact N.
Qed.

Lemma slice_at lo hi (l : list Q) i : (lo + i < hi)%nat -> (lo + i < length l)%nat ->
  at_ (slice lo hi l) i = at_ l (lo + i).
Proof. intros A B. unfold at_. apply slice_nth. lia. Qed.

Lemma sig_at Y j : signal o = Ok Y -> (j < n)%nat -> at_ Y j = sig o j.
Proof.
  intros E J. rewrite (signal_shaped o n SH) in E. injection E as <-.
  unfold at_. apply sig_list_nth. auto.
Qed.
Lemma sig_length Y : signal o = Ok Y -> length Y = n.
Proof.
  intro E. rewrite (signal_shaped o n SH) in E. injection E as <-. rewrite map_length, seq_length. auto.
Qed.
Lemma noise_length Y : np_sub (r_s2y (o_t o)) (r_s2ydark (o_t o)) = Ok Y -> length Y = n.
Proof.
  intro E. rewrite (noise_shaped o n SH) in E. injection E as <-. rewrite map_length, seq_length. auto.
Qed.

Lemma same_bind_ok {A B} (R : A -> A -> Prop) (S : B -> B -> Prop) (a b : res A) (f h : A -> res B) :
  same_res R a b -> (forall x y, a = Ok x -> R x y -> same_res S (f x) (h y)) ->
  same_res S (bind a f) (bind b h).
Proof. destruct a, b; simpl; intros; subst; auto; tauto. Qed.

Lemma R_units : g == p \/ has_light o -> same_res (times_q (g / p)) (responsivity o) (responsivity o').
Proof.
  intro D. unfold responsivity. eapply same_bind_ok; [apply signal_units|]. intros Y Y' SY EY.
  rewrite sens_units. destruct (index_sensitivity_max o) as [m|e] eqn:M; simpl; auto.
  apply linear_b0_units; auto; try (apply slice_same; auto).
  - apply (rs_up _ _ _ _ _ _ RS).
  - destruct D as [D|D]; [left; symmetry; auto|right].
    destruct (D m) as (j & J & N); [simpl; rewrite M; auto|].
    pose proof (dark_fit_det _ _ _ SH M) as L.
    assert (LU : length (r_up (o_t o)) = n) by (unfold shaped in SH; tauto).
    assert (LY := sig_length _ SY).
    rewrite !slice_length by lia. unfold index_sensitivity_min; split; [lia|]; exists j; split; [lia|].
    rewrite slice_at by (unfold index_sensitivity_min in *; lia). exact N.
Qed.

Lemma K_units : g == 1 \/ has_signal o -> same_res (times_q g) (gain o) (gain o').
Proof.
  intro D. unfold gain. eapply same_bind_ok; [apply signal_units|]. intros X X' SX EX.
  assert (S2 : same_res (times_list (g * g)) (np_sub (r_s2y (o_t o)) (r_s2ydark (o_t o)))
                 (np_sub (r_s2y (o_t o')) (r_s2ydark (o_t o')))).
  { unfold np_sub. eapply same_bind.
    - apply np_pairs_rel; [apply (rs_s2y _ _ _ _ _ _ RS)|apply (rs_s2ydark _ _ _ _ _ _ RS)].
    - intros x y H. simpl. eapply map_rel; [exact H|]. intros u v (E & F). unfold times_q in *. rewrite E, F. ring. }
  eapply same_bind_ok; [exact S2|]. intros Y Y' SY EY.
  rewrite sens_units. destruct (index_sensitivity_max o) as [m|e] eqn:M; simpl; auto.
  assert (L : same_res (times_q (g * g / g)) (linear_b0 (slice index_sensitivity_min (m + 1) X) (slice index_sensitivity_min (m + 1) Y))
     (linear_b0 (slice index_sensitivity_min (m + 1) X') (slice index_sensitivity_min (m + 1) Y'))).
  { apply linear_b0_units; auto using GG; try (apply slice_same; auto).
    destruct D as [D|D]; [left; rewrite D; reflexivity|right].
    destruct (D m) as (j & J & N); [simpl; rewrite M; auto|].
    pose proof (dark_fit_det _ _ _ SH M) as L.
    assert (LX := sig_length _ SX). assert (LY := noise_length _ SY).
    rewrite !slice_length by lia. unfold index_sensitivity_min; split; [lia|]; exists j; split; [lia|].
    rewrite slice_at by (unfold index_sensitivity_min in *; lia). change (index_sensitivity_min + j)%nat with j.
    rewrite (sig_at _ _ SX) by lia. exact N. }
  destruct (linear_b0 _ _), (linear_b0 _ _); simpl in *; auto.
  unfold times_q in *. rewrite L. field. apply NG.
Qed.

Definition nz := g == 1 \/ has_signal o.
Definition lt_ := g == p \/ has_light o.

Lemma inverse_K_units : nz -> same_res (times_x (1 / g)) (inverse_K o) (inverse_K o').
Proof.
  intro D. unfold inverse_K. eapply same_bind; [apply K_units; exact D|]. intros k k' E. cbn [same_res].
  apply times_x_iff. rewrite (xt_q _ _ _ E). apply xt_div_r. auto.
Qed.

Lemma ps : 0 < 1 / p. Proof. apply Qlt_shift_div_l; auto. rewrite Qmult_0_l. reflexivity. Qed.
Lemma gps : 0 < g / p. Proof. apply Qlt_shift_div_l; auto. rewrite Qmult_0_l. auto. Qed.
Lemma ts : 0 < 1 / t. Proof. apply Qlt_shift_div_l; auto. rewrite Qmult_0_l. reflexivity. Qed.

Lemma QE_units : nz -> lt_ -> same_res (times_x (1 / p)) (QE o) (QE o').
Proof.
  intros D D'. unfold QE. eapply same_bind; [apply R_units; exact D'|]. intros r r' ER.
  eapply same_bind; [apply K_units; exact D|]. intros k k' E. cbn [same_res]. apply times_x_iff.
  rewrite (xt_q _ _ _ E), (xt_q _ _ _ ER), xt_mul_r by apply gps. rewrite xt_div by (auto using gps).
  apply xt_ext. field. split; [apply NP|apply NG].
Qed.

Lemma u_p_sat_units : same_res (times_q p) (u_p_sat o) (u_p_sat o').
Proof.
  unfold u_p_sat. rewrite index_units. destruct (fst (index_u_ysat o)); simpl; auto.
  apply py_get_rel. apply (rs_up _ _ _ _ _ _ RS).
Qed.

Lemma times_x_same x y : times_x 1 x y <-> y = x.
Proof. rewrite times_x_iff, xt_one by reflexivity. tauto. Qed.

Lemma u_e_sat_units : nz -> lt_ -> u_e_sat o' = u_e_sat o.
Proof.
  intros D D'. unfold u_e_sat. symmetry. eapply eq_bind; [apply QE_units; auto|]. intros q q' EQ.
  eapply eq_bind; [apply u_p_sat_units|]. intros u u' EU. f_equal. symmetry.
  apply times_x_iff in EQ. subst q'. rewrite (xt_q _ _ _ EU), xt_mul by (auto using ps).
  rewrite (xt_one (1 / p * p)); auto. field. apply NP.
Qed.

(** ** Dark noise *)
Definition dn := g == 1 \/ (exists v, dark_value o n v) /\ above_floor g o n.

Lemma unique_units : (unique_count (r_texp (o_t o')) <=? 2)%nat = (unique_count (r_texp (o_t o)) <=? 2)%nat.
Proof.
  apply eq_true_iff_eq. rewrite !unique_count_le2. assert (H := rs_texp _ _ _ _ _ _ RS).
  split; [apply (times_two t)|apply (times_two' t)]; auto.
Qed.

Lemma linear_b_units ky d Y Y' : 0 < ky -> length Y = n -> graded_list ky d Y Y' ->
  (unique_count (r_texp (o_t o)) <=? 2)%nat = false ->
  same_res (fun u v => fst v == ky / t * fst u /\ snd v == ky * snd u + d)
    (linear_b (r_texp (o_t o)) Y) (linear_b (r_texp (o_t o')) Y').
Proof.
  intros KY LY H U.
  assert (N : ~ at_most_two (r_texp (o_t o))) by (intro X; apply unique_count_le2 in X; congruence).
  assert (N' : ~ at_most_two (r_texp (o_t o'))).
  { intro X. apply unique_count_le2 in X. rewrite unique_units in X. congruence. }
  destruct (dark_fit o n Y SH LY N) as (L & a & b & E & B).
  destruct (dark_fit o' n Y' SH') as (_ & a' & b' & E' & B'); auto.
  { rewrite <- (f2_length _ _ _ H). auto. }
  rewrite E, E'. simpl. eapply (best_line_unique _ _ _ (ky / t * a) (ky * b + d) a' b'); [|exact B'].
  assert (LT : length (r_texp (o_t o)) = n) by (unfold shaped in SH; tauto).
  eapply (best_line_times t ky d); [auto|auto| | |exact B].
  - intros i I. apply (at_rel (times_q t)); [apply (rs_texp _ _ _ _ _ _ RS)|lia].
  - intros i I. apply (at_rel (fun x y => y == ky * x + d)); [exact H|lia].
Qed.

Lemma times_graded k l l' : times_list k l l' -> graded_list k 0 l l'.
Proof. induction 1 as [|x y l l' E H IH]; constructor; auto. unfold times_q in E. rewrite E. ring. Qed.

Lemma raw_dark :
  same_res (times_q (g * g))
    (if (unique_count (r_texp (o_t o)) <=? 2)%nat then py_get (r_s2ydark (o_t o)) 0
     else fit <- linear_b (r_texp (o_t o)) (r_s2ydark (o_t o)) ;; Ok (snd fit))
    (if (unique_count (r_texp (o_t o')) <=? 2)%nat then py_get (r_s2ydark (o_t o')) 0
     else fit <- linear_b (r_texp (o_t o')) (r_s2ydark (o_t o')) ;; Ok (snd fit)).
Proof.
  rewrite unique_units. destruct (_ <=? 2)%nat eqn:U.
  - apply py_get_rel. apply (rs_s2ydark _ _ _ _ _ _ RS).
  - eapply same_bind.
    + apply (linear_b_units (g * g) 0); auto using GG; [unfold shaped in SH; tauto|].
      apply times_graded. apply (rs_s2ydark _ _ _ _ _ _ RS).
    + intros x y (_ & E). simpl. unfold times_q. rewrite E. ring.
Qed.

Lemma raw_value v : 
  (if (unique_count (r_texp (o_t o)) <=? 2)%nat then py_get (r_s2ydark (o_t o)) 0
     else fit <- linear_b (r_texp (o_t o)) (r_s2ydark (o_t o)) ;; Ok (snd fit)) = Ok v ->
  dark_value o n v.
Proof.
  destruct (unique_count (r_texp (o_t o)) <=? 2)%nat eqn:U.
  - intro E. apply unique_count_le2 in U. left. split; auto.
    destruct (r_s2ydark (o_t o)) as [|x l]; simpl in E; [discriminate|]. injection E as <-. reflexivity.
  - assert (N : ~ at_most_two (r_texp (o_t o))) by (intro X; apply unique_count_le2 in X; congruence).
    destruct (dark_fit o n (r_s2ydark (o_t o)) SH) as (L & a & b & E & B); auto.
    { unfold shaped in SH; tauto. }
    rewrite E. simpl. intro H. injection H as <-. right. split; eauto.
Qed.

Lemma dark_variance_units : g == 1 \/ above_floor g o n ->
  same_res (times_q (g * g)) (dark_variance o) (dark_variance o').
Proof.
  intro D. unfold dark_variance. eapply same_bind_ok; [apply raw_dark|]. intros x y Ex E. simpl.
  unfold times_q in *. destruct D as [D|D].
  - assert (GG1 : g * g == 1) by (rewrite D; reflexivity). rewrite GG1, Qmult_1_l in E.
    rewrite (Qle_bool_same _ _ _ _ (Qeq_refl (24 # 100)) E). rewrite GG1, Qmult_1_l.
    destruct (negb _); [reflexivity|auto].
  - destruct (D x (raw_value _ Ex)) as (A & B). rewrite <- E in B.
    apply Qle_bool_iff in A, B. rewrite A, B. simpl. auto.
Qed.

Definition fl := g == 1 \/ above_floor g o n.

Lemma sigma_y_dark_units : fl -> same_res (times_x g) (sigma_y_dark o) (sigma_y_dark o').
Proof.
  intro D. unfold sigma_y_dark. eapply same_bind; [apply dark_variance_units; auto|]. intros x y E.
  cbn [same_res]. apply times_x_iff. rewrite (xt_q _ _ _ E). apply xt_sqrt. auto.
Qed.

Lemma sigma_d_units : g == 1 -> sigma_d o' = sigma_d o.
Proof.
  intro D. unfold sigma_d. symmetry. eapply eq_bind; [apply sigma_y_dark_units; left; auto|]. intros s s' E.
  apply times_x_iff in E. rewrite (xt_one g) in E by auto. subst s'.
  eapply eq_bind; [apply K_units; left; auto|]. intros k k' F. unfold times_q in F.
  rewrite D, Qmult_1_l in F. rewrite (xq_same _ _ F). reflexivity.
Qed.

Lemma u_p_min_units : nz -> lt_ -> fl -> same_res (times_x p) (u_p_min o) (u_p_min o').
Proof.
  intros D D' F. unfold u_p_min. eapply same_bind; [apply QE_units; auto|]. intros q q' EQ.
  eapply same_bind; [apply sigma_y_dark_units; auto|]. intros s s' ES.
  eapply same_bind; [apply K_units; auto|]. intros k k' EK. cbn [same_res].
  apply times_x_iff. apply times_x_iff in EQ, ES. subst q' s'.
  rewrite (xt_q _ _ _ EK), (xt_div g g) by auto. rewrite (xt_one (g / g)) by (field; apply NG).
  rewrite xt_div_r by apply ps. rewrite xt_mul_l.
  - apply xt_ext. field. apply NP.
  - apply Qlt_shift_div_l; [apply ps|]. rewrite Qmult_0_l. reflexivity.
Qed.

Lemma u_e_min_units : nz -> lt_ -> fl -> u_e_min o' = u_e_min o.
Proof.
  intros D D' F. unfold u_e_min. symmetry. eapply eq_bind; [apply QE_units; auto|]. intros q q' EQ.
  eapply eq_bind; [apply u_p_min_units; auto|]. intros u u' EU. f_equal. symmetry.
  apply times_x_iff in EQ, EU. subst. rewrite xt_mul by (auto using ps).
  rewrite (xt_one (1 / p * p)); auto. field. apply NP.
Qed.

Lemma DR_units : nz -> lt_ -> fl -> DR o' = DR o.
Proof.
  intros D D' F. unfold DR. symmetry. eapply eq_bind; [apply u_p_sat_units|]. intros u u' EU.
  eapply eq_bind; [apply u_p_min_units; auto|]. intros m m' EM. f_equal. symmetry.
  apply times_x_iff in EM. subst. rewrite (xt_q _ _ _ EU), xt_div by auto.
  apply xt_one. field. apply NP.
Qed.

Lemma per_area_units k v v' : 0 < k -> same_res (times_x k) v v' ->
  same_res (same_opt (times_x k)) (per_area (o_area o) v) (per_area (o_area o') v').
Proof.
  intros K E. rewrite (rs_area _ _ _ _ _ _ RS). unfold per_area.
  destruct (o_area o) as [a|]; [|simpl; auto]. destruct (Qeq_bool a 0); [simpl; auto|].
  eapply same_bind; [exact E|]. intros x y F. simpl. apply times_x_iff in F. subst y.
  apply times_x_iff. apply xt_div_l. auto.
Qed.

(** ** Linearity *)
Lemma qdiv_units k j a b x y : 0 < j -> times_q k a x -> times_q j b y ->
  same_opt (times_q (k / j)) (qdiv_o a b) (qdiv_o x y).
Proof.
  intros J E F. unfold qdiv_o. rewrite (Qeq0_times _ _ _ J F).
  destruct (Qeq_bool b 0) eqn:Z; simpl; auto.
  assert (NJ : ~ j == 0) by (intro X; rewrite X in J; discriminate).
  assert (NB : ~ b == 0) by (intro X; apply Qeq_bool_iff in X; congruence).
  unfold times_q in *. rewrite E, F. field. auto.
Qed.

Lemma sum_rel (R : Q * Q -> Q * Q -> Prop) k (f : Q * Q -> Q) A B :
  Forall2 R A B -> (forall x y, R x y -> f y == k * f x) -> lsumq (map f B) == k * lsumq (map f A).
Proof. intros H E. apply lsumq_times. eapply map_rel; [exact H|]. exact E. Qed.

Lemma inv_times k y y' : ~ k == 0 -> times_q k y y' -> 1 / y' == 1 / k * (1 / y).
Proof.
  intros K E. unfold times_q in E. unfold Qdiv. rewrite E, Qinv_mult_distr, !Qmult_1_l. reflexivity.
Qed.

Lemma relative_units A B Y Y' : Forall2 (pairs_rel (times_q p) (times_q g)) A B -> times_list g Y Y' ->
  same_opt (fun u v => fst v == g / p * fst u /\ snd v == g * snd u) (relative_fit A Y) (relative_fit B Y').
Proof.
  intros H K. unfold relative_fit.
  assert (E : existsb (fun y => Qeq_bool y 0) Y' = existsb (fun y => Qeq_bool y 0) Y).
  { clear H. induction K as [|a b l l' F K IH]; simpl; auto.
    rewrite IH, (Qeq0_times _ _ _ G F). reflexivity. }
  rewrite E. destruct (existsb _ Y); [exact I|].
  pose proof NG as HG. pose proof NP as HP.
  assert (IV : forall a b, times_q g a b -> / b == / g * / a).
  { intros a b F. unfold times_q in F. rewrite F. apply Qinv_mult_distr. }
  assert (E1 := sum_rel _ (p / g) (fun q => fst q / snd q) A B H
    ltac:(intros x y (U & V); unfold times_q in U; unfold Qdiv; rewrite (IV _ _ V), U; ring)).
  assert (E2 := sum_rel _ (p / (g * g)) (fun q => fst q / (snd q * snd q)) A B H
    ltac:(intros x y (U & V); unfold times_q in U; unfold Qdiv; rewrite !Qinv_mult_distr, (IV _ _ V), U; ring)).
  assert (E3 := sum_rel _ (p * p / (g * g)) (fun q => (fst q / snd q) * (fst q / snd q)) A B H
    ltac:(intros x y (U & V); unfold times_q in U; unfold Qdiv; rewrite !Qinv_mult_distr, (IV _ _ V), U; ring)).
  assert (E4 : lsumq (map (fun y => 1 / y) Y') == 1 / g * lsumq (map (fun y => 1 / y) Y)).
  { apply lsumq_times. eapply map_rel; [exact K|]. intros x y F. unfold times_q, Qdiv. rewrite (IV _ _ F). ring. }
  assert (E5 : lsumq (map (fun y => 1 / (y * y)) Y') == 1 / (g * g) * lsumq (map (fun y => 1 / (y * y)) Y)).
  { apply lsumq_times. eapply map_rel; [exact K|]. intros x y F. unfold times_q, Qdiv.
    rewrite !Qinv_mult_distr, (IV _ _ F). ring. }
  cbv zeta.
  set (b1 := lsumq (map (fun q => fst q / snd q) A)) in *.
  set (a1 := lsumq (map (fun q => fst q / snd q) B)) in *.
  set (b2 := lsumq (map (fun q => fst q / (snd q * snd q)) A)) in *.
  set (a2 := lsumq (map (fun q => fst q / (snd q * snd q)) B)) in *.
  set (b3 := lsumq (map (fun q => (fst q / snd q) * (fst q / snd q)) A)) in *.
  set (a3 := lsumq (map (fun q => (fst q / snd q) * (fst q / snd q)) B)) in *.
  set (b4 := lsumq (map (fun y => 1 / y) Y)) in *. set (a4 := lsumq (map (fun y => 1 / y) Y')) in *.
  set (b5 := lsumq (map (fun y => 1 / (y * y)) Y)) in *.
  set (a5 := lsumq (map (fun y => 1 / (y * y)) Y')) in *.
  clearbody a1 a2 a3 a4 a5 b1 b2 b3 b4 b5.
  set (k1 := p * p / (g * g * g)). set (k2 := p * p / (g * g * g * g)).
  assert (K2 : 0 < k2).
  { unfold k2. apply Qlt_shift_div_l; [repeat apply Qmult_lt_0_compat; auto|].
    rewrite Qmult_0_l. apply Qmult_lt_0_compat; auto. }
  assert (S : same_opt (times_q (k1 / k2)) (qdiv_o (b1 * b2 - b3 * b4) (b2 * b2 - b3 * b5))
                           (qdiv_o (a1 * a2 - a3 * a4) (a2 * a2 - a3 * a5))).
  { apply qdiv_units; auto; unfold times_q, k1, k2; rewrite ?E1, ?E2, ?E3, ?E4, ?E5; field; auto. }
  destruct (qdiv_o (b1 * b2 - b3 * b4) _) as [x|], (qdiv_o (a1 * a2 - a3 * a4) _) as [y|];
    simpl in S; try tauto.
  assert (S' : y == g * x) by (unfold times_q in S; rewrite S; unfold k1, k2; field; auto).
  assert (K3 : 0 < p * p / (g * g)).
  { apply Qlt_shift_div_l; [apply GG|]. rewrite Qmult_0_l. apply Qmult_lt_0_compat; auto. }
  assert (S2 : same_opt (times_q (p / g / (p * p / (g * g)))) (qdiv_o (b1 - x * b2) b3) (qdiv_o (a1 - y * a2) a3)).
  { apply qdiv_units; auto; unfold times_q; rewrite ?E1, ?E2, ?E3, ?S'; field; auto. }
  destruct (qdiv_o (b1 - x * b2) _), (qdiv_o (a1 - y * a2) _); simpl in *; try tauto.
  split; auto. unfold times_q in S2. rewrite S2. field. auto.
Qed.

Lemma deviation_units ab ab' x x' y y' : fst ab' == g / p * fst ab -> snd ab' == g * snd ab ->
  times_q p x x' -> times_q g y y' -> same_opt Qeq (deviation ab x y) (deviation ab' x' y').
Proof.
  intros A B E F. unfold deviation, times_q in *.
  assert (S : same_opt (times_q (g / g)) (qdiv_o (100 * (y - (fst ab * x + snd ab))) (fst ab * x + snd ab))
     (qdiv_o (100 * (y' - (fst ab' * x' + snd ab'))) (fst ab' * x' + snd ab'))).
  { pose proof NP. apply qdiv_units; auto; unfold times_q; rewrite A, B, E, ?F; field; auto. }
  destruct (qdiv_o _ _), (qdiv_o _ _); simpl in *; auto. unfold times_q in S. rewrite S. field. apply NG.
Qed.

Lemma linearity_units : same_res (times_lin g p) (linearity o) (linearity o').
Proof.
  pose proof (rs_up _ _ _ _ _ _ RS) as H. unfold linearity.
  eapply same_bind; [apply signal_units|]. intros Y Y' EY.
  rewrite lin_max_units, lin_min_units.
  destruct (index_linearity_max o) as [hi|]; simpl; auto.
  destruct (index_linearity_min o) as [lo|]; simpl; auto.
  eapply same_bind; [apply np_pairs_rel; apply slice_same; [exact H|exact EY]|]. intros A A' EA.
  eapply same_bind; [apply np_pairs_rel; [exact H|exact EY]|]. intros B B' EB.
  assert (RF := relative_units A A' (slice lo (hi + 1) Y) (slice lo (hi + 1) Y') EA
                  ltac:(apply slice_same; auto)).
  set (fit := relative_fit A _) in *. set (fit' := relative_fit A' _) in *.
  assert (D : Forall2 (same_opt Qeq)
     (map (fun q => match fit with Some ab => deviation ab (fst q) (snd q) | None => None end) B)
     (map (fun q => match fit' with Some ab => deviation ab (fst q) (snd q) | None => None end) B')).
  { eapply map_rel; [exact EB|]. intros x y (E1 & E2).
    destruct fit, fit'; simpl in RF; try tauto. destruct RF. apply deviation_units; auto. }
  eapply same_bind; [apply np_extreme_same; [exact Qmin_same|apply slice_same; exact D]|].
  intros mn mn' Emn.
  eapply same_bind; [apply np_extreme_same; [exact Qmax_same|apply slice_same; exact D]|].
  intros mx mx' Emx. simpl. split; [exact RF|]. split; [exact D|]. split; assumption.
Qed.

(** ** Dark current *)
Lemma e9 : 0 < inject_Z (10 ^ 9). Proof. reflexivity. Qed.

Lemma gts : 0 < g / t. Proof. apply Qlt_shift_div_l; auto. rewrite Qmult_0_l. auto. Qed.
Lemma ggts : 0 < g * g / t. Proof. apply Qlt_shift_div_l; auto. rewrite Qmult_0_l. apply GG. Qed.

Lemma u_I_mean_DN_units : same_res (times_x (g / t)) (u_I_mean_DN o) (u_I_mean_DN o').
Proof.
  unfold u_I_mean_DN. rewrite unique_units. destruct (_ <=? 2)%nat eqn:U; [reflexivity|].
  eapply same_bind.
  - apply (linear_b_units g c); auto; [unfold shaped in SH; tauto|apply (rs_uydark _ _ _ _ _ _ RS)].
  - intros x y (E & _). cbn [same_res]. apply times_x_iff. rewrite (xt_q _ _ _ E). apply xt_mul_l, gts.
Qed.
Lemma u_I_var_DN_units : nz -> same_res (times_x (g / t)) (u_I_var_DN o) (u_I_var_DN o').
Proof.
  intro D. unfold u_I_var_DN. rewrite unique_units. destruct (_ <=? 2)%nat eqn:U; [reflexivity|].
  eapply same_bind.
  - apply (linear_b_units (g * g) 0); auto using GG; [unfold shaped in SH; tauto|].
    apply times_graded, (rs_s2ydark _ _ _ _ _ _ RS).
  - intros x y (E & _).
    rewrite (Qle_rel (g * g / t) 0 (fst x) 0 (fst y)); [|apply ggts|unfold times_q; ring|exact E].
    destruct (negb _); [reflexivity|].
    eapply same_bind; [apply K_units; exact D|]. intros k k' EK. cbn [same_res]. apply times_x_iff.
    rewrite (xt_q _ _ _ E), (xt_q _ _ _ EK), xt_div by (auto using ggts).
    rewrite xt_mul_l.
    + apply xt_ext. field. split; [apply NT|apply NG].
    + apply Qlt_shift_div_l; auto. rewrite Qmult_0_l. apply ggts.
Qed.

Lemma per_K_units (u u' : res xr) : nz -> same_res (times_x (g / t)) u u' ->
  same_res (times_x (1 / t))
    (ui <- u ;; match ui with XNan => Ok XNan | _ => k <- gain o ;; Ok (xdiv ui (xq k)) end)
    (ui <- u' ;; match ui with XNan => Ok XNan | _ => k <- gain o' ;; Ok (xdiv ui (xq k)) end).
Proof.
  intros D E. eapply same_bind; [exact E|]. intros x y F.
  assert (X : same_res (times_x (1 / t)) (k <- gain o ;; Ok (xdiv x (xq k))) (k <- gain o' ;; Ok (xdiv y (xq k)))).
  { eapply same_bind; [apply K_units; exact D|]. intros k k' EK. cbn [same_res]. apply times_x_iff.
    apply times_x_iff in F. subst y. rewrite (xt_q _ _ _ EK), xt_div by (auto using gts).
    apply xt_ext. field. split; [apply NT|apply NG]. }
  destruct x; simpl in F; subst y; auto; reflexivity.
Qed.

(** ** Spatial *)
Lemma minus_times k x y u v : times_q k x u -> times_q k y v -> times_q k (x - y) (u - v).
Proof. unfold times_q. intros E F. rewrite E, F. ring. Qed.
Lemma olift2_times k f a b x y : (forall a b x y, times_q k a x -> times_q k b y -> times_q k (f a b) (f x y)) ->
  same_opt (times_q k) a x -> same_opt (times_q k) b y -> same_opt (times_q k) (olift2 f a b) (olift2 f x y).
Proof. intros F. destruct a, b, x, y; simpl; intros; auto; tauto. Qed.
Lemma omap_times k f a x : (forall a x, times_q k a x -> times_q k (f a) (f x)) ->
  same_opt (times_q k) a x -> same_opt (times_q k) (omap f a) (omap f x).
Proof. intros F. destruct a, x; simpl; intros; auto; tauto. Qed.

Lemma total_times s s' : graded_series g c s s' -> same_opt (times_q (g * g))
  (olift2 Qminus (sd_avg_var s) (omap (fun v => v / qn (sd_L s)) (sd_var_mean s)))
  (olift2 Qminus (sd_avg_var s') (omap (fun v => v / qn (sd_L s')) (sd_var_mean s'))).
Proof.
  intros (L & _ & _ & _ & V & A & _). rewrite L. apply olift2_times; [apply minus_times|exact A|].
  apply omap_times; [|exact V]. intros a x E. unfold times_q, Qdiv in *. rewrite E. ring.
Qed.

Lemma s_2_y_units : same_opt (times_q (g * g)) (s_2_y o) (s_2_y o').
Proof. apply total_times, (rs_bright _ _ _ _ _ _ RS). Qed.
Lemma s_2_y_dark_units : same_opt (times_q (g * g)) (s_2_y_dark o) (s_2_y_dark o').
Proof. apply total_times, (rs_dark _ _ _ _ _ _ RS). Qed.

Lemma split_times k (a b d a' b' d' : option Q) (r1 r2 : res Q) :
  same_opt (times_q k) a a' -> same_opt (times_q k) b b' -> same_opt (times_q k) d d' ->
  same_res (same_opt (times_q k))
    (x <- r1 ;; y <- r2 ;; Ok (olift2 (fun u v => x * u - y * v) a (olift2 Qminus b d)))
    (x <- r1 ;; y <- r2 ;; Ok (olift2 (fun u v => x * u - y * v) a' (olift2 Qminus b' d'))).
Proof.
  intros A B C. destruct r1 as [x|]; simpl; auto. destruct r2 as [y|]; simpl; auto.
  apply olift2_times; [|exact A|apply olift2_times; [apply minus_times|exact B|exact C]].
  intros u v s w E F. unfold times_q in *. rewrite E, F. ring.
Qed.
Lemma pixel_times k (a b d a' b' d' : option Q) (r : res Q) :
  same_opt (times_q k) a a' -> same_opt (times_q k) b b' -> same_opt (times_q k) d d' ->
  same_res (same_opt (times_q k))
    (x <- r ;; Ok (omap (fun u => x * u) (olift2 Qminus (olift2 Qminus a b) d)))
    (x <- r ;; Ok (omap (fun u => x * u) (olift2 Qminus (olift2 Qminus a' b') d'))).
Proof.
  intros A B C. destruct r as [x|]; simpl; auto.
  apply omap_times; [intros u v E; unfold times_q in *; rewrite E; ring|].
  apply olift2_times; [apply minus_times|apply olift2_times; [apply minus_times|exact A|exact B]|exact C].
Qed.

Lemma row_units : same_res (same_opt (times_q (g * g))) (s_2_y_row o) (s_2_y_row o').
Proof.
  pose proof s_2_y_units as S. destruct (rs_bright _ _ _ _ _ _ RS) as (_ & M & N & _ & _ & _ & C & R).
  unfold s_2_y_row, dimM, dimN, bright. rewrite M, N. apply split_times; auto.
Qed.
Lemma row_dark_units : same_res (same_opt (times_q (g * g))) (s_2_y_row_dark o) (s_2_y_row_dark o').
Proof.
  pose proof s_2_y_dark_units as S. destruct (rs_dark _ _ _ _ _ _ RS) as (_ & M & N & _ & _ & _ & C & R).
  unfold s_2_y_row_dark, dimM, dimN, dark. rewrite M, N. apply split_times; auto.
Qed.
Lemma col_units : same_res (same_opt (times_q (g * g))) (s_2_y_col o) (s_2_y_col o').
Proof.
  pose proof s_2_y_units as S. destruct (rs_bright _ _ _ _ _ _ RS) as (_ & M & N & _ & _ & _ & C & R).
  unfold s_2_y_col, dimM, dimN, bright. rewrite M, N. apply split_times; auto.
Qed.
Lemma col_dark_units : same_res (same_opt (times_q (g * g))) (s_2_y_col_dark o) (s_2_y_col_dark o').
Proof.
  pose proof s_2_y_dark_units as S. destruct (rs_dark _ _ _ _ _ _ RS) as (_ & M & N & _ & _ & _ & C & R).
  unfold s_2_y_col_dark, dimM, dimN, dark. rewrite M, N. apply split_times; auto.
Qed.
Lemma pix_units : same_res (same_opt (times_q (g * g))) (s_2_y_pixel o) (s_2_y_pixel o').
Proof.
  pose proof s_2_y_units as S. destruct (rs_bright _ _ _ _ _ _ RS) as (_ & M & N & _ & _ & _ & C & R).
  unfold s_2_y_pixel, dimM, dimN, bright. rewrite M, N. apply pixel_times; auto.
Qed.
Lemma pix_dark_units : same_res (same_opt (times_q (g * g))) (s_2_y_pixel_dark o) (s_2_y_pixel_dark o').
Proof.
  pose proof s_2_y_dark_units as S. destruct (rs_dark _ _ _ _ _ _ RS) as (_ & M & N & _ & _ & _ & C & R).
  unfold s_2_y_pixel_dark, dimM, dimN, dark. rewrite M, N. apply pixel_times; auto.
Qed.

Lemma dsnu_units v v' : nz -> same_opt (times_q (g * g)) v v' -> dsnu_of o' v' = dsnu_of o v.
Proof.
  intros D E. unfold dsnu_of. rewrite (xoq_times _ _ _ E), xt_lt0 by apply GG.
  destruct (xlt0 (xoq v)); auto. symmetry.
  eapply eq_bind; [apply K_units; exact D|]. intros k k' EK. f_equal. symmetry.
  rewrite xt_sqrt, (xt_q _ _ _ EK), xt_div by auto. apply xt_one. field. apply NG.
Qed.
Lemma dsnu_units_m (r r' : res (option Q)) : nz -> same_res (same_opt (times_q (g * g))) r r' ->
  (v <- r' ;; dsnu_of o' v) = (v <- r ;; dsnu_of o v).
Proof. intros D E. symmetry. eapply eq_bind; [exact E|]. intros x y F. symmetry. apply dsnu_units; auto. Qed.

Lemma prnu_units v v' d d' : same_opt (times_q (g * g)) v v' -> same_opt (times_q (g * g)) d d' ->
  prnu_of o' v' d' = prnu_of o v d.
Proof.
  intros E F. unfold prnu_of. rewrite (xoq_times _ _ _ E), (xoq_times _ _ _ F), xt_sub, xt_sqrt by auto.
  rewrite xt_mul_l by auto.
  destruct (rs_bright _ _ _ _ _ _ RS) as (_ & _ & _ & MB & _). destruct (rs_dark _ _ _ _ _ _ RS) as (_ & _ & _ & MD & _).
  assert (X : xsub (xq (sd_avg_mean (bright o'))) (xq (sd_avg_mean (dark o'))) =
              xt g (xsub (xq (sd_avg_mean (bright o))) (xq (sd_avg_mean (dark o))))).
  { unfold bright, dark. rewrite (xq_same _ _ MB), (xq_same _ _ MD). simpl. f_equal.
    rewrite !Q2R_plus, !Q2R_mult. ring. }
  rewrite X, xt_div by auto. apply xt_one. field. apply NG.
Qed.
Lemma prnu_units_m (r r' d d' : res (option Q)) : same_res (same_opt (times_q (g * g))) r r' ->
  same_res (same_opt (times_q (g * g))) d d' ->
  (v <- r' ;; w <- d' ;; Ok (prnu_of o' v w)) = (v <- r ;; w <- d ;; Ok (prnu_of o v w)).
Proof.
  intros E F. symmetry. eapply eq_bind; [exact E|]. intros x y X. eapply eq_bind; [exact F|].
  intros u v Y. f_equal. symmetry. apply prnu_units; auto.
Qed.

(** ** All figures *)
Lemma factor_grey : forall k, factor g p t (mkDim k 0 0) == g ^ k.
Proof. intro k. unfold factor. simpl. ring. Qed.

Lemma sq_factor : factor g p t (mkDim 2 0 0) == g * g.
Proof. unfold factor. simpl. ring. Qed.

Lemma times_q_ext k j x y : k == j -> times_q k x y -> times_q j x y.
Proof. unfold times_q. intros E F. rewrite <- E. auto. Qed.
Lemma times_x_ext k j x y : k == j -> times_x k x y -> times_x j x y.
Proof. rewrite !times_x_iff. intros E ->. apply xt_ext. auto. Qed.
Lemma same_res_impl {A} (R S : A -> A -> Prop) a b : (forall x y, R x y -> S x y) -> same_res R a b -> same_res S a b.
Proof. intro H. destruct a, b; simpl; auto. Qed.
Lemma same_opt_impl {A} (R S : A -> A -> Prop) a b : (forall x y, R x y -> S x y) -> same_opt R a b -> same_opt S a b.
Proof. intro H. destruct a, b; simpl; auto. Qed.

Lemma vq k j a b : k == j -> same_res (times_q k) a b -> same_res (times_q j) a b.
Proof. intro E. apply same_res_impl. intros x y. apply times_q_ext. auto. Qed.
Lemma vx k j a b : k == j -> same_res (times_x k) a b -> same_res (times_x j) a b.
Proof. intro E. apply same_res_impl. intros x y. apply times_x_ext. auto. Qed.
Lemma vox k j a b : k == j -> same_res (same_opt (times_x k)) a b -> same_res (same_opt (times_x j)) a b.
Proof. intro E. apply same_res_impl. intros x y. apply same_opt_impl. intros u v. apply times_x_ext. auto. Qed.
Lemma voq k j a b : k == j -> same_res (same_opt (times_q k)) a b -> same_res (same_opt (times_q j)) a b.
Proof. intro E. apply same_res_impl. intros x y. apply same_opt_impl. intros u v. apply times_q_ext. auto. Qed.
Lemma vx_same j a b : 1 == j -> b = a -> same_res (times_x j) a b.
Proof.
  intros E ->. apply (vx 1); auto. destruct a; simpl; auto. apply times_x_same. auto.
Qed.
Lemma voq_same a b : same_res (same_opt Qeq) a b -> forall j, 1 == j -> same_res (same_opt (times_q j)) a b.
Proof.
  intros E j J. apply (voq 1); auto. revert E. apply same_res_impl. intros x y. apply same_opt_impl.
  intros u v H. unfold times_q. rewrite H. ring.
Qed.

Ltac dims := unfold factor; simpl; try ring;
  first [field; repeat split; auto using NG, NP, NT | idtac].

Theorem figures_units f :
  g == 1 \/ has_signal o -> g == p \/ has_light o ->
  uses_dark_noise f = false \/ g == 1 \/ (is_sigma_d f = false /\ above_floor g o n) ->
  follows g p t f o o'.
Proof.
  intros D L F. unfold follows.
  assert (FL : uses_dark_noise f = true -> fl).
  { intro H. unfold fl. destruct F as [F|[F|(_ & F)]]; [congruence|auto|auto]. }
  pose proof NG. pose proof NP. pose proof NT.
  destruct f; simpl dimension_of; cbn [value_of times_value];
    first [specialize (FL eq_refl) | clear FL].
  - symmetry. apply index_units.
  - symmetry. apply sens_units.
  - eapply vq; [|apply R_units; auto]. dims.
  - eapply vq; [|apply K_units; auto]. dims.
  - eapply vx; [|apply inverse_K_units; auto]. dims.
  - eapply vx; [|apply QE_units; auto]. dims.
  - eapply vx; [|apply sigma_y_dark_units; auto]. dims.
  - destruct F as [F|[F|(F & _)]]; try discriminate. apply vx_same; [dims|]. apply sigma_d_units; auto.
  - eapply vx; [|apply u_p_min_units; auto]. dims.
  - eapply vox; [|apply per_area_units; [exact P|apply u_p_min_units; auto]]. dims.
  - apply vx_same; [dims|]. apply u_e_min_units; auto.
  - eapply vox; [|apply (per_area_units 1); [reflexivity|apply vx_same; [reflexivity|apply u_e_min_units; auto]]]. dims.
  - eapply vq; [|apply u_p_sat_units; auto]. dims.
  - eapply vox; [|apply (per_area_units p); [exact P|]]; [dims|].
    eapply same_bind; [apply u_p_sat_units|]. intros x y E. cbn [same_res]. apply times_x_iff, xt_q, E.
  - apply vx_same; [dims|]. apply u_e_sat_units; auto.
  - eapply vox; [|apply (per_area_units 1); [reflexivity|apply vx_same; [reflexivity|apply u_e_sat_units; auto]]]. dims.
  - apply vx_same; [dims|]. unfold SNR_max. rewrite u_e_sat_units; auto.
  - apply vx_same; [dims|]. unfold SNR_max_dB, SNR_max. rewrite u_e_sat_units; auto.
  - apply vx_same; [dims|]. unfold SNR_max_bit, SNR_max. rewrite u_e_sat_units; auto.
  - apply vx_same; [dims|]. unfold inverse_SNR_max, SNR_max. rewrite u_e_sat_units; auto.
  - apply vx_same; [dims|]. apply DR_units; auto.
  - apply vx_same; [dims|]. unfold DR_dB. rewrite DR_units; auto.
  - symmetry. apply lin_min_units.
  - symmetry. apply lin_max_units.
  - apply linearity_units.
  - apply voq_same; [|dims]. unfold LE_min. eapply same_bind; [apply linearity_units|].
    intros x y (_ & _ & E & _). exact E.
  - apply voq_same; [|dims]. unfold LE_max. eapply same_bind; [apply linearity_units|].
    intros x y (_ & _ & _ & E). exact E.
  - eapply vx; [|apply u_I_var_DN_units; auto]. dims.
  - eapply vx; [|apply per_K_units; [exact D|apply u_I_var_DN_units; auto]]. dims.
  - eapply vx; [|apply u_I_mean_DN_units; auto]. dims.
  - eapply vx; [|apply per_K_units; [exact D|apply u_I_mean_DN_units; auto]]. dims.
  - eapply voq; [|exact s_2_y_units]. dims.
  - eapply voq; [|exact s_2_y_dark_units]. dims.
  - eapply voq; [|apply row_units]. dims.
  - eapply voq; [|apply row_dark_units]. dims.
  - eapply voq; [|apply col_units]. dims.
  - eapply voq; [|apply col_dark_units]. dims.
  - eapply voq; [|apply pix_units]. dims.
  - eapply voq; [|apply pix_dark_units]. dims.
  - apply vx_same; [dims|]. apply dsnu_units; [exact D|apply s_2_y_dark_units].
  - eapply (vx g); [dims|]. unfold DSNU1288_DN. cbn [same_res].
    rewrite (xoq_times _ _ _ s_2_y_dark_units), xt_lt0 by apply GG.
    destruct (xlt0 (xoq (s_2_y_dark o))); [reflexivity|]. rewrite xt_sqrt by auto. apply times_x_iff. reflexivity.
  - apply vx_same; [dims|]. apply dsnu_units_m; [exact D|apply row_dark_units].
  - apply vx_same; [dims|]. apply dsnu_units_m; [exact D|apply col_dark_units].
  - apply vx_same; [dims|]. apply dsnu_units_m; [exact D|apply pix_dark_units].
  - apply vx_same; [dims|]. unfold PRNU1288. f_equal. apply prnu_units; [apply s_2_y_units|apply s_2_y_dark_units].
  - apply vx_same; [dims|]. apply prnu_units_m; [apply row_units|apply row_dark_units].
  - apply vx_same; [dims|]. apply prnu_units_m; [apply col_units|apply col_dark_units].
  - apply vx_same; [dims|]. apply prnu_units_m; [apply pix_units|apply pix_dark_units].
Qed.
End Units.
