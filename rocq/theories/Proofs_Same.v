(** The figures of Results1288 depend on the data only through their values: equal
    rationals, whatever the fraction, give equal figures. *)
From Coq Require Import List Bool Arith ZArith QArith Reals Qreals Lia Setoid Morphisms.
From Verif Require Import Base_Prelude Base_Sum Base_Xreal Model_Images Model_Data
  Model_Results Spec_Results Spec_Emva.
Import ListNotations.
Open Scope Q_scope.

Definition qlist : list Q -> list Q -> Prop := Forall2 Qeq.

Lemma f2_length {A B} (R : A -> B -> Prop) l l' : Forall2 R l l' -> length l = length l'.
Proof. induction 1; simpl; congruence. Qed.

Lemma same_bind {A B} (R : A -> A -> Prop) (S : B -> B -> Prop) (a b : res A) (f g : A -> res B) :
  same_res R a b -> (forall x y, R x y -> same_res S (f x) (g y)) ->
  same_res S (bind a f) (bind b g).
Proof. destruct a, b; simpl; intros; subst; auto; tauto. Qed.

Lemma eq_bind {A B} (R : A -> A -> Prop) (a b : res A) (f g : A -> res B) :
  same_res R a b -> (forall x y, R x y -> f x = g y) -> bind a f = bind b g.
Proof. destruct a, b; simpl; intros; subst; auto; try tauto; congruence. Qed.

Lemma same_eq {A} (a b : res A) : same_res eq a b <-> a = b.
Proof. destruct a, b; simpl; split; intro H; try congruence; tauto. Qed.

Lemma same_refl_eq {A} (R : A -> A -> Prop) (a b : res A) :
  (forall x, R x x) -> a = b -> same_res R a b.
Proof. intros H <-. destruct a; simpl; auto. Qed.

Lemma Qle_bool_same a b c d : a == b -> c == d -> Qle_bool a c = Qle_bool b d.
Proof. intros H G. rewrite H, G. reflexivity. Qed.
Lemma Qeq_bool_same a b c d : a == b -> c == d -> Qeq_bool a c = Qeq_bool b d.
Proof. intros H G. rewrite H, G. reflexivity. Qed.
Lemma xq_same a b : a == b -> xq a = xq b.
Proof. intro H. unfold xq. f_equal. apply Qeq_eqR. auto. Qed.
Lemma xoq_same a b : same_opt Qeq a b -> xoq a = xoq b.
Proof. destruct a, b; simpl; intro H; try tauto. apply xq_same. auto. Qed.

(** ** Lists *)
Lemma map_same {A} (R : A -> A -> Prop) (f g : A -> Q) l l' :
  Forall2 R l l' -> (forall x y, R x y -> f x == g y) -> qlist (map f l) (map g l').
Proof. intros H G. induction H; simpl; constructor; auto. Qed.

Lemma lsumq_same l l' : qlist l l' -> lsumq l == lsumq l'.
Proof. induction 1 as [|x y l l' E H IH]; simpl; [reflexivity|]. rewrite E, IH. reflexivity. Qed.

Lemma combine_same a b : qlist a b -> forall c d, qlist c d ->
  Forall2 same_pair (combine a c) (combine b d).
Proof.
  induction 1 as [|x y a b E H IH]; intros c d G; simpl; [constructor|].
  destruct G; constructor; auto. split; auto.
Qed.

Lemma np_pairs_same a b c d : qlist a b -> qlist c d ->
  same_res (Forall2 same_pair) (np_pairs a c) (np_pairs b d).
Proof.
  intros H G. unfold np_pairs. rewrite (f2_length _ _ _ H), (f2_length _ _ _ G).
  destruct (length b =? length d)%nat; [apply combine_same; auto|].
  assert (B1 : forall x y, x == y -> Forall2 same_pair (map (fun z => (x, z)) c) (map (fun z => (y, z)) d)).
  { intros x y E. clear H. induction G; simpl; constructor; auto. split; auto. }
  assert (B2 : forall x y, x == y -> Forall2 same_pair (map (fun z => (z, x)) a) (map (fun z => (z, y)) b)).
  { intros x y E. clear G B1. induction H; simpl; constructor; auto. split; auto. }
  destruct H as [|x y a b E H]; [|destruct H as [|x' y' a b E' H]].
  - destruct G as [|u v c d E2 G]; [reflexivity|]. destruct G; simpl; auto.
  - simpl. apply B1. auto.
  - destruct G as [|u v c d E2 G]; [reflexivity|]. destruct G; simpl; auto.
    constructor; [split; auto|]. constructor; [split; auto|]. specialize (B2 u v E2). simpl in B2.
    inversion B2 as [|? ? ? ? _ B3]; subst. inversion B3; subst. auto.
Qed.

Lemma np_sub_same a b c d : qlist a b -> qlist c d ->
  same_res qlist (np_sub a c) (np_sub b d).
Proof.
  intros H G. unfold np_sub. eapply same_bind; [apply np_pairs_same; eauto|].
  intros x y E. simpl. eapply map_same; [exact E|].
  intros p q (E1 & E2). simpl. rewrite E1, E2. reflexivity.
Qed.

Lemma nth_error_same l l' : qlist l l' -> forall i, same_opt Qeq (nth_error l i) (nth_error l' i).
Proof. induction 1; intros [|i]; simpl; auto. Qed.

Lemma of_option_same e (a b : option Q) : same_opt Qeq a b ->
  same_res Qeq (of_option e a) (of_option e b).
Proof. destruct a, b; simpl; auto; tauto. Qed.

Lemma py_get_same l l' i : qlist l l' -> same_res Qeq (py_get l i) (py_get l' i).
Proof.
  intro H. unfold py_get. rewrite (f2_length _ _ _ H).
  set (j := (if (i <? 0)%Z then _ else _)). destruct (j <? 0)%Z; [reflexivity|].
  apply of_option_same, nth_error_same; auto.
Qed.

Lemma firstn_f2 {A} (R : A -> A -> Prop) l l' : Forall2 R l l' ->
  forall k, Forall2 R (firstn k l) (firstn k l').
Proof. induction 1; intros [|k]; simpl; constructor; auto. Qed.
Lemma skipn_f2 {A} (R : A -> A -> Prop) l l' : Forall2 R l l' ->
  forall k, Forall2 R (skipn k l) (skipn k l').
Proof. induction 1; intros [|k]; simpl; auto. Qed.
Lemma slice_same {A} (R : A -> A -> Prop) lo hi l l' :
  Forall2 R l l' -> Forall2 R (slice lo hi l) (slice lo hi l').
Proof. intro H. apply firstn_f2, skipn_f2, H. Qed.

Lemma argwhere_same (f g : Q -> bool) l l' : qlist l l' ->
  (forall x y, x == y -> f x = g y) -> argwhere f l = argwhere g l'.
Proof.
  intros H G. unfold argwhere. rewrite (f2_length _ _ _ H). generalize 0%nat as a.
  induction H as [|x y l l' E H IH]; intro a; simpl; auto.
  rewrite (G x y E). destruct (g y); simpl; rewrite IH; reflexivity.
Qed.

(** ** Index *)
Lemma sat_loop_same s s' : qlist s s' -> forall k mx mx' mi, mx == mx' ->
  sat_loop s k mx mi = sat_loop s' k mx' mi.
Proof.
  intros H k. induction k as [|i IH]; intros mx mx' mi E; simpl; auto.
  eapply eq_bind; [apply of_option_same, nth_error_same; eauto|].
  intros a b Eab. unfold Qge_b. rewrite (Qle_bool_same _ _ _ _ E Eab).
  destruct (Qle_bool mx' b); [apply IH; auto|].
  eapply eq_bind; [apply of_option_same, nth_error_same; eauto|].
  intros c d Ecd. rewrite (Qle_bool_same _ _ _ _ E Ecd). destruct (Qle_bool mx' d); auto.
Qed.

Definition same_t (a b : rtemporal) : Prop :=
  qlist (r_texp a) (r_texp b) /\ qlist (r_up a) (r_up b) /\ qlist (r_uy a) (r_uy b) /\
  qlist (r_s2y a) (r_s2y b) /\ qlist (r_uydark a) (r_uydark b) /\ qlist (r_s2ydark a) (r_s2ydark b).
Definition same_s (a b : sdata) : Prop :=
  sd_L a = sd_L b /\ sd_M a = sd_M b /\ sd_N a = sd_N b /\
  sd_avg_mean a == sd_avg_mean b /\ same_opt Qeq (sd_var_mean a) (sd_var_mean b) /\
  same_opt Qeq (sd_avg_var a) (sd_avg_var b) /\
  same_opt Qeq (sd_avg_var_cav a) (sd_avg_var_cav b) /\
  same_opt Qeq (sd_avg_var_rav a) (sd_avg_var_rav b).

Section Same.
Context (o o' : robj).
Hypothesis HT : same_t (o_t o) (o_t o').
Hypothesis HD : same_s (sp_dark (o_s o)) (sp_dark (o_s o')).
Hypothesis HB : same_s (sp_bright (o_s o)) (sp_bright (o_s o')).
Hypothesis HA : o_area o = o_area o'.
Hypothesis HI : o_sat o = o_sat o'.

Lemma index_same : fst (index_u_ysat o) = fst (index_u_ysat o').
Proof.
  destruct HT as (_ & _ & _ & H & _). unfold index_u_ysat. rewrite HI.
  rewrite (sat_loop_same _ _ H _ 0 0 0%nat (Qeq_refl 0)), (f2_length _ _ _ H).
  destruct (o_sat o') as [z|]; [destruct (negb _); auto|]; destruct (sat_loop _ _ _ _); auto.
Qed.

Lemma signal_same : same_res qlist (signal o) (signal o').
Proof. destruct HT as (_ & _ & H & _ & G & _). apply np_sub_same; auto. Qed.

Lemma range_same (pick : list nat -> res nat) (f : Q -> Q -> bool) :
  (forall a b c d, a == b -> c == d -> f a c = f b d) ->
  (Y <- signal o ;; i <- fst (index_u_ysat o) ;; y <- py_get Y i ;;
     pick (argwhere (fun v => f v y) Y)) =
  (Y <- signal o' ;; i <- fst (index_u_ysat o') ;; y <- py_get Y i ;;
     pick (argwhere (fun v => f v y) Y)).
Proof.
  intro H. eapply eq_bind; [apply signal_same|]. intros Y Y' EY. rewrite index_same.
  destruct (fst (index_u_ysat o')) as [i|e]; simpl; auto.
  eapply eq_bind; [apply py_get_same; eauto|]. intros y y' Ey.
  f_equal. apply argwhere_same; auto.
Qed.

Lemma sens_max_same : index_sensitivity_max o = index_sensitivity_max o'.
Proof.
  apply (range_same max_index (fun v y => Qle_bool v ((7 # 10) * y))).
  intros a b c d E F. apply Qle_bool_same; auto. rewrite F. reflexivity.
Qed.
Lemma lin_max_same : index_linearity_max o = index_linearity_max o'.
Proof.
  apply (range_same max_index (fun v y => Qle_bool v ((95 # 100) * y))).
  intros a b c d E F. apply Qle_bool_same; auto. rewrite F. reflexivity.
Qed.
Lemma lin_min_same : index_linearity_min o = index_linearity_min o'.
Proof.
  apply (range_same min_index (fun v y => Qge_b v ((5 # 100) * y))).
  intros a b c d E F. apply Qle_bool_same; auto. rewrite F. reflexivity.
Qed.

Lemma psum_same (f : Q * Q -> Q) P P' : Forall2 same_pair P P' ->
  (forall x y, same_pair x y -> f x == f y) ->
  lsumq (map f P) == lsumq (map f P').
Proof. intros H G. apply lsumq_same. eapply map_same; eauto. Qed.

Lemma fit_b0_same P P' : Forall2 same_pair P P' -> fit_b0 P == fit_b0 P'.
Proof.
  intro H. unfold fit_b0.
  assert (E1 := psum_same (fun p => fst p * fst p) P P' H
    ltac:(intros x y (A & B); rewrite A; reflexivity)).
  assert (E2 := psum_same (fun p => fst p * snd p) P P' H
    ltac:(intros x y (A & B); rewrite A, B; reflexivity)).
  set (a1 := lsumq (map (fun p => fst p * fst p) P)) in *.
  set (b1 := lsumq (map (fun p => fst p * fst p) P')) in *.
  set (a2 := lsumq (map (fun p => fst p * snd p) P)) in *.
  set (b2 := lsumq (map (fun p => fst p * snd p) P')) in *.
  cbv zeta. clearbody a1 a2 b1 b2.
  rewrite (Qeq_bool_same _ _ 0 0 E1 (Qeq_refl 0)).
  destruct (Qeq_bool _ 0); [reflexivity|]. rewrite E1, E2. reflexivity.
Qed.

Lemma linear_b0_same X X' Y Y' : qlist X X' -> qlist Y Y' ->
  same_res Qeq (linear_b0 X Y) (linear_b0 X' Y').
Proof.
  intros H G. unfold linear_b0. eapply same_bind; [apply np_pairs_same; eauto|].
  intros P P' E. rewrite (f2_length _ _ _ E). destruct (_ <? 1)%nat; [reflexivity|].
  apply fit_b0_same. auto.
Qed.

Lemma fit_b_same P P' : Forall2 same_pair P P' -> same_pair (fit_b P) (fit_b P').
Proof.
  intro H. unfold fit_b. rewrite (f2_length _ _ _ H).
  assert (E1 := psum_same fst P P' H ltac:(intros x y (A & B); auto)).
  assert (E2 := psum_same snd P P' H ltac:(intros x y (A & B); auto)).
  assert (E3 := psum_same (fun p => fst p * fst p) P P' H
    ltac:(intros x y (A & B); rewrite A; reflexivity)).
  assert (E4 := psum_same (fun p => fst p * snd p) P P' H
    ltac:(intros x y (A & B); rewrite A, B; reflexivity)).
  set (a1 := lsumq (map fst P)) in *. set (b1 := lsumq (map fst P')) in *.
  set (a2 := lsumq (map snd P)) in *. set (b2 := lsumq (map snd P')) in *.
  set (a3 := lsumq (map (fun p => fst p * fst p) P)) in *.
  set (b3 := lsumq (map (fun p => fst p * fst p) P')) in *.
  set (a4 := lsumq (map (fun p => fst p * snd p) P)) in *.
  set (b4 := lsumq (map (fun p => fst p * snd p) P')) in *.
  cbv zeta. clearbody a1 b1 a2 b2 a3 b3 a4 b4.
  assert (E : Qeq_bool (qn (length P') * a3 - a1 * a1) 0 = Qeq_bool (qn (length P') * b3 - b1 * b1) 0).
  { apply Qeq_bool_same; [rewrite E1, E3|]; reflexivity. }
  rewrite E. destruct (Qeq_bool (qn (length P') * b3 - b1 * b1) 0); [split; reflexivity|].
  split; cbn [fst snd]; rewrite E1, E2, E3, E4; reflexivity.
Qed.

Lemma linear_b_same X X' Y Y' : qlist X X' -> qlist Y Y' ->
  same_res same_pair (linear_b X Y) (linear_b X' Y').
Proof.
  intros H G. unfold linear_b. eapply same_bind; [apply np_pairs_same; eauto|].
  intros P P' E. rewrite (f2_length _ _ _ E). destruct (_ <? 2)%nat; [reflexivity|].
  apply fit_b_same. auto.
Qed.

Lemma R_same : same_res Qeq (responsivity o) (responsivity o').
Proof.
  unfold responsivity. eapply same_bind; [apply signal_same|]. intros Y Y' EY.
  rewrite sens_max_same. destruct (index_sensitivity_max o') as [m|e]; simpl; auto.
  destruct HT as (_ & H & _). apply linear_b0_same; apply slice_same; auto.
Qed.

Lemma K_same : same_res Qeq (gain o) (gain o').
Proof.
  unfold gain. eapply same_bind; [apply signal_same|]. intros X X' EX.
  destruct HT as (_ & _ & _ & H & _ & G).
  eapply same_bind; [apply np_sub_same; eauto|]. intros Y Y' EY.
  rewrite sens_max_same. destruct (index_sensitivity_max o') as [m|e]; simpl; auto.
  apply linear_b0_same; apply slice_same; auto.
Qed.

Lemma QE_same : QE o = QE o'.
Proof.
  unfold QE. eapply eq_bind; [apply R_same|]. intros r r' Er.
  eapply eq_bind; [apply K_same|]. intros k k' Ek.
  rewrite (xq_same _ _ Er), (xq_same _ _ Ek). reflexivity.
Qed.

Lemma inverse_K_same : inverse_K o = inverse_K o'.
Proof.
  unfold inverse_K. eapply eq_bind; [apply K_same|]. intros k k' Ek.
  rewrite (xq_same _ _ Ek). reflexivity.
Qed.

Lemma existsb_same x y l l' : x == y -> qlist l l' ->
  existsb (Qeq_bool x) l = existsb (Qeq_bool y) l'.
Proof.
  intros E H. induction H as [|a b l l' F H IH]; simpl; auto.
  rewrite IH, (Qeq_bool_same _ _ _ _ E F). reflexivity.
Qed.

Lemma unique_same l l' : qlist l l' -> unique_count l = unique_count l'.
Proof.
  induction 1 as [|a b l l' F H IH]; simpl; auto.
  rewrite IH, (existsb_same _ _ _ _ F H). reflexivity.
Qed.

Lemma dark_variance_same : same_res Qeq (dark_variance o) (dark_variance o').
Proof.
  destruct HT as (H & _ & _ & _ & _ & G). unfold dark_variance. rewrite (unique_same _ _ H).
  eapply same_bind with (R := Qeq).
  - destruct (_ <=? 2)%nat; [apply py_get_same; auto|].
    eapply same_bind; [apply linear_b_same; eauto|]. intros x y (_ & E). exact E.
  - intros x y E. simpl. rewrite (Qle_bool_same _ _ _ _ (Qeq_refl (24 # 100)) E).
    destruct (negb _); auto. reflexivity.
Qed.

Lemma sigma_y_dark_same : sigma_y_dark o = sigma_y_dark o'.
Proof.
  unfold sigma_y_dark. eapply eq_bind; [apply dark_variance_same|]. intros x y E.
  rewrite (xq_same _ _ E). reflexivity.
Qed.

Lemma with_K {A} (f : xr -> res A) :
  (k <- gain o ;; f (xq k)) = (k <- gain o' ;; f (xq k)).
Proof. eapply eq_bind; [apply K_same|]. intros k k' E. rewrite (xq_same _ _ E). reflexivity. Qed.

Lemma sigma_d_same : sigma_d o = sigma_d o'.
Proof.
  unfold sigma_d. rewrite sigma_y_dark_same. destruct (sigma_y_dark o') as [s|]; simpl; auto.
  apply (with_K (fun k => Ok (xdiv (xsqrt (xsub (xsq s) (xq s2q))) k))).
Qed.

Lemma u_p_min_same : u_p_min o = u_p_min o'.
Proof.
  unfold u_p_min. rewrite QE_same. destruct (QE o') as [q|]; simpl; auto.
  rewrite sigma_y_dark_same. destruct (sigma_y_dark o') as [s|]; simpl; auto.
  apply (with_K (fun k => Ok (xmul (xdiv (xq 100) q) (xadd (xdiv s k) (xq (1 # 2)))))).
Qed.

Lemma u_e_min_same : u_e_min o = u_e_min o'.
Proof. unfold u_e_min. rewrite QE_same, u_p_min_same. reflexivity. Qed.

Lemma u_p_sat_same : same_res Qeq (u_p_sat o) (u_p_sat o').
Proof.
  unfold u_p_sat. rewrite index_same. destruct (fst (index_u_ysat o')); simpl; auto.
  destruct HT as (_ & H & _). apply py_get_same. auto.
Qed.

Lemma u_e_sat_same : u_e_sat o = u_e_sat o'.
Proof.
  unfold u_e_sat. rewrite QE_same. destruct (QE o') as [q|]; simpl; auto.
  eapply eq_bind; [apply u_p_sat_same|]. intros x y E. rewrite (xq_same _ _ E). reflexivity.
Qed.

Lemma SNR_max_same : SNR_max o = SNR_max o'.
Proof. unfold SNR_max. rewrite u_e_sat_same. reflexivity. Qed.

Lemma DR_same : DR o = DR o'.
Proof.
  unfold DR. eapply eq_bind; [apply u_p_sat_same|]. intros x y E.
  rewrite u_p_min_same, (xq_same _ _ E). reflexivity.
Qed.

(** ** Linearity *)
Lemma qdiv_o_same a b c d : a == b -> c == d -> same_opt Qeq (qdiv_o a c) (qdiv_o b d).
Proof.
  intros E F. unfold qdiv_o. rewrite (Qeq_bool_same _ _ 0 0 F (Qeq_refl 0)).
  destruct (Qeq_bool d 0); simpl; auto. rewrite E, F. reflexivity.
Qed.

Lemma relative_fit_same P P' Y Y' : Forall2 same_pair P P' -> qlist Y Y' ->
  same_opt same_pair (relative_fit P Y) (relative_fit P' Y').
Proof.
  intros H G. unfold relative_fit.
  assert (E : existsb (fun y => Qeq_bool y 0) Y = existsb (fun y => Qeq_bool y 0) Y').
  { clear H. induction G as [|a b l l' F G IH]; simpl; auto.
    rewrite IH, (Qeq_bool_same _ _ _ _ F (Qeq_refl 0)). reflexivity. }
  rewrite E. destruct (existsb _ Y'); [exact I|].
  assert (E1 := psum_same (fun p => fst p / snd p) P P' H
    ltac:(intros x y (A & B); rewrite A, B; reflexivity)).
  assert (E2 := psum_same (fun p => fst p / (snd p * snd p)) P P' H
    ltac:(intros x y (A & B); rewrite A, B; reflexivity)).
  assert (E3 := psum_same (fun p => (fst p / snd p) * (fst p / snd p)) P P' H
    ltac:(intros x y (A & B); rewrite A, B; reflexivity)).
  assert (E4 : lsumq (map (fun y => 1 / y) Y) == lsumq (map (fun y => 1 / y) Y')).
  { apply lsumq_same. eapply map_same; [exact G|]. intros x y F. rewrite F. reflexivity. }
  assert (E5 : lsumq (map (fun y => 1 / (y * y)) Y) == lsumq (map (fun y => 1 / (y * y)) Y')).
  { apply lsumq_same. eapply map_same; [exact G|]. intros x y F. rewrite F. reflexivity. }
  cbv zeta.
  set (a1 := lsumq (map (fun p => fst p / snd p) P)) in *.
  set (b1 := lsumq (map (fun p => fst p / snd p) P')) in *.
  set (a2 := lsumq (map (fun p => fst p / (snd p * snd p)) P)) in *.
  set (b2 := lsumq (map (fun p => fst p / (snd p * snd p)) P')) in *.
  set (a3 := lsumq (map (fun p => (fst p / snd p) * (fst p / snd p)) P)) in *.
  set (b3 := lsumq (map (fun p => (fst p / snd p) * (fst p / snd p)) P')) in *.
  set (a4 := lsumq (map (fun y => 1 / y) Y)) in *. set (b4 := lsumq (map (fun y => 1 / y) Y')) in *.
  set (a5 := lsumq (map (fun y => 1 / (y * y)) Y)) in *.
  set (b5 := lsumq (map (fun y => 1 / (y * y)) Y')) in *.
  clearbody a1 a2 a3 a4 a5 b1 b2 b3 b4 b5.
  assert (S : same_opt Qeq (qdiv_o (a1 * a2 - a3 * a4) (a2 * a2 - a3 * a5))
                           (qdiv_o (b1 * b2 - b3 * b4) (b2 * b2 - b3 * b5))).
  { apply qdiv_o_same; rewrite ?E1, ?E2, ?E3, ?E4, ?E5; reflexivity. }
  destruct (qdiv_o (a1 * a2 - a3 * a4) _) as [x|], (qdiv_o (b1 * b2 - b3 * b4) _) as [y|];
    simpl in S; try tauto.
  assert (S2 : same_opt Qeq (qdiv_o (a1 - x * a2) a3) (qdiv_o (b1 - y * b2) b3)).
  { apply qdiv_o_same; rewrite ?E1, ?E2, ?E3, ?S; reflexivity. }
  destruct (qdiv_o (a1 - x * a2) _), (qdiv_o (b1 - y * b2) _); simpl in *; try tauto.
  split; auto.
Qed.

Lemma deviation_same ab ab' x x' y y' : same_pair ab ab' -> x == x' -> y == y' ->
  same_opt Qeq (deviation ab x y) (deviation ab' x' y').
Proof.
  intros (A & B) E F. unfold deviation. apply qdiv_o_same; rewrite A, B, E, ?F; reflexivity.
Qed.

Lemma all_some_same l l' : Forall2 (same_opt Qeq) l l' -> same_opt qlist (all_some l) (all_some l').
Proof.
  induction 1 as [|x y l l' E H IH]; simpl; [constructor|].
  destruct x, y; simpl in E; try tauto.
  destruct (all_some l), (all_some l'); simpl in *; try tauto. constructor; auto.
Qed.

Lemma fold_same (f : Q -> Q -> Q) l l' : (forall a b c d, a == b -> c == d -> f a c == f b d) ->
  qlist l l' -> forall x y, x == y -> fold_left f l x == fold_left f l' y.
Proof. intros F H. induction H; intros a b E; simpl; auto. Qed.

Lemma np_extreme_same f l l' : (forall a b c d, a == b -> c == d -> f a c == f b d) ->
  Forall2 (same_opt Qeq) l l' -> same_res (same_opt Qeq) (np_extreme f l) (np_extreme f l').
Proof.
  intros F H. assert (A := all_some_same _ _ H). unfold np_extreme.
  destruct H as [|x y l l' E H]; [reflexivity|].
  destruct (all_some (x :: l)), (all_some (y :: l')); simpl in A; try tauto; try exact I.
  destruct A as [|a b m m' Ea Am]; [exact I|]. simpl. apply fold_same; auto.
Qed.

Lemma Qmin_same a b c d : a == b -> c == d -> Qmin_b a c == Qmin_b b d.
Proof.
  intros E F. unfold Qmin_b. rewrite (Qle_bool_same _ _ _ _ E F). destruct (Qle_bool b d); auto.
Qed.
Lemma Qmax_same a b c d : a == b -> c == d -> Qmax_b a c == Qmax_b b d.
Proof.
  intros E F. unfold Qmax_b. rewrite (Qle_bool_same _ _ _ _ E F). destruct (Qle_bool b d); auto.
Qed.

Lemma linearity_same : same_res same_lin (linearity o) (linearity o').
Proof.
  destruct HT as (_ & H & _). unfold linearity.
  eapply same_bind; [apply signal_same|]. intros Y Y' EY.
  rewrite lin_max_same, lin_min_same.
  destruct (index_linearity_max o') as [hi|]; simpl; auto.
  destruct (index_linearity_min o') as [lo|]; simpl; auto.
  eapply same_bind; [apply np_pairs_same; apply slice_same; eauto|]. intros P P' EP.
  eapply same_bind; [apply np_pairs_same; eauto|]. intros A A' EA.
  assert (RF := relative_fit_same P P' (slice lo (hi + 1) Y) (slice lo (hi + 1) Y') EP
                  ltac:(apply slice_same; auto)).
  set (fit := relative_fit P _) in *. set (fit' := relative_fit P' _) in *.
  assert (D : Forall2 (same_opt Qeq)
     (map (fun p => match fit with Some ab => deviation ab (fst p) (snd p) | None => None end) A)
     (map (fun p => match fit' with Some ab => deviation ab (fst p) (snd p) | None => None end) A')).
  { clear - EA RF. induction EA as [|x y A A' (E1 & E2) EA IH]; simpl; constructor; auto.
    destruct fit, fit'; simpl in RF; try tauto. apply deviation_same; auto. }
  eapply same_bind; [apply np_extreme_same; [exact Qmin_same|apply slice_same; exact D]|].
  intros mn mn' Emn.
  eapply same_bind; [apply np_extreme_same; [exact Qmax_same|apply slice_same; exact D]|].
  intros mx mx' Emx. simpl. split; [exact RF|]. split; [exact D|]. split; assumption.
Qed.

(** ** Dark current *)
Lemma u_I_var_DN_same : u_I_var_DN o = u_I_var_DN o'.
Proof.
  destruct HT as (H & _ & _ & _ & _ & G). unfold u_I_var_DN. rewrite (unique_same _ _ H).
  destruct (_ <=? 2)%nat; auto.
  eapply eq_bind; [apply linear_b_same; eauto|]. intros x y (E & _).
  rewrite (Qle_bool_same _ _ _ _ (Qeq_refl 0) E). destruct (negb _); auto.
  rewrite (xq_same _ _ E).
  apply (with_K (fun k => Ok (xmul (xdiv (xq (fst y)) k) (xq (inject_Z (10 ^ 9)))))).
Qed.
Lemma u_I_mean_DN_same : u_I_mean_DN o = u_I_mean_DN o'.
Proof.
  destruct HT as (H & _ & _ & _ & G & _). unfold u_I_mean_DN. rewrite (unique_same _ _ H).
  destruct (_ <=? 2)%nat; auto.
  eapply eq_bind; [apply linear_b_same; eauto|]. intros x y (E & _).
  rewrite (xq_same _ _ E). reflexivity.
Qed.
Lemma u_I_var_same : u_I_var o = u_I_var o'.
Proof.
  unfold u_I_var. rewrite u_I_var_DN_same. destruct (u_I_var_DN o') as [[x|b|]|]; cbn [bind]; auto;
    match goal with |- context [xdiv ?u] => apply (with_K (fun k => Ok (xdiv u k))) end.
Qed.
Lemma u_I_mean_same : u_I_mean o = u_I_mean o'.
Proof.
  unfold u_I_mean. rewrite u_I_mean_DN_same. destruct (u_I_mean_DN o') as [[x|b|]|]; cbn [bind]; auto;
    match goal with |- context [xdiv ?u] => apply (with_K (fun k => Ok (xdiv u k))) end.
Qed.

(** ** Spatial *)
Lemma olift2_same f a b c d : (forall x y z t, x == y -> z == t -> f x z == f y t) ->
  same_opt Qeq a b -> same_opt Qeq c d -> same_opt Qeq (olift2 f a c) (olift2 f b d).
Proof. intros F. destruct a, b, c, d; simpl; intros; auto; tauto. Qed.
Lemma omap_same (f : Q -> Q) a b : (forall x y, x == y -> f x == f y) ->
  same_opt Qeq a b -> same_opt Qeq (omap f a) (omap f b).
Proof. intros F. destruct a, b; simpl; intros; auto; tauto. Qed.
Lemma minus_same x y z t : x == y -> z == t -> x - z == y - t.
Proof. intros E F. rewrite E, F. reflexivity. Qed.

Lemma s_2_y_same : same_opt Qeq (s_2_y o) (s_2_y o').
Proof.
  destruct HB as (L & _ & _ & _ & V & A & _). unfold s_2_y, bright. rewrite L.
  apply olift2_same; [apply minus_same|exact A|]. apply omap_same; [|exact V].
  intros x y E. rewrite E. reflexivity.
Qed.
Lemma s_2_y_dark_same : same_opt Qeq (s_2_y_dark o) (s_2_y_dark o').
Proof.
  destruct HD as (L & _ & _ & _ & V & A & _). unfold s_2_y_dark, dark. rewrite L.
  apply olift2_same; [apply minus_same|exact A|]. apply omap_same; [|exact V].
  intros x y E. rewrite E. reflexivity.
Qed.

Lemma split_same (a b c a' b' c' : option Q) (r1 r2 : res Q) :
  same_opt Qeq a a' -> same_opt Qeq b b' -> same_opt Qeq c c' ->
  same_res (same_opt Qeq)
    (x <- r1 ;; y <- r2 ;; Ok (olift2 (fun u v => x * u - y * v) a (olift2 Qminus b c)))
    (x <- r1 ;; y <- r2 ;; Ok (olift2 (fun u v => x * u - y * v) a' (olift2 Qminus b' c'))).
Proof.
  intros A B C. destruct r1 as [x|]; simpl; auto. destruct r2 as [y|]; simpl; auto.
  apply olift2_same; [|exact A|apply olift2_same; [apply minus_same|exact B|exact C]].
  intros u v s t E F. rewrite E, F. reflexivity.
Qed.

Lemma pixel_same (a b c a' b' c' : option Q) (r : res Q) :
  same_opt Qeq a a' -> same_opt Qeq b b' -> same_opt Qeq c c' ->
  same_res (same_opt Qeq)
    (x <- r ;; Ok (omap (fun u => x * u) (olift2 Qminus (olift2 Qminus a b) c)))
    (x <- r ;; Ok (omap (fun u => x * u) (olift2 Qminus (olift2 Qminus a' b') c'))).
Proof.
  intros A B C. destruct r as [x|]; simpl; auto.
  apply omap_same; [intros u v E; rewrite E; reflexivity|].
  apply olift2_same; [apply minus_same|apply olift2_same; [apply minus_same|exact A|exact B]|exact C].
Qed.

Lemma row_same : same_res (same_opt Qeq) (s_2_y_row o) (s_2_y_row o').
Proof.
  pose proof s_2_y_same as S. destruct HB as (_ & M & N & _ & _ & _ & C & R).
  unfold s_2_y_row, dimM, dimN, bright. rewrite M, N. apply split_same; auto.
Qed.
Lemma row_dark_same : same_res (same_opt Qeq) (s_2_y_row_dark o) (s_2_y_row_dark o').
Proof.
  pose proof s_2_y_dark_same as S. destruct HD as (_ & M & N & _ & _ & _ & C & R).
  unfold s_2_y_row_dark, dimM, dimN, dark. rewrite M, N. apply split_same; auto.
Qed.
Lemma col_same : same_res (same_opt Qeq) (s_2_y_col o) (s_2_y_col o').
Proof.
  pose proof s_2_y_same as S. destruct HB as (_ & M & N & _ & _ & _ & C & R).
  unfold s_2_y_col, dimM, dimN, bright. rewrite M, N. apply split_same; auto.
Qed.
Lemma col_dark_same : same_res (same_opt Qeq) (s_2_y_col_dark o) (s_2_y_col_dark o').
Proof.
  pose proof s_2_y_dark_same as S. destruct HD as (_ & M & N & _ & _ & _ & C & R).
  unfold s_2_y_col_dark, dimM, dimN, dark. rewrite M, N. apply split_same; auto.
Qed.
Lemma pix_same : same_res (same_opt Qeq) (s_2_y_pixel o) (s_2_y_pixel o').
Proof.
  pose proof s_2_y_same as S. destruct HB as (_ & M & N & _ & _ & _ & C & R).
  unfold s_2_y_pixel, dimM, dimN, bright. rewrite M, N. apply pixel_same; auto.
Qed.
Lemma pix_dark_same : same_res (same_opt Qeq) (s_2_y_pixel_dark o) (s_2_y_pixel_dark o').
Proof.
  pose proof s_2_y_dark_same as S. destruct HD as (_ & M & N & _ & _ & _ & C & R).
  unfold s_2_y_pixel_dark, dimM, dimN, dark. rewrite M, N. apply pixel_same; auto.
Qed.

Lemma dsnu_same v v' : same_opt Qeq v v' -> dsnu_of o v = dsnu_of o' v'.
Proof.
  intro H. unfold dsnu_of. rewrite (xoq_same _ _ H). destruct (xlt0 _); auto.
  apply (with_K (fun k => Ok (xdiv (xsqrt (xoq v')) k))).
Qed.
Lemma prnu_same v v' d d' : same_opt Qeq v v' -> same_opt Qeq d d' ->
  prnu_of o v d = prnu_of o' v' d'.
Proof.
  intros H G. unfold prnu_of. rewrite (xoq_same _ _ H), (xoq_same _ _ G).
  destruct HB as (_ & _ & _ & EB & _). destruct HD as (_ & _ & _ & ED & _).
  unfold bright, dark. rewrite (xq_same _ _ EB), (xq_same _ _ ED). reflexivity.
Qed.

Lemma per_area_same (a : option Q) v v' : v = v' -> per_area a v = per_area a v'.
Proof. intros ->. reflexivity. Qed.

Lemma all_same f : same_value (value_of f o) (value_of f o').
Proof.
  destruct f; simpl.
  - apply index_same.
  - apply sens_max_same.
  - apply R_same.
  - apply K_same.
  - apply inverse_K_same.
  - apply QE_same.
  - apply sigma_y_dark_same.
  - apply sigma_d_same.
  - apply u_p_min_same.
  - unfold u_p_min_area. rewrite HA, u_p_min_same. reflexivity.
  - apply u_e_min_same.
  - unfold u_e_min_area. rewrite HA, u_e_min_same. reflexivity.
  - apply u_p_sat_same.
  - unfold u_p_sat_area. rewrite HA. apply per_area_same.
    eapply eq_bind; [apply u_p_sat_same|]. intros x y E. rewrite (xq_same _ _ E). reflexivity.
  - apply u_e_sat_same.
  - unfold u_e_sat_area. rewrite HA, u_e_sat_same. reflexivity.
  - apply SNR_max_same.
  - unfold SNR_max_dB. rewrite SNR_max_same. reflexivity.
  - unfold SNR_max_bit. rewrite SNR_max_same. reflexivity.
  - unfold inverse_SNR_max. rewrite SNR_max_same. reflexivity.
  - apply DR_same.
  - unfold DR_dB. rewrite DR_same. reflexivity.
  - apply lin_min_same.
  - apply lin_max_same.
  - apply linearity_same.
  - unfold LE_min. eapply same_bind; [apply linearity_same|]. intros x y (_ & _ & E & _). exact E.
  - unfold LE_max. eapply same_bind; [apply linearity_same|]. intros x y (_ & _ & _ & E). exact E.
  - apply u_I_var_DN_same.
  - apply u_I_var_same.
  - apply u_I_mean_DN_same.
  - apply u_I_mean_same.
  - apply s_2_y_same.
  - apply s_2_y_dark_same.
  - apply row_same.
  - apply row_dark_same.
  - apply col_same.
  - apply col_dark_same.
  - apply pix_same.
  - apply pix_dark_same.
  - apply dsnu_same, s_2_y_dark_same.
  - unfold DSNU1288_DN. rewrite (xoq_same _ _ s_2_y_dark_same). reflexivity.
  - eapply eq_bind; [apply row_dark_same|apply dsnu_same].
  - eapply eq_bind; [apply col_dark_same|apply dsnu_same].
  - eapply eq_bind; [apply pix_dark_same|apply dsnu_same].
  - unfold PRNU1288. f_equal. apply prnu_same; [apply s_2_y_same|apply s_2_y_dark_same].
  - unfold PRNU1288_row. eapply eq_bind; [apply row_same|]. intros x y E.
    eapply eq_bind; [apply row_dark_same|]. intros u v F. f_equal. apply prnu_same; auto.
  - unfold PRNU1288_col. eapply eq_bind; [apply col_same|]. intros x y E.
    eapply eq_bind; [apply col_dark_same|]. intros u v F. f_equal. apply prnu_same; auto.
  - unfold PRNU1288_pixel. eapply eq_bind; [apply pix_same|]. intros x y E.
    eapply eq_bind; [apply pix_dark_same|]. intros u v F. f_equal. apply prnu_same; auto.
Qed.
End Same.
