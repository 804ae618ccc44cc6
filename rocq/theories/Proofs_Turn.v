(** Figures of mirrored, rearranged and turned images. *)
From Coq Require Import Ascii String List Bool Arith ZArith QArith Qfield Reals Qreals Lia Lqa Permutation Sorting.Sorted.
From Verif Require Import Base_Prelude Base_Str Base_Num Base_Order Base_Sum Base_Xreal Model_Path Model_Images
  Model_Loader Model_Data Model_Parser Model_Results Model_Emva Spec_Parser Spec_Images Spec_Loader
  Spec_Data Spec_Results Spec_Emva Spec_Units Spec_Turn Proofs_Parser Proofs_Parser2 Proofs_Images Proofs_Loader
  Proofs_Data Proofs_Data2 Proofs_Results Proofs_Results2 Proofs_Same Proofs_Emva Proofs_Emva2
  Proofs_Emva3 Proofs_Emva4 Proofs_Units Proofs_Units2 Proofs_Units3 Proofs_Units4.
Import ListNotations.
Open Scope Q_scope.

(** ** Sums in another order *)
Lemma lsumq_perm a b : Permutation a b -> lsumq a == lsumq b.
Proof. induction 1; simpl; try rewrite IHPermutation; try rewrite IHPermutation1; auto; ring. Qed.

Lemma shuffles_lt n p i : shuffles n p -> (i < n)%nat -> (p i < n)%nat.
Proof.
  intros S I. assert (H : In (p i) (map p (seq 0 n))) by (apply in_map; apply in_seq; lia).
  apply (Permutation_in _ S) in H. apply in_seq in H. lia.
Qed.

Lemma sumq_shuffle n p f : shuffles n p -> sumq n (fun i => f (p i)) == sumq n f.
Proof.
  intro S. rewrite <- !lsumq_sumq. rewrite <- (map_map p f). apply lsumq_perm. apply Permutation_map. exact S.
Qed.

Lemma sumq2_shuffle h w p q f : shuffles h p -> shuffles w q ->
  sumq2 h w (fun i j => f (p i) (q j)) == sumq2 h w f.
Proof.
  intros P Q. unfold sumq2. rewrite <- (sumq_shuffle h p (fun i => sumq w (f i)) P).
  apply sumq_ext. intros i I. apply (sumq_shuffle w q (f (p i)) Q).
Qed.

Lemma pop_var_shuffle n p f f' : shuffles n p -> (forall i, (i < n)%nat -> f' i == f (p i)) -> pop_var n f' == pop_var n f.
Proof.
  intros P E. unfold pop_var.
  assert (S : sumq n f' == sumq n f) by (rewrite (sumq_ext n f' _ E); apply sumq_shuffle; auto).
  rewrite (sumq_ext n _ (fun i => (f (p i) - sumq n f / qn n) * (f (p i) - sumq n f / qn n))).
  - rewrite (sumq_shuffle n p (fun i => (f i - sumq n f / qn n) * (f i - sumq n f / qn n)) P). reflexivity.
  - intros i I. rewrite S, (E i I). reflexivity.
Qed.
Lemma pop_var_ext n f f' : (forall i, (i < n)%nat -> f' i == f i) -> pop_var n f' == pop_var n f.
Proof.
  intros E. unfold pop_var.
  assert (S : sumq n f' == sumq n f) by (apply sumq_ext; auto).
  rewrite (sumq_ext n _ (fun i => (f i - sumq n f / qn n) * (f i - sumq n f / qn n))); [reflexivity|].
  intros i I. rewrite S, (E i I). reflexivity.
Qed.

(** ** Rearranged images *)
Section Rearranged.
Context (h w : nat) (p q : nat -> nat).
Hypothesis P : shuffles h p.
Hypothesis Q0 : shuffles w q.
Let T := rearranged h w p q.

Lemma grey_re x y : sized h w x -> T x y -> grey_mean y == grey_mean x.
Proof.
  intros (S1 & S2) (R1 & R2 & R). unfold grey_mean, pixel_mean. rewrite R1, R2, S1, S2.
  rewrite <- (sumq2_shuffle h w p q (fun i j => inject_Z (px x i j)) P Q0).
  rewrite (sumq2_ext h w _ (fun i j => inject_Z (px x (p i) (q j)))); [reflexivity|].
  intros i j I J. rewrite R by auto. reflexivity.
Qed.

Lemma pair_re x y x' y' : sized h w x -> sized h w y -> T x x' -> T y y' ->
  pair_variance h w x' y' == pair_variance h w x y.
Proof.
  intros SX SY RX RY. pose proof (grey_re _ _ SX RX) as GX. pose proof (grey_re _ _ SY RY) as GY.
  unfold pair_variance.
  rewrite <- (sumq2_shuffle h w p q (fun r c =>
    ((inject_Z (px x r c) - grey_mean x) - (inject_Z (px y r c) - grey_mean y)) *
    ((inject_Z (px x r c) - grey_mean x) - (inject_Z (px y r c) - grey_mean y))) P Q0).
  apply Qmult_comp; [reflexivity|]. apply sumq2_ext. intros i j I J.
  destruct RX as (_ & _ & RX). destruct RY as (_ & _ & RY). rewrite RX, RY by auto. rewrite GX, GY. reflexivity.
Qed.

Lemma stack_re ims ims' : Forall2 T ims ims' -> stack_mean h w ims' == stack_mean h w ims.
Proof.
  intro R. unfold stack_mean. rewrite <- (f2_length _ _ _ R). apply Qdiv_comp; [|reflexivity].
  induction R as [|x y l l' E R IH]; simpl; [reflexivity|]. apply Qplus_comp; auto.
  rewrite <- (sumq2_shuffle h w p q (fun i j => inject_Z (px x i j)) P Q0).
  apply sumq2_ext. intros i j I J. destruct E as (_ & _ & E). rewrite E by auto. reflexivity.
Qed.

Lemma hist_re ims ims' i j : Forall2 T ims ims' -> (i < h)%nat -> (j < w)%nat ->
  history ims' i j = history ims (p i) (q j).
Proof.
  intros R I J. unfold history. induction R as [|x y l l' E R IH]; simpl; auto. f_equal; auto. apply E; auto.
Qed.

Lemma series_re ims ims' s s' : Forall2 T ims ims' ->
  series_stats h w ims s -> series_stats h w ims' s' -> graded_series 1 0 s s'.
Proof.
  intros R (A1 & A2 & A3 & A4 & vm & av & ca & ra & E1 & E2 & E3 & E4 & V1 & V2 & V3 & V4)
           (B1 & B2 & B3 & B4 & vm' & av' & ca' & ra' & F1 & F2 & F3 & F4 & W1 & W2 & W3 & W4).
  pose proof (f2_length _ _ _ R) as LL. pose proof (stack_re _ _ R) as SM.
  assert (VM : vm' == vm).
  { rewrite V1, W1. unfold pixel_mean. apply Qdiv_comp; [|reflexivity].
    rewrite <- (sumq2_shuffle h w p q (fun r c => unbiased_var (map inject_Z (history ims r c))) P Q0).
    apply sumq2_ext. intros i j I J. rewrite (hist_re _ _ _ _ R I J). reflexivity. }
  assert (AV : forall i j, (i < h)%nat -> (j < w)%nat -> avg_pixel ims' i j = avg_pixel ims (p i) (q j)).
  { intros i j I J. unfold avg_pixel. rewrite (hist_re _ _ _ _ R I J). auto. }
  unfold graded_series. rewrite A1, A2, A3, B1, B2, B3, E1, E2, E3, E4, F1, F2, F3, F4.
  split; [auto|]. split; [auto|]. split; [auto|].
  split. { rewrite A4, B4, SM. ring. }
  simpl. unfold times_q. split; [rewrite VM; ring|]. split; [|split].
  - rewrite V2, W2. rewrite <- (sumq2_shuffle h w p q (fun r c =>
      (avg_pixel ims r c - stack_mean h w ims) * (avg_pixel ims r c - stack_mean h w ims)) P Q0).
    rewrite (sumq2_ext h w _ (fun r c =>
      (avg_pixel ims (p r) (q c) - stack_mean h w ims) * (avg_pixel ims (p r) (q c) - stack_mean h w ims))).
    + ring.
    + intros i j I J. rewrite (AV i j I J), SM. reflexivity.
  - rewrite V3, W3, VM, <- LL. rewrite (pop_var_shuffle w q (col_mean h (avg_pixel ims))); auto; [ring|].
    intros j J. unfold col_mean. apply Qdiv_comp; [|reflexivity].
    rewrite <- (sumq_shuffle h p (fun r => avg_pixel ims r (q j)) P). apply sumq_ext. intros i I.
    rewrite (AV i j I J). reflexivity.
  - rewrite V4, W4, VM, <- LL. rewrite (pop_var_shuffle h p (row_mean w (avg_pixel ims))); auto; [ring|].
    intros i I. unfold row_mean. apply Qdiv_comp; [|reflexivity].
    rewrite <- (sumq_shuffle w q (fun c => avg_pixel ims (p i) c) Q0). apply sumq_ext. intros j J.
    rewrite (AV i j I J). reflexivity.
Qed.
End Rearranged.

(** ** Transposed images *)
Definition tr (im : image) : image := mkImg (iw im) (ih im) (fun i j => px im j i).
Definition swap (s : sdata) : sdata :=
  mkS (sd_sum s) (sd_L s) (sd_N s) (sd_M s) (sd_var_mean s) (sd_avg_var s) (sd_avg_mean s)
      (sd_avg_var_rav s) (sd_avg_var_cav s).
Definition turn (o : robj) : robj :=
  mkObj (o_t o) (mkSpatial (sp_texp (o_s o)) (sp_up (o_s o)) (swap (sp_dark (o_s o))) (swap (sp_bright (o_s o)))) (o_area o) (o_sat o).

Lemma turned_tr h w p q a b : turned h w p q a b -> rearranged h w p q a (tr b).
Proof.
  intros (A & B & C). split; [auto|]. split; [auto|]. intros i j I J. simpl. apply C; auto.
Qed.

Lemma grey_tr b : grey_mean (tr b) == grey_mean b.
Proof.
  unfold grey_mean, pixel_mean, tr. simpl. rewrite (sumq2_swap (iw b) (ih b)), (Nat.mul_comm (iw b)). reflexivity.
Qed.
Lemma pair_tr h w a b : pair_variance h w (tr a) (tr b) == pair_variance w h a b.
Proof.
  unfold pair_variance. rewrite (sumq2_swap h w), (Nat.mul_comm h w).
  apply Qmult_comp; [reflexivity|]. apply sumq2_ext. intros i j I J. rewrite !grey_tr. reflexivity.
Qed.
Lemma stack_tr h w l : stack_mean h w (map tr l) == stack_mean w h l.
Proof.
  unfold stack_mean. rewrite !map_length, (Nat.mul_comm h w), map_map. apply Qdiv_comp; [|reflexivity].
  apply lsumq_ext. intros im _. apply (sumq2_swap h w).
Qed.
Lemma hist_tr l i j : history (map tr l) i j = history l j i.
Proof. unfold history. rewrite map_map. auto. Qed.

Lemma series_tr h w l s : series_stats w h l s -> series_stats h w (map tr l) (swap s).
Proof.
  intros (A1 & A2 & A3 & A4 & vm & av & ca & ra & E1 & E2 & E3 & E4 & V1 & V2 & V3 & V4).
  unfold series_stats. cbn [swap sd_L sd_M sd_N sd_avg_mean sd_var_mean sd_avg_var sd_avg_var_cav sd_avg_var_rav].
  rewrite map_length. split; [auto|]. split; [auto|]. split; [auto|]. split; [rewrite stack_tr; auto|].
  assert (AV : forall i j, avg_pixel (map tr l) i j = avg_pixel l j i).
  { intros i j. unfold avg_pixel. rewrite hist_tr. auto. }
  exists vm, av, ra, ca. split; [auto|]. split; [auto|]. split; [auto|]. split; [auto|].
  split; [|split; [|split]].
  - rewrite V1. unfold pixel_mean. rewrite (sumq2_swap h w), (Nat.mul_comm h w).
    apply Qdiv_comp; [|reflexivity]. apply sumq2_ext. intros i j I J. rewrite hist_tr. reflexivity.
  - rewrite V2. rewrite (sumq2_swap h w), (Nat.mul_comm h w). apply Qdiv_comp; [|reflexivity].
    apply sumq2_ext. intros i j I J. rewrite AV, stack_tr. reflexivity.
  - rewrite V4. apply Qplus_comp; [|reflexivity]. apply pop_var_ext. intros i I. unfold col_mean, row_mean.
    apply Qdiv_comp; [|reflexivity]. apply sumq_ext. intros j J. rewrite AV. reflexivity.
  - rewrite V3. apply Qplus_comp; [|reflexivity]. apply pop_var_ext. intros i I. unfold col_mean, row_mean.
    apply Qdiv_comp; [|reflexivity]. apply sumq_ext. intros j J. rewrite AV. reflexivity.
Qed.

Lemma zdivz_eq a b a' b' : a = a' -> b = b' -> zdivz a b = zdivz a' b'.
Proof. congruence. Qed.
Ltac zs := apply zdivz_eq; unfold dimM, dimN, bright, dark; cbn [turn swap o_s sp_dark sp_bright sd_M sd_N]; ring.

Lemma row_turn o : s_2_y_row (turn o) = s_2_y_col o.
Proof.
  unfold s_2_y_row, s_2_y_col.
  replace (zdivz (dimM (bright (turn o)) * dimN (bright (turn o)) - dimN (bright (turn o)))
     (dimM (bright (turn o)) * dimN (bright (turn o)) - dimM (bright (turn o)) - dimN (bright (turn o))))
    with (zdivz (dimM (bright o) * dimN (bright o) - dimM (bright o)) (dimM (bright o) * dimN (bright o) - dimM (bright o) - dimN (bright o))) by zs.
  replace (zdivz (dimM (bright (turn o)))
     (dimM (bright (turn o)) * dimN (bright (turn o)) - dimM (bright (turn o)) - dimN (bright (turn o))))
    with (zdivz (dimN (bright o)) (dimM (bright o) * dimN (bright o) - dimM (bright o) - dimN (bright o))) by zs.
  reflexivity.
Qed.
Lemma col_turn o : s_2_y_col (turn o) = s_2_y_row o.
Proof.
  unfold s_2_y_row, s_2_y_col.
  replace (zdivz (dimM (bright (turn o)) * dimN (bright (turn o)) - dimM (bright (turn o)))
     (dimM (bright (turn o)) * dimN (bright (turn o)) - dimM (bright (turn o)) - dimN (bright (turn o))))
    with (zdivz (dimM (bright o) * dimN (bright o) - dimN (bright o)) (dimM (bright o) * dimN (bright o) - dimM (bright o) - dimN (bright o))) by zs.
  replace (zdivz (dimN (bright (turn o)))
     (dimM (bright (turn o)) * dimN (bright (turn o)) - dimM (bright (turn o)) - dimN (bright (turn o))))
    with (zdivz (dimM (bright o)) (dimM (bright o) * dimN (bright o) - dimM (bright o) - dimN (bright o))) by zs.
  reflexivity.
Qed.
Lemma row_dark_turn o : s_2_y_row_dark (turn o) = s_2_y_col_dark o.
Proof.
  unfold s_2_y_row_dark, s_2_y_col_dark.
  replace (zdivz (dimM (dark (turn o)) * dimN (dark (turn o)) - dimN (dark (turn o)))
     (dimM (dark (turn o)) * dimN (dark (turn o)) - dimM (dark (turn o)) - dimN (dark (turn o))))
    with (zdivz (dimM (dark o) * dimN (dark o) - dimM (dark o)) (dimM (dark o) * dimN (dark o) - dimM (dark o) - dimN (dark o))) by zs.
  replace (zdivz (dimM (dark (turn o)))
     (dimM (dark (turn o)) * dimN (dark (turn o)) - dimM (dark (turn o)) - dimN (dark (turn o))))
    with (zdivz (dimN (dark o)) (dimM (dark o) * dimN (dark o) - dimM (dark o) - dimN (dark o))) by zs.
  reflexivity.
Qed.
Lemma col_dark_turn o : s_2_y_col_dark (turn o) = s_2_y_row_dark o.
Proof.
  unfold s_2_y_row_dark, s_2_y_col_dark.
  replace (zdivz (dimM (dark (turn o)) * dimN (dark (turn o)) - dimM (dark (turn o)))
     (dimM (dark (turn o)) * dimN (dark (turn o)) - dimM (dark (turn o)) - dimN (dark (turn o))))
    with (zdivz (dimM (dark o) * dimN (dark o) - dimN (dark o)) (dimM (dark o) * dimN (dark o) - dimM (dark o) - dimN (dark o))) by zs.
  replace (zdivz (dimN (dark (turn o)))
     (dimM (dark (turn o)) * dimN (dark (turn o)) - dimM (dark (turn o)) - dimN (dark (turn o))))
    with (zdivz (dimM (dark o)) (dimM (dark o) * dimN (dark o) - dimM (dark o) - dimN (dark o))) by zs.
  reflexivity.
Qed.

Lemma pixel_turn o : same_res (same_opt Qeq) (s_2_y_pixel (turn o)) (s_2_y_pixel o).
Proof.
  unfold s_2_y_pixel.
  replace (zdivz (dimM (bright (turn o)) * dimN (bright (turn o)))
     (dimM (bright (turn o)) * dimN (bright (turn o)) - dimM (bright (turn o)) - dimN (bright (turn o))))
    with (zdivz (dimM (bright o) * dimN (bright o)) (dimM (bright o) * dimN (bright o) - dimM (bright o) - dimN (bright o))) by zs.
  change (s_2_y (turn o)) with (s_2_y o). change (s_2_y_cav (turn o)) with (s_2_y_rav o). change (s_2_y_rav (turn o)) with (s_2_y_cav o).
  destruct (zdivz _ _) as [v|e]; simpl; auto. destruct (s_2_y o), (s_2_y_rav o), (s_2_y_cav o); simpl; auto. ring.
Qed.
Lemma pixel_dark_turn o : same_res (same_opt Qeq) (s_2_y_pixel_dark (turn o)) (s_2_y_pixel_dark o).
Proof.
  unfold s_2_y_pixel_dark.
  replace (zdivz (dimM (dark (turn o)) * dimN (dark (turn o)))
     (dimM (dark (turn o)) * dimN (dark (turn o)) - dimM (dark (turn o)) - dimN (dark (turn o))))
    with (zdivz (dimM (dark o) * dimN (dark o)) (dimM (dark o) * dimN (dark o) - dimM (dark o) - dimN (dark o))) by zs.
  change (s_2_y_dark (turn o)) with (s_2_y_dark o). change (s_2_y_cav_dark (turn o)) with (s_2_y_rav_dark o).
  change (s_2_y_rav_dark (turn o)) with (s_2_y_cav_dark o).
  destruct (zdivz _ _) as [v|e]; simpl; auto. destruct (s_2_y_dark o), (s_2_y_rav_dark o), (s_2_y_cav_dark o); simpl; auto. ring.
Qed.

Lemma turn_dsnu o v : dsnu_of (turn o) v = dsnu_of o v. Proof. reflexivity. Qed.
Lemma turn_prnu o v d : prnu_of (turn o) v d = prnu_of o v d. Proof. reflexivity. Qed.

Lemma turn_value o f : value_of f (turn o) = value_of (other_direction f) o \/
  (other_direction f = f /\ same_value (value_of f (turn o)) (value_of f o) /\
   match value_of f o with VOQ _ | VX _ => True | _ => False end).
Proof.
  destruct f; cbn [other_direction];
    try (left; cbn [value_of]; unfold DSNU1288_row, DSNU1288_col, PRNU1288_row, PRNU1288_col;
         rewrite ?row_turn, ?col_turn, ?row_dark_turn, ?col_dark_turn; reflexivity);
    right; (split; [reflexivity|]); cbn [value_of same_value]; (split; [|exact I]).
  - apply pixel_turn.
  - apply pixel_dark_turn.
  - unfold DSNU1288_pixel. eapply eq_bind; [apply pixel_dark_turn|]. intros x y E.
    rewrite turn_dsnu. unfold dsnu_of. rewrite (xoq_same _ _ E). reflexivity.
  - unfold PRNU1288_pixel. eapply eq_bind; [apply pixel_turn|]. intros x y E.
    eapply eq_bind; [apply pixel_dark_turn|]. intros x' y' E'. rewrite turn_prnu. unfold prnu_of.
    rewrite (xoq_same _ _ E), (xoq_same _ _ E'). reflexivity.
Qed.

Lemma turn_same o o' f : same_value (value_of f o) (value_of f (turn o')) ->
  same_value (value_of f o) (value_of (other_direction f) o').
Proof.
  intro H. destruct (turn_value o' f) as [<-|(E & S & V)]; auto. rewrite E.
  destruct (value_of f o) as [a|a|a|a|a|a|a], (value_of f (turn o')) as [b|b|b|b|b|b|b], (value_of f o') as [c|c|c|c|c|c|c];
    simpl in *; try contradiction; try congruence.
  destruct a as [[x|]|x], b as [[y|]|y], c as [[z|]|z]; simpl in *; try contradiction; try congruence; auto.
  rewrite H. auto.
Qed.

(** ** The objects *)
Section Objects.
Context (fs fs' : fsys) (h w : nat) (p q : nat -> nat) (es es' : list entry).
Hypothesis P : shuffles h p.
Hypothesis Q0 : shuffles w q.
Hypothesis CS : complete_set fs h w es.
Hypothesis AP : apart es.

Lemma same_q (R : Q -> Q -> Prop) : (forall x y, y == x -> R x y) -> forall x y u v, x == y -> u == v -> v == y -> R x u.
Proof. intros H x y u v A B C. apply H. rewrite A, B, C. reflexivity. Qed.

(** Statistics that agree image by image give the same figures. *)
Lemma agree (T : image -> image -> Prop) (h' w' : nat) o o' rows rows' (tr_o : robj) :
  Forall2 (restated fs fs' T 1 1) es es' -> complete_set fs' h' w' es' ->
  (forall a b a' b', sized h w a -> sized h w b -> T a a' -> T b b' ->
     stack_mean h' w' [a'; b'] == stack_mean h w [a; b] /\ pair_variance h' w' a' b' == pair_variance h w a b) ->
  object_ok fs h w es o rows -> object_ok fs' h' w' es' o' rows' ->
  o_t tr_o = o_t o' -> o_area tr_o = o_area o' -> o_sat tr_o = o_sat o' ->
  graded_series 1 0 (sp_dark (o_s o)) (sp_dark (o_s tr_o)) ->
  graded_series 1 0 (sp_bright (o_s o)) (sp_bright (o_s tr_o)) ->
  rescaled 1 0 1 1 o tr_o.
Proof.
  intros RE CS' ST (R & A1 & A2 & A3 & A4 & A5 & A6 & SP & AA & AI) (R' & B1 & B2 & B3 & B4 & B5 & B6 & SP' & BA & BI) O1 O2 O3 G1 G2.
  pose proof (rows_restated fs fs' h w h' w' T 1 1 es es' eq_refl eq_refl RE CS CS' AP _ _ R R') as S.
  assert (SR : forall r, In r rows -> sized h w (w_b1 r) /\ sized h w (w_b2 r) /\ sized h w (w_d1 r) /\ sized h w (w_d2 r)).
  { intros r Hr. destruct R as (O & _ & _ & RR). rewrite Forall_forall in O.
    destruct (O r Hr) as (I & Hd & _ & _ & _ & J).
    destruct (proj1 (RR (w_bright r)) (in_map _ _ _ Hr)) as (He & _).
    pose proof (sized_of fs h w es CS _ _ He I) as F1. pose proof (sized_of fs h w es CS _ _ Hd J) as F2.
    inversion F1 as [|? ? F11 F12]; subst. inversion F12; subst.
    inversion F2 as [|? ? F21 F22]; subst. inversion F22; subst. auto. }
  assert (QT : forall x y u v, x == y -> u == v -> times_q 1 y v -> times_q 1 x u).
  { intros x0 y0 u v E F H. unfold times_q in *. rewrite E, F. auto. }
  assert (QG : forall k d x y u v, x == y -> u == v -> v == k * y + d -> u == k * x + d).
  { intros k d x0 y0 u v E F H. rewrite E, F. auto. }
  assert (QT' : forall x y u v, x == y -> u == v -> times_q (1 * 1) y v -> times_q (1 * 1) x u).
  { intros x0 y0 u v E F H. unfold times_q in *. rewrite E, F. auto. }
  constructor; rewrite ?O1, ?O2, ?O3; auto.
  - rewrite A1, B1. eapply map_rel; [exact S|]. intros r r' (E & _). exact E.
  - rewrite A2, B2. eapply map_rel; [exact S|]. intros r r' (_ & E & _). exact E.
  - eapply (qmap_gr _ (w_mean h w) (w_mean h' w')); [apply QG| |exact S|exact A3|exact B3].
    intros r r' Hr (_ & _ & T1 & T2 & _). destruct (SR r Hr) as (S1 & S2 & _). unfold w_mean.
    rewrite (proj1 (ST _ _ _ _ S1 S2 T1 T2)). ring.
  - eapply (qmap_gr _ (w_var h w) (w_var h' w')); [apply QT'| |exact S|exact A4|exact B4].
    intros r r' Hr (_ & _ & T1 & T2 & _). destruct (SR r Hr) as (S1 & S2 & _). unfold w_var, times_q.
    rewrite (proj2 (ST _ _ _ _ S1 S2 T1 T2)). ring.
  - eapply (qmap_gr _ (w_dark_mean h w) (w_dark_mean h' w')); [apply QG| |exact S|exact A5|exact B5].
    intros r r' Hr (_ & _ & _ & _ & T1 & T2). destruct (SR r Hr) as (_ & _ & S1 & S2). unfold w_dark_mean.
    rewrite (proj1 (ST _ _ _ _ S1 S2 T1 T2)). ring.
  - eapply (qmap_gr _ (w_dark_var h w) (w_dark_var h' w')); [apply QT'| |exact S|exact A6|exact B6].
    intros r r' Hr (_ & _ & _ & _ & T1 & T2). destruct (SR r Hr) as (_ & _ & S1 & S2). unfold w_dark_var, times_q.
    rewrite (proj2 (ST _ _ _ _ S1 S2 T1 T2)). ring.
  - congruence.
  - congruence.
Qed.
End Objects.

Lemma same_of_rescaled o o' n : shaped o n -> rescaled 1 0 1 1 o o' -> forall f, same_value (value_of f o) (value_of f o').
Proof.
  intros SH RS f. apply follows_same. apply (figures_units 1 0 1 1 o o' n); auto; try reflexivity; try (left; reflexivity).
  right. left. reflexivity.
Qed.

Lemma rearranged_figures fs fs' h w p q fname fname' d d' es es' visit_t visit_s visit_t' visit_s' :
  any_order visit_t -> any_order visit_s -> any_order visit_t' -> any_order visit_s' ->
  lists fname d es -> lists fname' d' es' -> complete_set fs h w es -> complete_set fs' h w es' ->
  shuffles h p -> shuffles w q -> Forall2 (restated fs fs' (rearranged h w p q) 1 1) es es' ->
  exists o o', emva fs visit_t visit_s fname (Some d) = Ok (Some o) /\
    emva fs' visit_t' visit_s' fname' (Some d') = Ok (Some o') /\
    forall f, same_value (value_of f o) (value_of f o').
Proof.
  intros VT VS VT' VS' L L' CS CS' P Q0 RE. pose proof (lists_apart _ _ _ L) as AP.
  destruct (emva_chain fs h w visit_t visit_s fname d es VT VS L CS) as (o & rows & E & OK).
  destruct (emva_chain fs' h w visit_t' visit_s' fname' d' es' VT' VS' L' CS') as (o' & rows' & E' & OK').
  exists o, o'. split; [auto|]. split; [auto|].
  apply (same_of_rescaled o o' (length rows)); [eapply ok_shaped; eauto|].
  destruct OK as (R & OK1). destruct OK' as (R' & OK1').
  assert (SP : spatial_ok fs h w es (o_s o)) by tauto. assert (SP' : spatial_ok fs' h w es' (o_s o')) by tauto.
  destruct (series_match fs fs' h w h w _ 1 1 es es' eq_refl RE CS CS' _ _ SP SP')
    as (x & y & dk & br & dk' & br' & Hx & Hy & Ix & Iy & Fd & Fb & T1 & T2 & T3 & T4).
  apply (agree fs fs' h w es es' CS AP (rearranged h w p q) h w o o' rows rows' o'); auto.
  - intros a b a' b' SA SB TA TB. split; [apply (stack_re h w p q P Q0); auto|apply (pair_re h w p q P Q0); auto].
  - split; auto.
  - split; auto.
  - apply (series_re h w p q P Q0 dk dk'); auto.
  - apply (series_re h w p q P Q0 br br'); auto.
Qed.

Lemma turned_figures fs fs' h w p q fname fname' d d' es es' visit_t visit_s visit_t' visit_s' :
  any_order visit_t -> any_order visit_s -> any_order visit_t' -> any_order visit_s' ->
  lists fname d es -> lists fname' d' es' -> complete_set fs h w es -> complete_set fs' w h es' ->
  shuffles h p -> shuffles w q -> Forall2 (restated fs fs' (turned h w p q) 1 1) es es' ->
  exists o o', emva fs visit_t visit_s fname (Some d) = Ok (Some o) /\
    emva fs' visit_t' visit_s' fname' (Some d') = Ok (Some o') /\
    forall f, same_value (value_of f o) (value_of (other_direction f) o').
Proof.
  intros VT VS VT' VS' L L' CS CS' P Q0 RE. pose proof (lists_apart _ _ _ L) as AP.
  destruct (emva_chain fs h w visit_t visit_s fname d es VT VS L CS) as (o & rows & E & OK).
  destruct (emva_chain fs' w h visit_t' visit_s' fname' d' es' VT' VS' L' CS') as (o' & rows' & E' & OK').
  exists o, o'. split; [auto|]. split; [auto|]. intro f. apply turn_same. revert f.
  apply (same_of_rescaled o (turn o') (length rows)); [eapply ok_shaped; eauto|].
  destruct OK as (R & OK1). destruct OK' as (R' & OK1').
  assert (SP : spatial_ok fs h w es (o_s o)) by tauto. assert (SP' : spatial_ok fs' w h es' (o_s o')) by tauto.
  destruct (series_match fs fs' h w w h _ 1 1 es es' eq_refl RE CS CS' _ _ SP SP')
    as (x & y & dk & br & dk' & br' & Hx & Hy & Ix & Iy & Fd & Fb & T1 & T2 & T3 & T4).
  assert (TR : forall l l', Forall2 (turned h w p q) l l' -> Forall2 (rearranged h w p q) l (map tr l')).
  { intros l l' H. induction H; simpl; constructor; auto using turned_tr. }
  apply (agree fs fs' h w es es' CS AP (turned h w p q) w h o o' rows rows' (turn o')); auto.
  - intros a b a' b' SA SB TA TB. split.
    + rewrite <- (stack_tr h w [a'; b']). apply (stack_re h w p q P Q0). apply TR. auto.
    + rewrite <- (pair_tr h w a' b'). apply (pair_re h w p q P Q0); auto using turned_tr.
  - split; auto.
  - split; auto.
  - apply (series_re h w p q P Q0 dk (map tr dk')); auto. apply series_tr. auto.
  - apply (series_re h w p q P Q0 br (map tr br')); auto. apply series_tr. auto.
Qed.

Lemma mirror_shuffles n : shuffles n (mirror n).
Proof.
  unfold shuffles. apply Permutation_sym. apply NoDup_Permutation_bis.
  - apply seq_NoDup.
  - rewrite map_length. auto.
  - intros x X. apply in_seq in X. apply in_map_iff. exists (mirror n x). split; [unfold mirror; lia|].
    apply in_seq. unfold mirror. lia.
Qed.
Lemma id_shuffles n : shuffles n (fun i => i).
Proof. unfold shuffles. rewrite map_id. apply Permutation_refl. Qed.
