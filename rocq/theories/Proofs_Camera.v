(** Camera settings and images. *)
From Coq Require Import List Bool Arith ZArith QArith Qabs Qreals Reals Lia Lqa.
From Verif Require Import Base_Prelude Base_Num Base_Order Base_Float Spec_Num Model_Images Model_Camera
  Spec_Camera Proofs_Round Proofs_Num Proofs_Float.
Import ListNotations.
Open Scope Z_scope.

(** ** The first smallest element *)

Lemma nth_hd (X : list pyfloat) : forall k, nth_error X k = hd_error (skipn k X).
Proof. induction X as [|x X IH]; intros [|k]; simpl; auto. Qed.
Lemma skipn_tl (X : list pyfloat) : forall k, skipn (S k) X = tl (skipn k X).
Proof.
  induction X as [|x X IH]; intros [|k]; auto.
  change (skipn (S (S k)) (x :: X)) with (skipn (S k) X). rewrite IH. reflexivity.
Qed.

Lemma argmin_from_spec (L : list pyfloat) : Forall not_nan L -> forall l i bi b,
  l = skipn i L -> (i + length l = length L)%nat -> (bi < i)%nat ->
  nth_error L bi = Some b ->
  (forall j y, (j < i)%nat -> nth_error L j = Some y ->
     flt y b = false /\ ((j < bi)%nat -> flt b y = true)) ->
  exists m, nth_error L (argmin_from i bi b l) = Some m /\
  forall j y, nth_error L j = Some y ->
    flt y m = false /\ ((j < argmin_from i bi b l)%nat -> flt m y = true).
Proof.
  intro NN. rewrite Forall_forall in NN.
  induction l as [|d l IH]; intros i bi b Hl Hi Hbi Hb Hinv.
  - simpl. exists b. split; auto. intros j y Hj. simpl in Hi.
    assert (j < length L)%nat by (apply nth_error_Some; congruence).
    apply Hinv; auto. lia.
  - assert (Hd : nth_error L i = Some d) by (rewrite nth_hd, <- Hl; reflexivity).
    assert (Hs : l = skipn (S i) L) by (rewrite skipn_tl, <- Hl; reflexivity).
    simpl length in Hi.
    assert (Nd : not_nan d) by (apply NN; eapply nth_error_In, Hd).
    assert (Nb : not_nan b) by (apply NN; eapply nth_error_In, Hb).
    cbn [argmin_from].
    assert (B : better d b = flt d b) by (destruct b, d; try reflexivity; congruence).
    rewrite B. destruct (flt d b) eqn:E.
    + apply IH; auto; try lia.
      intros j y Hj Hy. destruct (Nat.eq_dec j i) as [->|Nj].
      * rewrite Hd in Hy. injection Hy as <-. split; [apply flt_irrefl|lia].
      * assert (Hj' : (j < i)%nat) by lia. destruct (Hinv j y Hj' Hy) as (H1 & H2).
        assert (Ny : not_nan y) by (apply NN; eapply nth_error_In, Hy).
        assert (G : flt d y = true).
        { destruct (flt_total y b Ny Nb) as [F|[F|F]]; [congruence| |].
          - rewrite (feq_flt_r y b d F). exact E.
          - eapply flt_trans; eauto. }
        split; [apply flt_asym, G|auto].
    + apply IH; auto; try lia.
      intros j y Hj Hy. destruct (Nat.eq_dec j i) as [->|Nj].
      * rewrite Hd in Hy. injection Hy as <-. split; [exact E|lia].
      * apply Hinv; auto. lia.
Qed.

Lemma argmin_nan l : forall i bi, argmin_from i bi FNan l = bi.
Proof. induction l as [|d l IH]; intros; simpl; auto. Qed.

Lemma argmin_bound l : forall i bi b, (bi < i)%nat -> (argmin_from i bi b l < i + length l)%nat.
Proof.
  induction l as [|d l IH]; intros i bi b H; simpl; [lia|].
  destruct (better d b).
  - specialize (IH (S i) i d ltac:(lia)). lia.
  - specialize (IH (S i) bi b ltac:(lia)). lia.
Qed.

(** ** The nearest available value *)

Definition distance (v a : pyfloat) : pyfloat := fabs (fsub a v).

(** Anything requested gives an available value, unless there is none. *)
Lemma nearest_some v arr : arr <> [] -> exists r, nearest_value v arr = Ok r /\ In r arr.
Proof.
  intro N. unfold nearest_value. destruct arr as [|a arr]; [congruence|]. cbn [map].
  set (k := argmin_from _ _ _ _).
  assert (Hk : (k < length (a :: arr))%nat).
  { unfold k. eapply Nat.lt_le_trans; [apply argmin_bound; lia|]. rewrite map_length. simpl. lia. }
  destruct (nth_error (a :: arr) k) as [r|] eqn:E.
  - exists r. split; auto. eapply nth_error_In, E.
  - apply nth_error_None in E. lia.
Qed.

Lemma nearest_in v arr r : nearest_value v arr = Ok r -> In r arr.
Proof.
  intro H. destruct arr as [|a arr]; [discriminate|].
  destruct (nearest_some v (a :: arr)) as (x & Hx & I); [discriminate|]. congruence.
Qed.

Lemma nth_map (f : pyfloat -> pyfloat) l k : nth_error (map f l) k = option_map f (nth_error l k).
Proof. revert k. induction l as [|x l IH]; intros [|k]; simpl; auto. Qed.

Lemma nearest_index v arr : arr <> [] -> Forall not_nan (map (distance v) arr) ->
  exists k r, nearest_value v arr = Ok r /\ nth_error arr k = Some r /\
  forall j a, nth_error arr j = Some a ->
    flt (distance v a) (distance v r) = false /\
    ((j < k)%nat -> flt (distance v r) (distance v a) = true).
Proof.
  intros N NN. unfold nearest_value. destruct arr as [|a arr]; [congruence|]. cbn [map] in *.
  set (D := distance v a :: map (distance v) arr) in *.
  destruct (argmin_from_spec D NN (map (distance v) arr) 1 0 (distance v a)) as (m & Hm & M).
  - reflexivity.
  - reflexivity.
  - lia.
  - reflexivity.
  - intros j y Hj Hy. assert (j = 0)%nat by lia. subst j. injection Hy as <-.
    split; [apply flt_irrefl|lia].
  - set (k := argmin_from 1 0 (distance v a) (map (distance v) arr)) in *.
    exists k. change D with (map (distance v) (a :: arr)) in Hm. rewrite nth_map in Hm.
    unfold of_option.
    change (fun a0 : pyfloat => fabs (fsub a0 v)) with (distance v).
    change (fabs (fsub a v)) with (distance v a). fold k.
    destruct (nth_error (a :: arr) k) as [r|] eqn:E; [|discriminate].
    injection Hm as <-. exists r. split; auto. split; auto.
    intros j y Hj. apply M. change D with (map (distance v) (a :: arr)). rewrite nth_map, Hj. reflexivity.
Qed.

Lemma machine_same x : machine_float x <-> machine x.
Proof. reflexivity. Qed.

Lemma distance_rel v a : machine (FFin v) -> machine (FFin a) ->
  exists d, distance (FFin v) (FFin a) = FFin d /\
    ((1 - (1 # 2 ^ 53)) * Qabs (a - v) <= d <= (1 + (1 # 2 ^ 53)) * Qabs (a - v))%Q.
Proof.
  intros Hv Ha. destruct (fsub_rel a v Ha Hv) as (d & Hd & E).
  exists (Qabs d). unfold distance. rewrite Hd. split; [reflexivity|].
  generalize dependent (1 # 2 ^ 53). intros eps E.
  assert (T1 : (Qabs d <= Qabs (d - (a - v)) + Qabs (a - v))%Q).
  { setoid_replace d with (d - (a - v) + (a - v))%Q at 1 by ring. apply Qabs_triangle. }
  assert (T2 : (Qabs (a - v) <= Qabs (d - (a - v)) + Qabs d)%Q).
  { setoid_replace (a - v)%Q with (- (d - (a - v)) + d)%Q at 1 by ring.
    eapply Qle_trans; [apply Qabs_triangle|]. rewrite Qabs_opp. apply Qle_refl. }
  split; lra.
Qed.

Lemma distance_exact v a : machine (FFin v) -> machine (FFin a) -> binary64 (Q2R (a - v)) ->
  exists d, distance (FFin v) (FFin a) = FFin d /\ (d == Qabs (a - v))%Q.
Proof.
  intros Hv Ha F. destruct (fsub_exact a v Ha Hv F) as (d & Hd & E).
  exists (Qabs d). unfold distance. rewrite Hd. split; [reflexivity|]. rewrite E. reflexivity.
Qed.

Lemma machine_distance_nn v arr : machine v -> Forall machine arr -> Forall not_nan (map (distance v) arr).
Proof.
  intros Hv H. apply Forall_forall. intros d Hd. apply in_map_iff in Hd. destruct Hd as (a & <- & I).
  rewrite Forall_forall in H. specialize (H a I). destruct H as (q & -> & Hq). destruct Hv as (p & -> & Hp).
  destruct (distance_rel p q) as (d & -> & _).
  - exists p; auto.
  - exists q; auto.
  - discriminate.
Qed.

(** At most half a millionth of a billionth farther than any other value. *)
Lemma nearest_near v arr r a : machine v -> Forall machine arr ->
  nearest_value v arr = Ok r -> In a arr -> nearer (1 + (1 # 2 ^ 51)) v r a.
Proof.
  intros Hv H Hr Ia. assert (N : arr <> []) by (intro; subst; inversion Ia).
  destruct (nearest_index v arr N (machine_distance_nn v arr Hv H)) as (k & r' & Hr' & Hk & M).
  assert (r' = r) by congruence. subst r'.
  apply In_nth_error in Ia. destruct Ia as (j & Hj). destruct (M j a Hj) as (M1 & _).
  rewrite Forall_forall in H. pose proof (H r (nth_error_In _ _ Hk)) as Mr.
  pose proof (H a (nth_error_In _ _ Hj)) as Ma.
  destruct Hv as (p & -> & Hp). destruct Mr as (q & -> & Hq). destruct Ma as (s & -> & Hs).
  destruct (distance_rel p q) as (d1 & E1 & B1); [exists p; auto|exists q; auto|].
  destruct (distance_rel p s) as (d2 & E2 & B2); [exists p; auto|exists s; auto|].
  rewrite E1, E2 in M1. apply qle_flt in M1.
  exists p, q, s. repeat split; auto.
  pose proof (Qabs_nonneg (q - p)) as P1. pose proof (Qabs_nonneg (s - p)) as P2.
  generalize dependent (Qabs (q - p)). generalize dependent (Qabs (s - p)). intros y B2 P2 x B1 P1.
  apply Qmult_le_l with (z := (1 - (1 # 2 ^ 53))%Q); [reflexivity|].
  apply Qle_trans with ((1 + (1 # 2 ^ 53)) * y)%Q; [lra|].
  rewrite Qmult_assoc. apply Qmult_le_compat_r; auto.
  vm_compute. discriminate.
Qed.

(** Setting a value that was chosen before keeps it. *)
Lemma rnd64_compat p q : (p == q)%Q -> feq (rnd64 p) (rnd64 q) = true.
Proof.
  intro E. assert (L1 : fle (rnd64 p) (rnd64 q)) by (apply rnd64_mono; rewrite E; apply Qle_refl).
  assert (L2 : fle (rnd64 q) (rnd64 p)) by (apply rnd64_mono; rewrite E; apply Qle_refl).
  unfold fle in L1, L2.
  destruct (flt_total (rnd64 p) (rnd64 q) (rnd64_not_nan p) (rnd64_not_nan q)) as [F|[F|F]]; auto.
  - congruence.
  - congruence.
Qed.

Lemma distance_compat v p q : (p == q)%Q -> not_nan v -> feq (distance v (FFin p)) (distance v (FFin q)) = true.
Proof.
  intros E Nv. unfold distance, fsub. destruct v as [s|k|]; [| |congruence].
  - simpl. assert (F : feq (rnd64 (p + - s)) (rnd64 (q + - s)) = true).
    { apply rnd64_compat. rewrite E. reflexivity. }
    destruct (rnd64 (p + - s)), (rnd64 (q + - s)); simpl in *; try discriminate; auto.
    apply Qeq_bool_iff in F. apply Qeq_bool_iff. rewrite F. reflexivity.
  - reflexivity.
Qed.

Lemma distance_nn v p : not_nan v -> not_nan (distance v (FFin p)).
Proof.
  intro N. unfold distance, fsub. destruct v as [s|k|]; simpl; [|discriminate|congruence].
  pose proof (rnd64_not_nan (p + - s)) as R. destruct (rnd64 (p + - s)); simpl; congruence.
Qed.

(** The chosen position: before it nothing equal to the choice. *)
Lemma nearest_first v arr r : Forall machine arr -> nearest_value v arr = Ok r ->
  exists k, nth_error arr k = Some r /\
  forall j a, (j < k)%nat -> nth_error arr j = Some a -> feq a r = false.
Proof.
  intros H Hr. assert (N : arr <> []) by (intro; subst; discriminate).
  destruct (match v with FNan => true | _ => false end) eqn:V.
  - destruct v; try discriminate. exists 0%nat. destruct arr as [|a arr]; [congruence|].
    unfold nearest_value in Hr. cbn [map] in Hr. 
    assert (E : fabs (fsub a FNan) = FNan) by (destruct a; reflexivity).
    rewrite E, argmin_nan in Hr. simpl in Hr. injection Hr as <-. split; [reflexivity|lia].
  - assert (Nv : not_nan v) by (destruct v; congruence).
    destruct (nearest_index v arr N) as (k & r' & Hr' & Hk & M).
    + apply Forall_forall. intros d Hd. apply in_map_iff in Hd. destruct Hd as (a & <- & I).
      rewrite Forall_forall in H. destruct (H a I) as (q & -> & _). apply distance_nn, Nv.
    + assert (r' = r) by congruence. subst r'. exists k. split; auto.
      intros j a Hj Ha. destruct (M j a Ha) as (_ & M2). specialize (M2 Hj).
      destruct (feq a r) eqn:E; auto. exfalso. rewrite Forall_forall in H.
      destruct (H a (nth_error_In _ _ Ha)) as (p & -> & _).
      destruct (H r (nth_error_In _ _ Hk)) as (q & -> & _).
      simpl in E. apply Qeq_bool_iff in E.
      pose proof (distance_compat v p q E Nv) as F. rewrite feq_comm in F.
      apply feq_not_flt in F. congruence.
Qed.

Lemma distance_self q : machine (FFin q) -> exists d, distance (FFin q) (FFin q) = FFin d /\ (d == 0)%Q.
Proof.
  intro H. destruct (distance_rel q q H H) as (d & E & B). exists d. split; auto.
  assert (Z : (Qabs (q - q) == 0)%Q) by (setoid_replace (q - q)%Q with 0%Q by ring; reflexivity).
  generalize dependent (1 # 2 ^ 53). intros eps B. rewrite Z in B. lra.
Qed.

Lemma nearest_again v arr r : Forall machine arr -> nearest_value v arr = Ok r -> nearest_value r arr = Ok r.
Proof.
  intros H Hr. destruct (nearest_first v arr r H Hr) as (k & Hk & F).
  assert (N : arr <> []) by (intro; subst; discriminate).
  pose proof H as H'. rewrite Forall_forall in H'.
  pose proof (H' r (nth_error_In _ _ Hk)) as Mr.
  destruct (nearest_index r arr N (machine_distance_nn r arr Mr H)) as (k' & r' & Hr' & Hk' & M).
  rewrite Hr'. f_equal.
  assert (k' = k); [|congruence].
  destruct Mr as (q & -> & Mq). pose proof (H' r' (nth_error_In _ _ Hk')) as Mr'.
  destruct Mr' as (q' & -> & Mq').
  destruct (distance_self q) as (d & Ed & Zd); [exists q; auto|].
  destruct (distance_rel q q') as (d' & Ed' & B'); [exists q; auto|exists q'; auto|].
  assert (E : (q' == q)%Q).
  { destruct (M k _ Hk) as (M1 & _). rewrite Ed, Ed' in M1. apply qle_flt in M1.
    assert (A : (Qabs (q' - q) <= 0)%Q).
    { apply Qmult_le_l with (z := (1 - (1 # 2 ^ 53))%Q); [reflexivity|].
      rewrite Qmult_0_r. lra. }
    pose proof (Qabs_nonneg (q' - q)).
    apply Qabs_Qle_condition in A. lra. }
  destruct (Nat.lt_trichotomy k' k) as [L|[L|L]]; auto; exfalso.
  - pose proof (F k' _ L Hk') as G. simpl in G. apply Qeq_bool_iff in E. congruence.
  - destruct (M k _ Hk) as (_ & M2). specialize (M2 L). rewrite Ed, Ed' in M2.
    assert (flt (FFin d') (FFin d) = false); [|congruence]. apply qle_flt.
    assert (0 <= d')%Q; [|lra]. eapply Qle_trans; [|apply B'].
    apply Qmult_le_0_compat; [vm_compute; discriminate|apply Qabs_nonneg].
Qed.

(** A request that is available is granted. *)
Lemma nearest_available v arr : Forall machine arr -> In v arr ->
  exists r, nearest_value v arr = Ok r /\ feq r v = true.
Proof.
  intros H I. assert (N : arr <> []) by (intro; subst; inversion I).
  destruct (nearest_some v arr N) as (r & Hr & Ir). exists r. split; auto.
  pose proof H as H'. rewrite Forall_forall in H'.
  destruct (nearest_near v arr r v (H' v I) H Hr I) as (p & q & s & E1 & E2 & E3 & L).
  assert (p = s) by congruence. subst s. subst v r. simpl. apply Qeq_bool_iff.
  assert (Z : (Qabs (p - p) == 0)%Q) by (setoid_replace (p - p)%Q with 0%Q by ring; reflexivity).
  rewrite Z, Qmult_0_r in L. apply Qabs_Qle_condition in L. lra.
Qed.

(** ** Exact differences *)

Lemma nearest_exact_index v arr : machine v -> Forall machine arr ->
  Forall (fun a => exact_difference a v) arr -> arr <> [] ->
  exists k q p, v = FFin p /\ nearest_value v arr = Ok (FFin q) /\ nth_error arr k = Some (FFin q) /\
  forall j a, nth_error arr j = Some a -> exists s, a = FFin s /\
     (Qabs (q - p) <= Qabs (s - p))%Q /\ ((j < k)%nat -> (Qabs (q - p) < Qabs (s - p))%Q).
Proof.
  intros Hv H X N.
  destruct (nearest_index v arr N (machine_distance_nn v arr Hv H)) as (k & r & Hr & Hk & M).
  rewrite Forall_forall in H, X. destruct (H r (nth_error_In _ _ Hk)) as (q & -> & Mq).
  destruct Hv as (p & -> & Hp). exists k, q, p. repeat split; auto.
  assert (D : forall s, In (FFin s) arr -> exists d, distance (FFin p) (FFin s) = FFin d /\ (d == Qabs (s - p))%Q).
  { intros s Is. apply distance_exact; [exists p; auto|auto|].
    destruct (X _ Is) as (a & b & E1 & E2 & F). injection E1 as <-. injection E2 as <-. exact F. }
  intros j a Hj. destruct (M j a Hj) as (M1 & M2).
  destruct (H a (nth_error_In _ _ Hj)) as (s & -> & Ms). exists s. split; auto.
  destruct (D q (nth_error_In _ _ Hk)) as (d1 & E1 & B1).
  destruct (D s (nth_error_In _ _ Hj)) as (d2 & E2 & B2).
  rewrite E1, E2 in M1, M2. split.
  - apply qle_flt in M1. rewrite B1, B2 in M1. exact M1.
  - intro L. specialize (M2 L). rewrite <- B1, <- B2. simpl in M2. apply qlt_bool in M2. exact M2.
Qed.

Lemma nearest_exact v arr r a : machine v -> Forall machine arr ->
  Forall (fun a => exact_difference a v) arr ->
  nearest_value v arr = Ok r -> In a arr -> nearer 1 v r a.
Proof.
  intros Hv H X Hr I. assert (N : arr <> []) by (intro; subst; inversion I).
  destruct (nearest_exact_index v arr Hv H X N) as (k & q & p & -> & Hr' & Hk & M).
  assert (r = FFin q) by congruence. subst r.
  apply In_nth_error in I. destruct I as (j & Hj). destruct (M j a Hj) as (s & -> & L & _).
  exists p, q, s. repeat split; auto. lra.
Qed.

Lemma increasing_nth arr : increasing arr -> forall i j a b, (i < j)%nat ->
  nth_error arr i = Some a -> nth_error arr j = Some b -> below a b.
Proof.
  induction 1 as [|x l F I IH]; intros i j a b L Ha Hb.
  - destruct i; discriminate.
  - destruct j as [|j]; [lia|]. destruct i as [|i]; cbn [nth_error] in Ha, Hb.
    + injection Ha as <-. rewrite Forall_forall in F. apply F. eapply nth_error_In, Hb.
    + apply (IH i j); auto. lia.
Qed.

Lemma Qabs_tie q s p : (q < s)%Q -> (Qabs (s - p) <= Qabs (q - p))%Q -> (q + s <= 2 * p)%Q.
Proof.
  intros L H. revert H. apply Qabs_case; intro A; apply Qabs_case; intros B C; lra.
Qed.
Lemma Qabs_tie' q s p : (q < s)%Q -> (Qabs (s - p) < Qabs (q - p))%Q -> (q + s < 2 * p)%Q.
Proof.
  intros L H. revert H. apply Qabs_case; intro A; apply Qabs_case; intros B C; lra.
Qed.
Lemma Qabs_tie2 q s p : (q < s)%Q -> (Qabs (q - p) <= Qabs (s - p))%Q -> (2 * p <= q + s)%Q.
Proof.
  intros L H. revert H. apply Qabs_case; intro A; apply Qabs_case; intros B C; lra.
Qed.

(** Of two equally near values the smaller. *)
Lemma nearest_tie v arr r a : machine v -> Forall machine arr ->
  Forall (fun a => exact_difference a v) arr -> increasing arr ->
  nearest_value v arr = Ok r -> In a arr -> nearer 1 v a r -> at_most r a.
Proof.
  intros Hv H X Inc Hr I T. assert (N : arr <> []) by (intro; subst; inversion I).
  destruct (nearest_exact_index v arr Hv H X N) as (k & q & p & -> & Hr' & Hk & M).
  assert (r = FFin q) by congruence. subst r.
  apply In_nth_error in I. destruct I as (j & Hj). destruct (M j a Hj) as (s & -> & L & S).
  exists q, s. repeat split; auto.
  destruct T as (p' & s' & q' & E1 & E2 & E3 & T). injection E1 as <-. injection E2 as <-. injection E3 as <-.
  destruct (Nat.lt_trichotomy j k) as [J|[J|J]].
  - specialize (S J). lra.
  - subst j. rewrite Hk in Hj. injection Hj as <-. apply Qle_refl.
  - destruct (increasing_nth arr Inc k j _ _ J Hk Hj) as (x & y & F1 & F2 & F3).
    injection F1 as <-. injection F2 as <-. lra.
Qed.

(** A larger request never gives a smaller setting. *)
Lemma nearest_mono v w arr r t : machine v -> machine w -> Forall machine arr ->
  Forall (fun a => exact_difference a v) arr -> Forall (fun a => exact_difference a w) arr ->
  increasing arr -> at_most v w ->
  nearest_value v arr = Ok r -> nearest_value w arr = Ok t -> at_most r t.
Proof.
  intros Hv Hw H Xv Xw Inc LE Hr Ht. assert (N : arr <> []) by (intro; subst; discriminate).
  destruct (nearest_exact_index v arr Hv H Xv N) as (k & q & p & -> & Hr' & Hk & M).
  destruct (nearest_exact_index w arr Hw H Xw N) as (k2 & q2 & p2 & -> & Ht' & Hk2 & M2).
  assert (r = FFin q) by congruence. subst r. assert (t = FFin q2) by congruence. subst t.
  exists q, q2. repeat split; auto.
  destruct LE as (x & y & E1 & E2 & LE). injection E1 as <-. injection E2 as <-.
  destruct (Nat.lt_trichotomy k k2) as [J|[J|J]].
  - destruct (increasing_nth arr Inc k k2 _ _ J Hk Hk2) as (x & y & F1 & F2 & F3).
    injection F1 as <-. injection F2 as <-. lra.
  - subst k2. rewrite Hk in Hk2. injection Hk2 as <-. apply Qle_refl.
  - exfalso. destruct (increasing_nth arr Inc k2 k _ _ J Hk2 Hk) as (x & y & F1 & F2 & F3).
    injection F1 as <-. injection F2 as <-.
    destruct (M k2 _ Hk2) as (s & Es & _ & S). injection Es as <-. specialize (S J).
    destruct (M2 k _ Hk) as (s & Es & S2 & _). injection Es as <-.
    apply Qabs_tie' in S; auto. apply Qabs_tie2 in S2; auto. lra.
Qed.

(** ** The invariant *)

Definition settings_ok (c : camera) : Prop := In (c_K c) (c_Ks c) /\ In (c_blackoffset c) (c_blackoffsets c).

Lemma step_ok c o : settings_ok c ->
  settings_ok (step c o) /\ c_Ks (step c o) = c_Ks c /\ c_blackoffsets (step c o) = c_blackoffsets c.
Proof.
  intros (H1 & H2). unfold settings_ok. destruct o; simpl; auto.
  - unfold set_K. destruct (nearest_value v (c_Ks c)) as [k|] eqn:E; simpl; auto.
    apply nearest_in in E. auto.
  - unfold set_blackoffset. destruct (nearest_value v (c_blackoffsets c)) as [k|] eqn:E; simpl; auto.
    apply nearest_in in E. auto.
Qed.

Lemma run_ok ops : forall c, settings_ok c ->
  settings_ok (run c ops) /\ c_Ks (run c ops) = c_Ks c /\ c_blackoffsets (run c ops) = c_blackoffsets c.
Proof.
  unfold run. induction ops as [|o ops IH]; intros c H; simpl; auto.
  destruct (step_ok c o H) as (H1 & H2 & H3). destruct (IH _ H1) as (G1 & G2 & G3).
  split; auto. split; congruence.
Qed.

Lemma make_camera_ok b h w e K Kmin Kmax Ks bo bomin bomax bos u d c :
  make_camera b h w e K Kmin Kmax Ks bo bomin bomax bos u d = Ok c -> settings_ok c.
Proof.
  unfold make_camera. destruct (nearest_value K _) as [k|] eqn:E1; [|discriminate]. cbn [bind].
  destruct (nearest_value bo _) as [o|] eqn:E2; [|discriminate]. cbn [bind].
  intro H. injection H as <-. split; simpl.
  - eapply nearest_in, E1.
  - eapply nearest_in, E2.
Qed.

(** ** Images *)

Lemma wrap64_bound z : - 2 ^ 63 <= wrap64 z < 2 ^ 63.
Proof. unfold wrap64. pose proof (Z.mod_pos_bound (z + 2 ^ 63) (2 ^ 64) eq_refl). lia. Qed.

Lemma f_int_finite n : Z.abs n <= 2 ^ 63 -> exists q, f_int n = FFin q.
Proof.
  intro H. apply rnd64_no_overflow.
  assert (E : (Qabs (inject_Z n) == inject_Z (Z.abs n))%Q) by reflexivity.
  rewrite E. rewrite <- Zlt_Qlt. eapply Z.le_lt_trans; [exact H|]. reflexivity.
Qed.

Lemma img_max_bound bits : (bits <= 53)%nat -> 0 <= img_max bits /\ Z.abs (img_max bits) < 2 ^ 53.
Proof.
  intro H. unfold img_max.
  assert (1 <= 2 ^ Z.of_nat bits <= 2 ^ 53).
  { split.
    - pose proof (Z.pow_pos_nonneg 2 (Z.of_nat bits) eq_refl (Nat2Z.is_nonneg _)). lia.
    - apply Z.pow_le_mono_r; lia. }
  lia.
Qed.

Lemma img_type_fits bits : (bits <= 53)%nat -> img_max bits < 2 ^ img_type bits.
Proof.
  intro H. unfold img_max, img_type.
  assert (G : forall k, (Z.of_nat bits <= k) -> 2 ^ Z.of_nat bits - 1 < 2 ^ k).
  { intros k Hk. pose proof (Z.pow_le_mono_r 2 (Z.of_nat bits) k eq_refl Hk). lia. }
  destruct (bits <=? 8)%nat eqn:E1; [apply Nat.leb_le in E1; apply G; lia|].
  destruct (bits <=? 16)%nat eqn:E2; [apply Nat.leb_le in E2; apply G; lia|].
  apply G; lia.
Qed.

(** Clipping and conversion of a rounded image. *)
Lemma digitize bits x : (bits <= 53)%nat -> not_nan x ->
  exists z, as_uint (img_type bits) (fclip fzero (f_int (img_max bits)) (frint x)) = Some z /\
    0 <= z <= img_max bits /\
    ((x = FInf false /\ z = img_max bits) \/ (x = FInf true /\ z = 0) \/
     exists q, x = FFin q /\ z = Z.max 0 (Z.min (q_rint q) (img_max bits))).
Proof.
  intros Hb Nx. destruct (img_max_bound bits Hb) as (M0 & M1). pose proof (img_type_fits bits Hb) as MT.
  destruct (f_int_exact (img_max bits) M1) as (m & Em & Vm). rewrite Em.
  assert (Lm : (0 <= m)%Q).
  { rewrite Vm. rewrite <- (Zle_Qle 0). exact M0. }
  destruct x as [q|n|]; [| |congruence].
  - cbn [frint]. set (i := q_rint q).
    assert (C : exists r z, fclip fzero (FFin m) (FFin (inject_Z i)) = FFin r /\ (r == inject_Z z)%Q /\
                z = Z.max 0 (Z.min i (img_max bits))).
    { unfold fclip, fmaximum, fzero. destruct (flt (FFin (inject_Z i)) (FFin 0)) eqn:E1.
      - simpl in E1. apply qlt_bool in E1. change 0%Q with (inject_Z 0) in E1. rewrite <- Zlt_Qlt in E1.
        unfold fminimum. assert (flt (FFin m) (FFin 0) = false) as -> by (apply qle_flt, Lm).
        exists 0%Q, 0. repeat split; try reflexivity. lia.
      - apply qle_flt in E1. change 0%Q with (inject_Z 0) in E1. rewrite <- Zle_Qle in E1.
        unfold fminimum. destruct (flt (FFin m) (FFin (inject_Z i))) eqn:E2.
        + simpl in E2. apply qlt_bool in E2. rewrite Vm, <- Zlt_Qlt in E2.
          exists m, (img_max bits). repeat split; auto. lia.
        + apply qle_flt in E2. rewrite Vm, <- Zle_Qle in E2.
          exists (inject_Z i), i. repeat split; try reflexivity. lia. }
    destruct C as (r & z & -> & Er & Ez). exists z.
    split; [apply as_uint_int; auto; lia|]. split; [lia|]. right. right. exists q. auto.
  - destruct n.
    + exists 0. change (frint (FInf true)) with (FInf true).
      assert (E : fclip fzero (FFin m) (FInf true) = FFin 0).
      { unfold fclip. change (fmaximum (FInf true) fzero) with (FFin 0). unfold fminimum.
        assert (flt (FFin m) (FFin 0) = false) as -> by (apply qle_flt, Lm). reflexivity. }
      rewrite E. split; [apply as_uint_int; [reflexivity|lia]|]. split; [lia|]. auto.
    + exists (img_max bits). change (fclip fzero (FFin m) (frint (FInf false))) with (FFin m).
      split; [apply as_uint_int; auto; lia|]. split; [lia|]. auto.
Qed.

Lemma electrons_nn t l d n : a_number d -> a_number n ->
  not_nan (fadd (f_int (wrap64 (t + l))) (fadd d n)).
Proof.
  intros Hd (n' & ->). pose proof (wrap64_bound (t + l)).
  destruct (f_int_finite (wrap64 (t + l))) as (q & E); [lia|].
  rewrite E. apply fadd_nn; [exists q; auto|]. apply fadd_nn; [exact Hd|discriminate].
Qed.

Lemma pixel_digitize c t l d n u :
  (c_bits c <= 53)%nat -> a_number (c_K c) -> a_number (c_blackoffset c) ->
  (exists s, c_u_esat c = FFin s /\ (0 <= s)%Q) ->
  a_number d -> a_number n -> a_number u ->
  exists e x z, (exists s, c_u_esat c = FFin s /\ (0 <= e <= s)%Q) /\
    x = fadd (fadd (fmul (c_K c) (FFin e)) u) (c_blackoffset c) /\
    pixel c t l d n u = Some z /\ 0 <= z <= img_max (c_bits c) /\
    ((x = FInf false /\ z = img_max (c_bits c)) \/ (x = FInf true /\ z = 0) \/
     exists q, x = FFin q /\ z = Z.max 0 (Z.min (q_rint q) (img_max (c_bits c)))).
Proof.
  intros Hb HK Hbo (s & Hs & Ps) Hd Hn Hu.
  destruct (fclip_spec 0 s _ (electrons_nn t l d n Hd Hn) Ps) as (e & Ee & Be & _).
  set (x := fadd (fadd (fmul (c_K c) (FFin e)) u) (c_blackoffset c)).
  assert (Nx : not_nan x).
  { unfold x. rewrite fadd_comm. apply fadd_nn; [exact Hbo|]. rewrite fadd_comm. apply fadd_nn; [exact Hu|].
    apply fmul_nn; [exact HK|exists e; reflexivity]. }
  destruct (digitize (c_bits c) x Hb Nx) as (z & Hz & Bz & Cz).
  exists e, x, z. split; [exists s; auto|]. split; [reflexivity|].
  split; [|auto]. unfold pixel. rewrite Hs. cbv zeta. change (FFin 0) with fzero in Ee. rewrite Ee. exact Hz.
Qed.

Lemma pixels_forall (P : option Z -> Prop) c : forall ts ls ds ns us,
  (forall t l d n u, In d ds -> In n ns -> In u us -> P (pixel c t l d n u)) ->
  Forall P (pixels c ts ls ds ns us).
Proof.
  induction ts as [|t ts IH]; intros [|l ls] [|d ds] [|n ns] [|u us] H; simpl; try constructor.
  - apply H; left; reflexivity.
  - apply IH. intros. apply H; right; auto.
Qed.

Lemma pixels_length c : forall ts ls ds ns us k,
  length ts = k -> length ls = k -> length ds = k -> length ns = k -> length us = k ->
  length (pixels c ts ls ds ns us) = k.
Proof.
  induction ts as [|t ts IH]; intros [|l ls] [|d ds] [|n ns] [|u us] k H1 H2 H3 H4 H5;
    simpl in *; subst k; try discriminate.
  - reflexivity.
  - f_equal. apply IH; congruence.
Qed.

Lemma grab_pixels c d : good_camera c -> good_draws c d ->
  exists img, grab c d = Ok img /\ length img = (c_height c * c_width c)%nat /\
  forall P : option Z -> Prop,
   (forall t l ds n u, a_number ds -> a_number n -> half_open u -> P (pixel c t l ds n u)) ->
   Forall P img.
Proof.
  intros (_ & _ & _ & L & F) (ts & ls & ns & Et & El & En & Lt & Ll & Ln & Lu & Fn & Fu).
  unfold grab. rewrite Et, El, En. cbn [bind]. rewrite L, Nat.eqb_refl. eexists. split; [reflexivity|].
  split; [apply pixels_length; auto|].
  intros P H. rewrite Forall_forall in F, Fn, Fu. apply pixels_forall. intros. apply H; auto.
Qed.

Lemma half_number u : half_open u -> a_number u.
Proof. intros (q & -> & _). exists q. reflexivity. Qed.

Lemma grab_range c d : (c_bits c <= 53)%nat -> good_camera c -> good_draws c d ->
  exists img, grab c d = Ok img /\ length img = (c_height c * c_width c)%nat /\
  Forall (fun p => exists z, p = Some z /\ 0 <= z <= 2 ^ Z.of_nat (c_bits c) - 1 /\
                             z < 2 ^ img_type (c_bits c)) img.
Proof.
  intros Hb G D. destruct (grab_pixels c d G D) as (img & E & L & F).
  exists img. split; auto. split; auto. apply F. intros t l ds n u Hd Hn Hu.
  destruct G as (GK & Gb & Gu & _). pose proof (img_type_fits _ Hb).
  destruct (pixel_digitize c t l ds n u) as (e & x & z & _ & _ & -> & B & _); auto.
  { apply half_number, Hu. }
  exists z. split; auto. split; [exact B|lia].
Qed.

(** The full well limits the signal. *)
Lemma pixel_full_well c t l d n u k s b :
  (c_bits c <= 53)%nat -> c_K c = FFin k -> c_u_esat c = FFin s -> c_blackoffset c = FFin b ->
  (0 <= k)%Q -> (0 <= s)%Q -> (0 <= b)%Q -> (k * s + b <= inject_Z (2 ^ 43))%Q ->
  a_number d -> a_number n -> half_open u ->
  exists z, pixel c t l d n u = Some z /\
    (inject_Z z <= k * s + b + 1 + (1 # 100))%Q /\
    ((b - 1 - (1 # 100) <= inject_Z z)%Q \/ z = img_max (c_bits c)).
Proof.
  intros Hb HK Hs Hbo Pk Ps Pb B Hd Hn Hu.
  destruct (pixel_digitize c t l d n u) as (e & x & z & (s' & Es & Be) & Ex & Ez & Bz & Cz); auto.
  { rewrite HK. exists k. auto. } { rewrite Hbo. exists b. auto. } { exists s. auto. }
  { apply half_number, Hu. }
  assert (s' = s) by congruence. subst s'. clear Es.
  exists z. split; auto.
  destruct Hu as (r & -> & Br). rewrite HK, Hbo in Ex.
  assert (KE : (0 <= k * e <= k * s)%Q).
  { split; [apply Qmult_le_0_compat; lra|]. rewrite (Qmult_comm k e), (Qmult_comm k s).
    apply Qmult_le_compat_r; lra. }
  generalize dependent (k * s)%Q. intros ks B KE.
  change (inject_Z (2 ^ 43)) with (8796093022208 # 1)%Q in B.
  assert (S0 : forall q, (0 - (1 # 1) <= q <= (8796093022208 # 1) + 2)%Q -> (Qabs q <= inject_Z (2 ^ 44))%Q).
  { intros q Hq. change (inject_Z (2 ^ 44)) with (17592186044416 # 1)%Q. apply Qabs_case; intros _; lra. }
  cbn [fmul] in Ex. destruct (rnd64_small (k * e)) as (v1 & E1 & A1); [apply S0; lra|].
  apply Qabs_Qle_condition in A1. rewrite E1 in Ex. cbn [fadd] in Ex.
  destruct (rnd64_small (v1 + r)) as (v2 & E2 & A2); [apply S0; lra|].
  apply Qabs_Qle_condition in A2. rewrite E2 in Ex. cbn [fadd] in Ex.
  destruct (rnd64_small (v2 + b)) as (v3 & E3 & A3); [apply S0; lra|].
  apply Qabs_Qle_condition in A3. rewrite E3 in Ex.
  destruct Cz as [(C & _)|[(C & _)|(q & C & Zq)]]; try congruence.
  assert (q = v3) by congruence. subst q. clear C Ex.
  pose proof (q_rint_near v3) as A4. apply Qabs_Qle_condition in A4.
  destruct (img_max_bound _ Hb) as (M0 & _).
  split.
  - assert (L : z <= Z.max 0 (q_rint v3)) by lia.
    rewrite Zle_Qle in L. destruct (Z.max_spec 0 (q_rint v3)) as [(_ & M)|(_ & M)]; rewrite M in L.
    + lra.
    + change (inject_Z 0) with 0%Q in L. lra.
  - destruct (Z.le_gt_cases (img_max (c_bits c)) (q_rint v3)) as [G|G].
    + right. lia.
    + left. assert (L : q_rint v3 <= z) by lia. rewrite Zle_Qle in L. lra.
Qed.

Lemma grab_full_well c d k s b : (c_bits c <= 53)%nat -> good_camera c -> good_draws c d ->
  c_K c = FFin k -> c_u_esat c = FFin s -> c_blackoffset c = FFin b ->
  (0 <= k)%Q -> (0 <= s)%Q -> (0 <= b)%Q -> (k * s + b <= inject_Z (2 ^ 43))%Q ->
  exists img, grab c d = Ok img /\
  Forall (fun p => exists z, p = Some z /\
    (inject_Z z <= k * s + b + 1 + (1 # 100))%Q /\
    ((b - 1 - (1 # 100) <= inject_Z z)%Q \/ z = 2 ^ Z.of_nat (c_bits c) - 1)) img.
Proof.
  intros Hb G D HK Hs Hbo Pk Ps Pb B. destruct (grab_pixels c d G D) as (img & E & _ & F).
  exists img. split; auto. apply F. intros t l ds n u Hd Hn Hu.
  apply pixel_full_well; auto.
Qed.

(** ** Setting *)

Lemma set_K_value c v c' : set_K c v = Ok c' ->
  nearest_value v (c_Ks c) = Ok (c_K c') /\ c_Ks c' = c_Ks c /\
  c' = mkCam (c_bits c) (c_height c) (c_width c) (c_exposure c) (c_Ks c) (c_K c')
        (c_blackoffsets c) (c_blackoffset c) (c_u_esat c) (c_dsnu c).
Proof.
  unfold set_K. destruct (nearest_value v (c_Ks c)) as [k|]; [|discriminate]. cbn [bind].
  intro H. injection H as <-. auto.
Qed.

Lemma set_bo_value c v c' : set_blackoffset c v = Ok c' ->
  nearest_value v (c_blackoffsets c) = Ok (c_blackoffset c') /\ c_blackoffsets c' = c_blackoffsets c /\
  c' = mkCam (c_bits c) (c_height c) (c_width c) (c_exposure c) (c_Ks c) (c_K c)
        (c_blackoffsets c) (c_blackoffset c') (c_u_esat c) (c_dsnu c).
Proof.
  unfold set_blackoffset. destruct (nearest_value v (c_blackoffsets c)) as [k|]; [|discriminate]. cbn [bind].
  intro H. injection H as <-. auto.
Qed.

Lemma set_K_again c v c' : Forall machine (c_Ks c) -> set_K c v = Ok c' -> set_K c' (c_K c') = Ok c'.
Proof.
  intros F H. destruct (set_K_value _ _ _ H) as (H1 & H2 & H3).
  unfold set_K. rewrite H2, (nearest_again _ _ _ F H1). cbn [bind]. f_equal. rewrite H3. reflexivity.
Qed.

Lemma set_bo_again c v c' : Forall machine (c_blackoffsets c) ->
  set_blackoffset c v = Ok c' -> set_blackoffset c' (c_blackoffset c') = Ok c'.
Proof.
  intros F H. destruct (set_bo_value _ _ _ H) as (H1 & H2 & H3).
  unfold set_blackoffset. rewrite H2, (nearest_again _ _ _ F H1). cbn [bind]. f_equal. rewrite H3. reflexivity.
Qed.

Lemma camera_runs b h w e K Kmin Kmax Ks bo bomin bomax bos u d c ops :
  make_camera b h w e K Kmin Kmax Ks bo bomin bomax bos u d = Ok c ->
  In (c_K (run c ops)) (c_Ks c) /\ In (c_blackoffset (run c ops)) (c_blackoffsets c).
Proof.
  intro H. apply make_camera_ok in H. destruct (run_ok ops c H) as ((A & B) & C & D).
  rewrite C in A. rewrite D in B. auto.
Qed.

Lemma set_K_total c v : c_Ks c <> [] -> exists c', set_K c v = Ok c'.
Proof.
  intro N. destruct (nearest_some v _ N) as (r & H & _). unfold set_K. rewrite H. eexists; reflexivity.
Qed.
Lemma set_bo_total c v : c_blackoffsets c <> [] -> exists c', set_blackoffset c v = Ok c'.
Proof.
  intro N. destruct (nearest_some v _ N) as (r & H & _). unfold set_blackoffset. rewrite H. eexists; reflexivity.
Qed.

Lemma set_near c v : machine v ->
  (forall c' a, Forall machine (c_Ks c) -> set_K c v = Ok c' -> In a (c_Ks c) ->
     nearer (1 + (1 # 2 ^ 51)) v (c_K c') a) /\
  (forall c' a, Forall machine (c_blackoffsets c) -> set_blackoffset c v = Ok c' -> In a (c_blackoffsets c) ->
     nearer (1 + (1 # 2 ^ 51)) v (c_blackoffset c') a).
Proof.
  intro Hv. split; intros c' a F H I.
  - destruct (set_K_value _ _ _ H) as (H1 & _). eapply nearest_near; eauto.
  - destruct (set_bo_value _ _ _ H) as (H1 & _). eapply nearest_near; eauto.
Qed.

Lemma set_available c v :
  (Forall machine (c_Ks c) -> In v (c_Ks c) -> exists c', set_K c v = Ok c' /\ feq (c_K c') v = true) /\
  (Forall machine (c_blackoffsets c) -> In v (c_blackoffsets c) ->
     exists c', set_blackoffset c v = Ok c' /\ feq (c_blackoffset c') v = true).
Proof.
  split; intros F I; destruct (nearest_available v _ F I) as (r & H & E).
  - unfold set_K. rewrite H. eexists; split; [reflexivity|exact E].
  - unfold set_blackoffset. rewrite H. eexists; split; [reflexivity|exact E].
Qed.

(** ** linspace *)

Lemma set_last_length {A} (x : A) l : length (set_last x l) = length l.
Proof. induction l as [|a l IH]; auto. destruct l; simpl in *; auto. Qed.
Lemma set_last_last {A} (x d : A) l : l <> [] -> last (set_last x l) d = x.
Proof.
  induction l as [|a l IH]; [congruence|]. intros _. destruct l as [|b l]; [reflexivity|].
  change (set_last x (a :: b :: l)) with (a :: set_last x (b :: l)).
  assert (set_last x (b :: l) <> []) by (destruct l; discriminate).
  destruct (set_last x (b :: l)) as [|p l0] eqn:E; [congruence|].
  change (last (p :: l0) d = x). apply IH. discriminate.
Qed.
Lemma set_last_hd {A} (x a b : A) l : hd_error (set_last x (a :: b :: l)) = Some a.
Proof. reflexivity. Qed.

Lemma linspace_length a b n : length (linspace a b n) = n.
Proof.
  unfold linspace. destruct (n <=? 1)%nat; [|rewrite set_last_length]; rewrite map_length;
    [|destruct (feq _ _)]; rewrite !map_length, seq_length; reflexivity.
Qed.

Lemma linspace_last a b n d : (2 <= n)%nat -> last (linspace a b n) d = b.
Proof.
  intro H. pose proof (linspace_length a b n) as L. revert L. unfold linspace.
  assert ((n <=? 1)%nat = false) as -> by (apply Nat.leb_gt; lia).
  rewrite set_last_length. intro L. apply set_last_last. intro E. rewrite E in L. simpl in L. lia.
Qed.

Lemma rnd64_zero q : (q == 0)%Q -> rnd64 q = FFin 0.
Proof.
  intro E. unfold rnd64. unfold Qeq in E. cbn [Qnum Qden] in E. rewrite Z.mul_1_r in E.
  rewrite E. reflexivity.
Qed.

Lemma f_int_pos n : 1 <= n -> f_int n = FInf false \/ exists q, f_int n = FFin q /\ (1 <= q)%Q.
Proof.
  intro H. unfold f_int. assert (L : fle (rnd64 (inject_Z 1)) (rnd64 (inject_Z n))).
  { apply rnd64_mono. rewrite <- Zle_Qle. exact H. }
  assert (E : exists v, rnd64 (inject_Z 1) = FFin v /\ (v == 1)%Q) by (apply (f_int_exact 1); reflexivity).
  destruct E as (v & E & V). rewrite E in L. unfold fle in L.
  pose proof (rnd64_not_nan (inject_Z n)).
  destruct (rnd64 (inject_Z n)) as [q|[]|]; try congruence; auto.
  - right. exists q. split; auto. apply qle_flt in L. rewrite <- V. exact L.
  - discriminate.
Qed.

Lemma div_finite d y : (Qabs d <= inject_Z (2 ^ 1023))%Q -> (1 <= y)%Q ->
  exists q, rnd64 (d / y) = FFin q.
Proof.
  intros B Hy. destruct (rnd64_bound (d / y)) as (q & E & _); [|eauto].
  eapply Qle_trans; [|exact B].
  unfold Qdiv. rewrite Qabs_Qmult. rewrite <- (Qmult_1_r (Qabs d)) at 2.
  rewrite (Qmult_comm _ (Qabs (/ y))), (Qmult_comm _ 1).
  apply Qmult_le_compat_r; [|apply Qabs_nonneg].
  rewrite Qabs_pos by (apply Qinv_le_0_compat; lra).
  apply Qmult_le_l with (z := y); [lra|]. rewrite Qmult_inv_r by lra. lra.
Qed.

Lemma linspace_first a b n : machine a -> machine b -> (2 <= n)%nat ->
  exists x, hd_error (linspace a b n) = Some x /\ feq x a = true.
Proof.
  intros Ha Hb Hn. unfold linspace.
  assert ((n <=? 1)%nat = false) as -> by (apply Nat.leb_gt; lia).
  destruct n as [|[|m]]; try lia. cbn [seq map].
  change (Z.of_nat 0) with 0. change (f_int 0) with (FFin 0).
  destruct Ha as (p & -> & Hp & Bp). destruct Hb as (r & -> & Hr & Br).
  assert (D : exists d, fsub (FFin r) (FFin p) = FFin d /\ (Qabs d <= inject_Z (2 ^ 1023))%Q).
  { apply rnd64_bound, Qlt_le_weak, sub_bound; auto. }
  destruct D as (d & -> & B).
  assert (A : forall x, x = FFin 0 -> feq (fadd x (FFin p)) (FFin p) = true).
  { intros x ->. cbn [fadd]. destruct (rnd64_exact p) as (v & E & V); auto.
    - apply Qlt_Rlt in Bp. rewrite Q2R_Qabs, Q2R_inject_Z in Bp.
      eapply Rlt_trans; [exact Bp|]. rewrite bpow_Z by lia. apply IZR_lt. reflexivity.
    - pose proof (rnd64_compat (0 + p) p ltac:(ring)) as F. rewrite E in F.
      destruct (rnd64 (0 + p)); try discriminate. simpl in *. apply Qeq_bool_iff in F.
      apply Qeq_bool_iff. rewrite F. exact V. }
  destruct (f_int_pos (Z.of_nat (S (S m) - 1)) ltac:(lia)) as [E|(y & E & Y)]; rewrite E.
  - cbn [fdiv]. change (feq (FFin 0) fzero) with true. cbn iota. cbn [map].
    eexists. split; [reflexivity|]. apply A. cbn [fmul]. apply rnd64_zero. ring.
  - assert (NY : (Qnum y =? 0) = false).
    { apply Z.eqb_neq. intro Z. destruct y as [yn yd]. simpl in Z. subst yn.
      unfold Qle in Y. simpl in Y. lia. }
    cbn [fdiv]. rewrite NY. destruct (div_finite d y B Y) as (st & ->).
    destruct (feq (FFin st) fzero); cbn [map].
    + eexists. split; [reflexivity|]. apply A.
      assert (rnd64 (0 / y) = FFin 0) as -> by (apply rnd64_zero; unfold Qdiv; ring).
      cbn [fmul]. apply rnd64_zero. ring.
    + eexists. split; [reflexivity|]. apply A. cbn [fmul]. apply rnd64_zero. ring.
Qed.

Lemma settings_range b h w e K Kmin Kmax Ks bo bomin bomax bos u d c :
  make_camera b h w e K Kmin Kmax Ks bo bomin (Some bomax) bos u d = Ok c ->
  machine Kmin -> machine Kmax -> machine bomin -> machine bomax -> feq bomax fzero = false ->
  (2 <= Ks)%nat -> (2 <= bos)%nat ->
  length (c_Ks c) = Ks /\ last (c_Ks c) FNan = Kmax /\
  (exists x, hd_error (c_Ks c) = Some x /\ feq x Kmin = true) /\
  length (c_blackoffsets c) = bos /\ last (c_blackoffsets c) FNan = bomax /\
  (exists x, hd_error (c_blackoffsets c) = Some x /\ feq x bomin = true).
Proof.
  intros H M1 M2 M3 M4 N L1 L2. unfold make_camera in H. rewrite N in H.
  destruct (nearest_value K _) as [k|]; [|discriminate]. cbn [bind] in H.
  destruct (nearest_value bo _) as [o|]; [|discriminate]. cbn [bind] in H.
  injection H as <-. cbn [c_Ks c_blackoffsets]. rewrite !linspace_length, !linspace_last by auto.
  repeat split; auto; apply linspace_first; auto.
Qed.
