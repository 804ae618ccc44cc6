(** Profiles of images. *)
From Coq Require Import List Bool Arith ZArith QArith Sorted Lia Lqa.
From Verif Require Import Base_Prelude Base_Num Base_Float Base_Order Base_Sum Model_Images Model_Data
  Model_Profile Spec_Profile.
Import ListNotations.
Open Scope nat_scope.

Definition pic (im : qimage) : picture :=
  mkPic (q_h im) (q_w im)
        (fun i j => match q_kind im with Masked m => negb (m i j) | _ => true end) (q_at im).

Lemma at_seen im i j :
  at_ im i j = if visible (pic im) i j then Some (q_at im i j) else None.
Proof. unfold at_, pic; simpl. destruct (q_kind im); auto. destruct (m i j); auto. Qed.

Lemma pic_transpose im : pic (transpose im) = flipped (pic im).
Proof.
  unfold pic, transpose, flipped; simpl. f_equal. destruct (q_kind im); reflexivity.
Qed.

(** ** Columns *)

Lemma present_in {A} (l : list (option A)) x : In x (present l) <-> In (Some x) l.
Proof.
  induction l as [|[a|] l IH]; simpl; [tauto| |].
  - rewrite IH. split; intros [H|H]; auto; left; congruence.
  - rewrite IH. split; [auto|]. intros [H|H]; [discriminate|auto].
Qed.

Lemma column_in im j v : In v (column im j) <->
  exists i, i < q_h im /\ visible (pic im) i j = true /\ v = q_at im i j.
Proof.
  unfold column. rewrite present_in, in_map_iff. split.
  - intros (i & E & Hi). apply in_seq in Hi. rewrite at_seen in E.
    exists i. destruct (visible (pic im) i j); [|discriminate]. split; [lia|split; congruence].
  - intros (i & Hi & Hv & ->). exists i. rewrite at_seen, Hv. split; auto. apply in_seq. lia.
Qed.

Lemma column_sum im j : (lsumq (column im j) == seen_sum (pic im) j)%Q.
Proof.
  unfold column, seen_sum. change (rows (pic im)) with (q_h im).
  rewrite <- lsumq_sumq. generalize (seq 0 (q_h im)). intros l.
  induction l as [|i l IH]; [reflexivity|]. cbn [map present flat_map].
  rewrite at_seen. change (value (pic im) i j) with (q_at im i j).
  destruct (visible (pic im) i j); cbn [app lsumq]; unfold present in IH; rewrite IH; lra.
Qed.

Lemma column_count im j : (qn (length (column im j)) == seen_count (pic im) j)%Q.
Proof.
  unfold column, seen_count. change (rows (pic im)) with (q_h im).
  rewrite <- lsumq_sumq. generalize (seq 0 (q_h im)). intros l.
  induction l as [|i l IH]; [reflexivity|]. cbn [map present flat_map].
  rewrite at_seen. destruct (visible (pic im) i j); cbn [app lsumq length]; unfold present in IH.
  - rewrite qn_S, IH. lra.
  - rewrite IH. lra.
Qed.

Lemma qmin_spec l : forall x, In (qmin x l) (x :: l) /\ forall y, In y (x :: l) -> (qmin x l <= y)%Q.
Proof.
  unfold qmin. induction l as [|b l IH]; intros x; cbn [fold_left].
  - split; [left; auto|]. intros y [->|[]]. lra.
  - destruct (Qle_bool x b) eqn:E.
    + apply Qle_bool_iff in E. destruct (IH x) as [I L]. split.
      * destruct I as [I|I]; [left; auto|right; right; auto].
      * intros y [<-|[<-|H]]; [apply L; left; auto| |apply L; right; auto].
        specialize (L x (or_introl eq_refl)). lra.
    + assert (b < x)%Q. { apply Qnot_le_lt. intros G. apply Qle_bool_iff in G. congruence. }
      destruct (IH b) as [I L]. split; [right; exact I|].
      intros y [<-|H']; [|apply L; auto].
      specialize (L b (or_introl eq_refl)). lra.
Qed.

Lemma qmax_spec l : forall x, In (qmax x l) (x :: l) /\ forall y, In y (x :: l) -> (y <= qmax x l)%Q.
Proof.
  unfold qmax. induction l as [|b l IH]; intros x; cbn [fold_left].
  - split; [left; auto|]. intros y [->|[]]. lra.
  - destruct (Qle_bool b x) eqn:E.
    + apply Qle_bool_iff in E. destruct (IH x) as [I L]. split.
      * destruct I as [I|I]; [left; auto|right; right; auto].
      * intros y [<-|[<-|H]]; [apply L; left; auto| |apply L; right; auto].
        specialize (L x (or_introl eq_refl)). lra.
    + assert (x < b)%Q. { apply Qnot_le_lt. intros G. apply Qle_bool_iff in G. congruence. }
      destruct (IH b) as [I L]. split; [right; exact I|].
      intros y [<-|H']; [|apply L; auto].
      specialize (L b (or_introl eq_refl)). lra.
Qed.

(** ** Curves *)

Definition points (p : list (option Q)) : list (nat * Q) :=
  flat_map (fun jo => match snd jo with Some v => [(fst jo, v)] | None => [] end)
    (combine (seq 0 (length p)) p).

Lemma points_from k (p : list (option Q)) :
  let l := flat_map (fun jo => match snd jo with Some v => [(fst jo, v)] | None => [] end)
    (combine (seq k (length p)) p) in
  StronglySorted lt (map fst l) /\ (forall j, In j (map fst l) -> k <= j) /\
  forall j v, In (j, v) l <-> k <= j /\ nth_error p (j - k) = Some (Some v).
Proof.
  revert k. induction p as [|o p IH]; intros k; cbn [length seq combine flat_map].
  - split; [constructor|]. split; [intros j []|]. intros j v. split; [intros []|].
    intros [_ E]. destruct (j - k); discriminate.
  - destruct (IH (S k)) as (S1 & S2 & S3). cbn [snd fst].
    assert (N : forall j v, k <= j -> k <> j ->
      nth_error (o :: p) (j - k) = Some (Some v) <-> nth_error p (j - S k) = Some (Some v)).
    { intros j v L1 L2. replace (j - k) with (S (j - S k)) by lia. reflexivity. }
    destruct o as [x|]; cbn [app].
    + split; [|split].
      * cbn [map fst]. constructor; [exact S1|]. apply Forall_forall. intros j Hj.
        apply S2 in Hj. lia.
      * cbn [map fst]. intros j [<-|Hj]; [lia|]. apply S2 in Hj. lia.
      * intros j v. cbn [In]. rewrite S3. destruct (Nat.eq_dec k j) as [->|D].
        -- rewrite Nat.sub_diag. cbn [nth_error]. split.
           ++ intros [E|[H _]]; [|lia]. split; [lia|congruence].
           ++ intros [_ E]. left. congruence.
        -- split.
           ++ intros [E|[H E]]; [congruence|]. split; [lia|]. apply N; auto; lia.
           ++ intros [H E]. right. split; [lia|]. apply N; auto.
    + split; [exact S1|]. split; [intros j Hj; apply S2 in Hj; lia|].
      intros j v. rewrite S3. destruct (Nat.eq_dec k j) as [->|D].
      * rewrite Nat.sub_diag. cbn [nth_error]. split; [lia|]. intros [_ E]. discriminate.
      * split.
        -- intros [H E]. split; [lia|]. apply N; auto; lia.
        -- intros [H E]. split; [lia|]. apply N; auto.
Qed.

Lemma points_map w (f : nat -> option Q) (P : nat -> Q -> Prop) :
  (forall j v, j < w -> f j = Some v -> P j v) ->
  (forall j v, P j v -> j < w /\ f j <> None) ->
  curve P (points (map f (seq 0 w))).
Proof.
  intros H1 H2. unfold points. destruct (points_from 0 (map f (seq 0 w))) as (S1 & _ & S3).
  assert (N : forall j o, nth_error (map f (seq 0 w)) j = Some o <-> j < w /\ f j = o).
  { intros j o. destruct (le_lt_dec w j) as [L|L].
    - split; [|lia]. intros E. assert (j < length (map f (seq 0 w))) by (apply nth_error_Some; congruence).
      rewrite map_length, seq_length in H. lia.
    - rewrite nth_error_map.
      assert (E : nth_error (seq 0 w) j = Some j).
      { rewrite (nth_error_nth' _ 0) by (rewrite seq_length; auto). rewrite seq_nth; auto. }
      rewrite E. simpl. split; [intros [=]; auto|intros [_ ->]; auto]. }
  split; [exact S1|]. split.
  - intros j v Hj. apply S3 in Hj. rewrite Nat.sub_0_r in Hj. destruct Hj as [_ Hj].
    apply N in Hj. apply H1; tauto.
  - intros j v Hj. destruct (H2 j v Hj) as [L Hf]. destruct (f j) as [v'|] eqn:E; [|congruence].
    exists v'. apply S3. rewrite Nat.sub_0_r. split; [lia|]. apply N; auto.
Qed.

Lemma column_nonempty im j : column im j <> [] <->
  exists i, i < q_h im /\ visible (pic im) i j = true.
Proof.
  split.
  - intros H. destruct (column im j) as [|v l] eqn:E; [congruence|].
    destruct (proj1 (column_in im j v)) as (i & Hi & Hv & _); [rewrite E; left; auto|]. eauto.
  - intros (i & Hi & Hv) E. assert (In (q_at im i j) (column im j)) by (apply column_in; eauto).
    rewrite E in H. destruct H.
Qed.

Lemma curve_mean im : curve (average (pic im)) (points (reduce qmean im)).
Proof.
  apply points_map.
  - intros j v Hj E. destruct (column im j) as [|x l] eqn:C; [discriminate|].
    injection E as <-. split; [exact Hj|]. split.
    { apply column_nonempty. rewrite C. discriminate. }
    rewrite <- column_sum, <- column_count, C. unfold qmean.
    assert (~ qn (length (x :: l)) == 0)%Q by (apply qn_neq0; simpl; lia).
    field. exact H.
  - intros j v (Hj & Hi & _). split; [exact Hj|]. apply column_nonempty in Hi.
    destruct (column im j); congruence.
Qed.

Lemma appears_seen p j v : appears p j v -> j < cols p /\ exists i, i < rows p /\ visible p i j = true.
Proof. intros (Hj & i & Hi & Hv & _). eauto. Qed.

Lemma curve_min im : curve (least (pic im)) (points (reduce qmin im)).
Proof.
  apply points_map.
  - intros j v Hj E. destruct (column im j) as [|x l] eqn:C; [discriminate|].
    injection E as <-. destruct (qmin_spec l x) as [I L]. rewrite <- C in I, L. split.
    + apply column_in in I. destruct I as (i & Hi & Hv & E). split; [exact Hj|].
      exists i. split; [exact Hi|]. split; [exact Hv|]. rewrite E. reflexivity.
    + intros i Hi Hv. apply L, column_in. eauto.
  - intros j v [A _]. apply appears_seen in A. destruct A as [Hj Hi]. split; [exact Hj|].
    apply column_nonempty in Hi. destruct (column im j); congruence.
Qed.

Lemma curve_max im : curve (greatest (pic im)) (points (reduce qmax im)).
Proof.
  apply points_map.
  - intros j v Hj E. destruct (column im j) as [|x l] eqn:C; [discriminate|].
    injection E as <-. destruct (qmax_spec l x) as [I L]. rewrite <- C in I, L. split.
    + apply column_in in I. destruct I as (i & Hi & Hv & E). split; [exact Hj|].
      exists i. split; [exact Hi|]. split; [exact Hv|]. rewrite E. reflexivity.
    + intros i Hi Hv. apply L, column_in. eauto.
  - intros j v [A _]. apply appears_seen in A. destruct A as [Hj Hi]. split; [exact Hj|].
    apply column_nonempty in Hi. destruct (column im j); congruence.
Qed.

Lemma curve_row im i : curve (pixel_of_row (pic im) i) (points (map (at_ im i) (seq 0 (q_w im)))).
Proof.
  apply points_map.
  - intros j v Hj E. rewrite at_seen in E. split; [exact Hj|].
    destruct (visible (pic im) i j); [|discriminate]. injection E as <-. split; reflexivity.
  - intros j v (Hj & Hv & _). split; [exact Hj|]. rewrite at_seen, Hv. discriminate.
Qed.

Lemma get_x_y_ok k p : k <> NoMask -> get_x_y k p = Ok (points p).
Proof. destruct k; [reflexivity|congruence|reflexivity]. Qed.

Lemma row_masked im i : forallb is_masked (map (at_ im i) (seq 0 (q_w im))) = true <->
  forall j, j < q_w im -> visible (pic im) i j = false.
Proof.
  rewrite forallb_forall. split.
  - intros H j Hj. specialize (H (at_ im i j)). rewrite at_seen in H.
    destruct (visible (pic im) i j) eqn:E; auto. exfalso.
    enough (is_masked (Some (q_at im i j)) = true) by discriminate. apply H.
    apply in_map_iff. exists j. rewrite at_seen, E. split; auto. apply in_seq. lia.
  - intros H o Ho. apply in_map_iff in Ho. destruct Ho as (j & <- & Hj). apply in_seq in Hj.
    rewrite at_seen, H by lia. reflexivity.
Qed.

(** Everything about an image that can be drawn. *)
Definition drawn (p : picture) (f : profiles) : Prop :=
  exists m, middle p m /\ m < rows p /\
    curve (average p) (f_mean f) /\ curve (least p) (f_min f) /\ curve (greatest p) (f_max f) /\
    curve (pixel_of_row p m) (f_mid f).

Lemma half_below h : 0 < h -> h / 2 < h.
Proof. intros H. apply Nat.div_lt; lia. Qed.

Lemma horizontal im m : q_kind im <> NoMask -> 0 < q_h im -> 0 < q_w im ->
  middle (pic im) m -> m < q_h im ->
  exists f, image_profiles false im = Ok f /\
    curve (average (pic im)) (f_mean f) /\ curve (least (pic im)) (f_min f) /\
    curve (greatest (pic im)) (f_max f) /\ curve (pixel_of_row (pic im) m) (f_mid f).
Proof.
  intros K Hh Hw M Hm. unfold image_profiles.
  destruct (q_h im =? 0) eqn:E; [apply Nat.eqb_eq in E; lia|].
  unfold row at 1. pose proof (half_below _ Hh) as Hb. apply Nat.ltb_lt in Hb. rewrite Hb.
  cbn [bind].
  assert (R : match q_kind im with
      | Masked _ => if forallb is_masked (map (at_ im (q_h im / 2)) (seq 0 (q_w im)))
                    then row im (q_h im / 2 + 1) else Ok (map (at_ im (q_h im / 2)) (seq 0 (q_w im)))
      | _ => Ok (map (at_ im (q_h im / 2)) (seq 0 (q_w im)))
      end = Ok (map (at_ im m) (seq 0 (q_w im)))).
  { destruct M as [[-> (j & Hj & Hv)]|[-> Hv]].
    - change (rows (pic im)) with (q_h im). change (rows (pic im)) with (q_h im) in Hv.
      destruct (q_kind im) eqn:Q; auto.
      destruct (forallb is_masked _) eqn:F; auto.
      rewrite (proj1 (row_masked im (q_h im / 2)) F j Hj) in Hv. discriminate.
    - change (rows (pic im)) with (q_h im) in *. change (cols (pic im)) with (q_w im) in *.
      pose proof (proj2 (row_masked im (q_h im / 2)) Hv) as F.
      destruct (q_kind im) eqn:Q.
      + specialize (Hv 0 Hw). unfold pic in Hv; simpl in Hv. rewrite Q in Hv. discriminate.
      + congruence.
      + rewrite F. unfold row. apply Nat.ltb_lt in Hm. rewrite Hm. reflexivity. }
  rewrite R. cbn [bind]. rewrite !get_x_y_ok by auto. cbn [bind].
  eexists. split; [reflexivity|]. cbn [f_mean f_min f_max f_mid].
  split; [apply curve_mean|]. split; [apply curve_min|]. split; [apply curve_max|apply curve_row].
Qed.

Lemma vertical im m : q_kind im <> NoMask -> 0 < q_h im -> 0 < q_w im ->
  middle (flipped (pic im)) m -> m < q_w im ->
  exists f, image_profiles true im = Ok f /\
    curve (average (flipped (pic im))) (f_mean f) /\ curve (least (flipped (pic im))) (f_min f) /\
    curve (greatest (flipped (pic im))) (f_max f) /\ curve (pixel_of_row (flipped (pic im)) m) (f_mid f).
Proof.
  intros K Hh Hw M Hm. change (image_profiles true im) with (image_profiles false (transpose im)).
  rewrite <- pic_transpose in *. apply horizontal; auto.
  unfold transpose; simpl. destruct (q_kind im); congruence.
Qed.

(** ** Bracketing *)

Lemma count_total p j lo hi :
  (forall i, i < rows p -> visible p i j = true -> (lo <= value p i j <= hi)%Q) ->
  (lo * seen_count p j <= seen_sum p j <= hi * seen_count p j)%Q.
Proof.
  intros H. unfold seen_count, seen_sum.
  rewrite <- !sumq_scal. split; apply sumq_le; intros i Hi; specialize (H i Hi);
    destruct (visible p i j); try lra; specialize (H eq_refl); lra.
Qed.

Lemma count_pos p j : (exists i, i < rows p /\ visible p i j = true) -> (0 < seen_count p j)%Q.
Proof.
  intros (i & Hi & Hv). unfold seen_count.
  assert (N : (0 <= sumq (rows p) (fun i0 => if visible p i0 j then 1 else 0))%Q).
  { apply sumq_nonneg. intros k _. destruct (visible p k j); lra. }
  destruct (Qlt_le_dec 0 (sumq (rows p) (fun i0 => if visible p i0 j then 1 else 0))%Q) as [|L]; auto.
  exfalso. assert (Z : (sumq (rows p) (fun i0 => if visible p i0 j then 1 else 0) == 0)%Q) by lra.
  pose proof (sumq_zero_inv (rows p) (fun i0 => if visible p i0 j then 1 else 0)%Q) as V.
  assert (W : forall k, k < rows p -> (0 <= (fun i0 => if visible p i0 j then 1 else 0) k)%Q).
  { intros k _. cbv beta. destruct (visible p k j); lra. }
  specialize (V W Z i Hi). cbv beta in V.
  rewrite Hv in V. lra.
Qed.

Lemma average_between p j v lo hi :
  average p j v -> least p j lo -> greatest p j hi -> (lo <= v <= hi)%Q.
Proof.
  intros (_ & V & E) [_ L] [_ G].
  pose proof (count_pos p j V) as C.
  destruct (count_total p j lo hi) as [A B].
  { intros i Hi Hv. split; auto. }
  rewrite <- E in A, B.
  split; apply (Qmult_le_r _ _ (seen_count p j)); auto.
Qed.

Lemma row_between p i j v lo hi : i < rows p ->
  pixel_of_row p i j v -> least p j lo -> greatest p j hi -> (lo <= v <= hi)%Q.
Proof.
  intros Hi (_ & Hv & E) [_ L] [_ G]. rewrite E. split; auto.
Qed.


Lemma positions_from (f g : Q -> list Q -> Q) im k l :
  map fst (flat_map (fun jo => match snd jo with Some v => [(fst jo, v)] | None => [] end)
    (combine (seq k (length l)) (map (fun j => match column im j with [] => None | x :: l => Some (f x l) end) l)))
  = map fst (flat_map (fun jo => match snd jo with Some v => [(fst jo, v : Q)] | None => [] end)
    (combine (seq k (length l)) (map (fun j => match column im j with [] => None | x :: l => Some (g x l) end) l))).
Proof.
  revert k. induction l as [|j l IH]; intros k; [reflexivity|].
  cbn [length seq map combine flat_map snd fst]. rewrite !map_app, (IH (S k)). f_equal.
  destruct (column im j); reflexivity.
Qed.

Lemma positions f g im : map fst (points (reduce f im)) = map fst (points (reduce g im)).
Proof.
  unfold points, reduce. rewrite !map_length. apply positions_from.
Qed.

Lemma profiles_of im f : image_profiles false im = Ok f ->
  f_mean f = points (reduce qmean im) /\ f_min f = points (reduce qmin im) /\
  f_max f = points (reduce qmax im) /\
  exists m, m < q_h im /\ f_mid f = points (map (at_ im m) (seq 0 (q_w im))).
Proof.
  intros E. unfold image_profiles in E.
  destruct (q_h im =? 0); [discriminate|].
  unfold row in E. destruct (q_h im / 2 <? q_h im) eqn:H1; [|discriminate]. cbn [bind] in E.
  apply Nat.ltb_lt in H1.
  assert (R : forall k mid, k <> NoMask ->
    bind (get_x_y k (reduce qmean im)) (fun m => bind (get_x_y k (reduce qmin im)) (fun mn =>
    bind (get_x_y k (reduce qmax im)) (fun mx => bind (get_x_y k mid) (fun md => Ok (mkProf m mn mx md)))))
    = Ok f ->
    f = mkProf (points (reduce qmean im)) (points (reduce qmin im)) (points (reduce qmax im)) (points mid)).
  { intros k mid K. rewrite !get_x_y_ok by auto. cbn [bind]. congruence. }
  destruct (q_kind im) eqn:K.
  - apply R in E; [|discriminate]. subst f. cbn [f_mean f_min f_max f_mid]. eauto 8.
  - discriminate.
  - destruct (forallb is_masked _).
    + destruct (q_h im / 2 + 1 <? q_h im) eqn:H2; [|discriminate]. apply Nat.ltb_lt in H2.
      apply R in E; [|discriminate]. subst f. cbn [f_mean f_min f_max f_mid]. eauto 8.
    + apply R in E; [|discriminate]. subst f. cbn [f_mean f_min f_max f_mid]. eauto 8.
Qed.

(** At every position the curves lie in order. *)
Definition in_order (f : profiles) : Prop :=
  map fst (f_min f) = map fst (f_mean f) /\ map fst (f_max f) = map fst (f_mean f) /\
  (forall j v lo hi, In (j, v) (f_mean f) -> In (j, lo) (f_min f) -> In (j, hi) (f_max f) -> (lo <= v <= hi)%Q) /\
  (forall j v, In (j, v) (f_mid f) ->
     exists lo hi, In (j, lo) (f_min f) /\ In (j, hi) (f_max f) /\ (lo <= v <= hi)%Q).

Lemma bracketed_h im f : image_profiles false im = Ok f -> in_order f.
Proof.
  intros E. destruct (profiles_of im f E) as (E1 & E2 & E3 & m & Hm & E4).
  destruct (curve_mean im) as (_ & M1 & _). destruct (curve_min im) as (_ & L1 & L2).
  destruct (curve_max im) as (_ & G1 & G2). destruct (curve_row im m) as (_ & R1 & _).
  unfold in_order. rewrite E1, E2, E3, E4. split; [apply positions|]. split; [apply positions|].
  split.
  - intros j v lo hi Hv Hlo Hhi. apply (average_between (pic im) j); auto.
  - intros j v Hv. apply R1 in Hv. pose proof Hv as (Hj & Hs & Eq).
    assert (C : column im j <> []) by (apply column_nonempty; eauto).
    destruct (column im j) as [|x l] eqn:Ec; [congruence|].
    assert (In1 : exists lo, In (j, lo) (points (reduce qmin im))).
    { apply (L2 j (qmin x l)). split.
      - destruct (qmin_spec l x) as [I _]. rewrite <- Ec in I. apply column_in in I.
        destruct I as (i & Hi & Hvi & Ei). split; [exact Hj|]. exists i. split; [auto|].
        split; [auto|]. rewrite Ei. reflexivity.
      - intros i Hi Hvi. apply (proj2 (qmin_spec l x)). rewrite <- Ec. apply column_in. eauto. }
    assert (In2 : exists hi, In (j, hi) (points (reduce qmax im))).
    { apply (G2 j (qmax x l)). split.
      - destruct (qmax_spec l x) as [I _]. rewrite <- Ec in I. apply column_in in I.
        destruct I as (i & Hi & Hvi & Ei). split; [exact Hj|]. exists i. split; [auto|].
        split; [auto|]. rewrite Ei. reflexivity.
      - intros i Hi Hvi. apply (proj2 (qmax_spec l x)). rewrite <- Ec. apply column_in. eauto. }
    destruct In1 as (lo & Hlo). destruct In2 as (hi & Hhi). exists lo, hi.
    split; [auto|]. split; [auto|].
    apply (row_between (pic im) m j v lo hi); auto.
Qed.

Lemma bracketed (v : bool) im f : image_profiles v im = Ok f -> in_order f.
Proof.
  destruct v; intros E; [apply (bracketed_h (transpose im)); exact E|apply (bracketed_h im); exact E].
Qed.
