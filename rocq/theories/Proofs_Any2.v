(** Expected values of the measured figures on any probability space. *)
From Coq Require Import List Bool Arith ZArith QArith Qreals Reals Lia Lra FunctionalExtensionality.
From Verif Require Import Base_Prelude Base_Sum Base_SumR Model_Images Model_Loader Model_Data Model_Results
  Spec_Images Spec_Data Spec_Results Spec_Chance Spec_Linear Spec_Any
  Proofs_Data Proofs_Data2 Proofs_Chance Proofs_Chance2 Proofs_Linear Proofs_Any.
Import ListNotations.
Open Scope R_scope.

Lemma Q2R_inject z : Q2R (inject_Z z) = IZR z.
Proof. unfold Q2R. simpl. field. Qed.
Lemma Q2R_qn n : Q2R (qn n) = INR n.
Proof. unfold qn. rewrite Q2R_inject, INR_IZR_INZ. reflexivity. Qed.
Lemma Q2R_0' : Q2R 0 = 0. Proof. unfold Q2R. simpl. field. Qed.
Lemma Q2R_1' : Q2R 1 = 1. Proof. unfold Q2R. simpl. field. Qed.
Lemma Q2R_2' : Q2R 2 = 2. Proof. unfold Q2R. simpl. field. Qed.
Lemma Q2R_sum n f : Q2R (sumq n f) = sumR n (fun i => Q2R (f i)).
Proof. induction n; cbn [sumq sumR]; [apply Q2R_0'|]. rewrite Q2R_plus, IHn. reflexivity. Qed.
Lemma Q2R_sum2 h w f : Q2R (sumq2 h w f) = sumR2 h w (fun i j => Q2R (f i j)).
Proof. unfold sumq2, sumR2. rewrite Q2R_sum. apply sumR_ext. intros. apply Q2R_sum. Qed.
Lemma Q2R_over a b : ~ (b == 0)%Q -> Q2R (a / b) = Q2R a / Q2R b.
Proof. intros. apply Q2R_div. assumption. Qed.

Lemma sumR_app a b f : sumR (a + b) f = sumR a f + sumR b (fun i => f (a + i)%nat).
Proof.
  induction b; [rewrite Nat.add_0_r; simpl; ring|].
  rewrite Nat.add_succ_r. cbn [sumR]. rewrite IHb. ring.
Qed.
Lemma sumR2_flat h w f : (0 < w)%nat -> sumR2 h w f = sumR (h * w) (fun k => f (k / w)%nat (k mod w)%nat).
Proof.
  intros W. unfold sumR2. induction h as [|h IH]; [reflexivity|].
  cbn [sumR]. rewrite IH. replace (S h * w)%nat with (h * w + w)%nat by lia.
  rewrite sumR_app. f_equal. apply sumR_ext. intros i Hi.
  rewrite Nat.div_add_l by lia. rewrite (Nat.div_small i w Hi), Nat.add_0_r.
  rewrite Nat.add_comm, Nat.mod_add by lia. rewrite (Nat.mod_small i w Hi). reflexivity.
Qed.
Lemma flat_pos h w k : (k < h * w)%nat -> (0 < w)%nat /\ (k / w < h)%nat /\ (k mod w < w)%nat.
Proof.
  intros Hk. assert (0 < w)%nat by (destruct w; lia). split; [assumption|].
  split; [apply Nat.div_lt_upper_bound; lia|apply Nat.mod_upper_bound; lia].
Qed.
Lemma flat_inj w k k' : (0 < w)%nat -> (k / w = k' / w)%nat -> (k mod w = k' mod w)%nat -> k = k'.
Proof. intros W A B. rewrite (Nat.div_mod k w), (Nat.div_mod k' w) by lia. rewrite A, B. reflexivity. Qed.
Lemma sumR2_plus h w f g : sumR2 h w (fun r c => f r c + g r c) = sumR2 h w f + sumR2 h w g.
Proof. unfold sumR2. rewrite <- sumR_plus. apply sumR_ext. intros. apply sumR_plus. Qed.
Lemma sumR2_div h w f k : sumR2 h w (fun r c => f r c / k) = sumR2 h w f / k.
Proof. unfold sumR2. rewrite <- sumR_div. apply sumR_ext. intros. apply sumR_div. Qed.

Lemma Q2R_pixel l r c s : Q2R (pixel l r c s) = grey l r c s.
Proof. apply Q2R_inject. Qed.

(** The figures of one pair and of one stack. *)
Definition diff (h w : nat) (s : list image) (k : nat) : R :=
  grey 0 (k / w) (k mod w) s - grey 1 (k / w) (k mod w) s.
Lemma pair_figures h w A B d : pair_ok h w A B -> temporal_data_of [A; B] d ->
  let s := [A; B] in
  Q2R (td_mean (h * w) d) = pixel_meanR h w (fun r c => (grey 0 r c s + grey 1 r c s) / 2) /\
  Q2R (td_s2 (h * w) d) =
    sumR (h * w) (fun k => (diff h w s k - sumR (h * w) (diff h w s) / INR (h * w)) *
                           (diff h w s k - sumR (h * w) (diff h w s) / INR (h * w))) / (2 * INR (h * w)).
Proof.
  intros PO (r' & Er' & ->) s. destruct (pair_estimators h w A B PO) as (r & Er & Em & Ev).
  rewrite Er in Er'. injection Er' as <-.
  destruct PO as (Hn & _ & A1 & A2 & B1 & B2 & _).
  assert (N := qn_neq0 _ Hn). assert (NR := INR_pos _ Hn).
  assert (W : (0 < w)%nat) by (destruct w; lia).
  assert (NL : (~ qn (2 * (h * w)) == 0)%Q) by (apply qn_neq0; lia).
  split.
  - rewrite (Qeq_eqR _ _ Em). unfold stack_mean, pixel_meanR. cbn [map lsumq length].
    rewrite Q2R_over, !Q2R_plus, !Q2R_sum2, Q2R_0', Q2R_qn by assumption. rewrite mult_INR.
    rewrite (sumR2_div h w (fun r c => grey 0 r c s + grey 1 r c s)), sumR2_plus.
    unfold grey, s. cbn [nth].
    rewrite (sumR2_ext h w (fun i j => Q2R (inject_Z (px A i j))) (fun i j => IZR (px A i j))) by (intros; apply Q2R_inject).
    rewrite (sumR2_ext h w (fun i j => Q2R (inject_Z (px B i j))) (fun i j => IZR (px B i j))) by (intros; apply Q2R_inject).
    simpl (INR 2). field. lra.
  - rewrite (Qeq_eqR _ _ Ev). unfold pair_variance.
    rewrite Q2R_mult, Q2R_over by (intro E; apply N; apply Qmult_integral in E; destruct E as [E|E]; [discriminate E|exact E]).
    rewrite Q2R_mult, Q2R_1', Q2R_2', Q2R_qn, Q2R_sum2.
    assert (GA : Q2R (grey_mean A) = sumR2 h w (fun r c => grey 0 r c s) / INR (h * w)).
    { rewrite (Qeq_eqR _ _ (grey_mean_sum h w A A1 A2)), Q2R_over, Q2R_sum2, Q2R_qn by assumption. f_equal.
      apply sumR2_ext. intros. apply Q2R_inject. }
    assert (GB : Q2R (grey_mean B) = sumR2 h w (fun r c => grey 1 r c s) / INR (h * w)).
    { rewrite (Qeq_eqR _ _ (grey_mean_sum h w B B1 B2)), Q2R_over, Q2R_sum2, Q2R_qn by assumption. f_equal.
      apply sumR2_ext. intros. apply Q2R_inject. }
    rewrite (sumR2_flat h w _ W) in GA. rewrite (sumR2_flat h w _ W) in GB.
    rewrite (sumR2_flat h w _ W).
    assert (SM : sumR (h * w) (diff h w s) = INR (h * w) * (Q2R (grey_mean A) - Q2R (grey_mean B))).
    { unfold diff. rewrite sumR_minus, GA, GB. field. lra. }
    match goal with |- 1 / ?d * ?x = _ => transitivity (x / d) end; [field; lra|].
    f_equal. apply sumR_ext. intros k Hk. rewrite SM, !Q2R_mult, !Q2R_minus, !Q2R_inject.
    unfold diff, grey, s. cbn [nth]. field. lra.
Qed.

(** The average image of a series. *)
Definition avgR (L r c : nat) (s : list image) : R := sumR L (fun l => grey l r c s) / INR L.
Lemma avg_grey s r c : (0 < length s)%nat -> Q2R (avg_pixel s r c) = avgR (length s) r c s.
Proof.
  intros HL. unfold avg_pixel, avgR, mean. rewrite map_length.
  replace (length (history s r c)) with (length s) by (unfold history; rewrite map_length; reflexivity).
  rewrite Q2R_over by (apply qn_neq0; assumption). rewrite Q2R_qn. f_equal.
  assert (E : (lsumq (map inject_Z (history s r c)) == sumq (length s) (fun l => pixel l r c s))%Q).
  { rewrite <- (map_id (map inject_Z (history s r c))), lsumq_nth, map_length.
    replace (length (history s r c)) with (length s) by (unfold history; rewrite map_length; reflexivity).
    apply sumq_ext. intros l Hl. rewrite nth_history by lia. reflexivity. }
  rewrite (Qeq_eqR _ _ E), Q2R_sum. apply sumR_ext. intros. apply Q2R_pixel.
Qed.
Lemma var_grey s r c : (2 <= length s)%nat -> Q2R (unbiased_var (map inject_Z (history s r c))) =
  sumR (length s) (fun l => (grey l r c s - sumR (length s) (fun l => grey l r c s) / INR (length s)) *
                            (grey l r c s - sumR (length s) (fun l => grey l r c s) / INR (length s))) / INR (length s - 1).
Proof.
  intros HL. assert (A := avg_grey s r c ltac:(lia)). unfold avg_pixel, avgR in A.
  unfold unbiased_var. rewrite map_length.
  replace (length (history s r c)) with (length s) by (unfold history; rewrite map_length; reflexivity).
  rewrite Q2R_over by (apply qn_neq0; lia). rewrite Q2R_qn. f_equal.
  rewrite (Qeq_eqR _ _ (lsumq_nth _ _)), map_length.
  replace (length (history s r c)) with (length s) by (unfold history; rewrite map_length; reflexivity).
  rewrite Q2R_sum. apply sumR_ext. intros l Hl. rewrite nth_history by lia.
  rewrite Q2R_mult, Q2R_minus, Q2R_pixel, A. reflexivity.
Qed.

Lemma stack_figures h w s d : documented h w s -> (2 <= length s)%nat -> (2 <= h * w)%nat ->
  spatial_data_of h w s d ->
  sd_L d = length s /\
  Q2R (sd_avg_mean d) = pixel_meanR h w (fun r c => avgR (length s) r c s) /\
  exists vm av, sd_var_mean d = Some vm /\ sd_avg_var d = Some av /\
    Q2R vm = pixel_meanR h w (fun r c =>
      sumR (length s) (fun l => (grey l r c s - sumR (length s) (fun l => grey l r c s) / INR (length s)) *
                                (grey l r c s - sumR (length s) (fun l => grey l r c s) / INR (length s))) / INR (length s - 1)) /\
    Q2R av = spatial_varianceR h w (fun r c => avgR (length s) r c s).
Proof.
  intros DOC L2 HW (r' & Er' & Ed').
  destruct (spatial_statistics h w s DOC L2 HW)
    as (r & d' & Er & Ed & EL & EM & EN & Am & vm & av & ca & ra & E1 & E2 & E3 & E4 & V1 & V2 & _).
  rewrite Er in Er'. injection Er' as <-. rewrite Ed in Ed'. injection Ed' as <-.
  assert (N : (~ qn (h * w) == 0)%Q) by (apply qn_neq0; lia).
  assert (N1 : (~ qn (h * w - 1) == 0)%Q) by (apply qn_neq0; lia).
  assert (SM : Q2R (stack_mean h w s) = pixel_meanR h w (fun r c => avgR (length s) r c s)).
  { rewrite (Qeq_eqR _ _ (stack_mean_avg h w s ltac:(lia) ltac:(lia))). unfold pixel_mean, pixel_meanR.
    rewrite Q2R_over, Q2R_sum2, Q2R_qn by assumption. f_equal. apply sumR2_ext. intros. apply avg_grey. lia. }
  split; [assumption|]. split; [rewrite (Qeq_eqR _ _ Am); exact SM|].
  exists vm, av. split; [assumption|]. split; [assumption|]. split.
  - rewrite (Qeq_eqR _ _ V1). unfold pixel_mean, pixel_meanR.
    rewrite Q2R_over, Q2R_sum2, Q2R_qn by assumption. f_equal. apply sumR2_ext. intros. apply var_grey. lia.
  - rewrite (Qeq_eqR _ _ V2). unfold spatial_varianceR.
    rewrite Q2R_over, Q2R_sum2, Q2R_qn by assumption. f_equal. apply sumR2_ext. intros.
    rewrite Q2R_mult, Q2R_minus, SM, avg_grey by lia. reflexivity.
Qed.

Section Series.
Context {W : Type} (C : chance W) (S : W -> list image) (L h w : nat).
Variables (mu : nat -> nat -> R) (drift : nat -> R) (s2 : nat -> nat -> nat -> R).
Hypothesis RS : random_series C S L h w mu drift s2.

Definition inside (i : nat * nat * nat) : Prop :=
  (fst (fst i) < L)%nat /\ (snd (fst i) < h)%nat /\ (snd i < w)%nat.
Definition var_of (i : nat * nat * nat) (o : W) : R := grey (fst (fst i)) (snd (fst i)) (snd i) (S o).
Notation linear := (lin inside var_of).
Lemma Hint i : inside i -> integrable C (var_of i).
Proof. intros (A & B & D). apply (rs_int _ _ _ _ _ _ _ _ RS); assumption. Qed.
Lemma Hprod i j : inside i -> inside j -> integrable C (fun o => var_of i o * var_of j o).
Proof. intros (A & B & D) (A' & B' & D'). apply (rs_prod _ _ _ _ _ _ _ _ RS); assumption. Qed.

Lemma lin_grey l r c : (l < L)%nat -> (r < h)%nat -> (c < w)%nat -> linear (fun o => grey l r c (S o)).
Proof. intros. apply (lin_base inside var_of (l, r, c)). repeat split; assumption. Qed.

Lemma uncor_diff : L = 2%nat ->
  uncor C inside var_of (h * w) (fun k o => diff h w (S o) k) (fun _ => drift 0 - drift 1)
    (fun k => s2 0 (k / w) (k mod w) + s2 1 (k / w) (k mod w)).
Proof.
  intros E. pose proof RS as [_ _ _ M V D]. rewrite E in M, V, D.
  assert (G := lin_grey). rewrite E in G.
  split; [|split; [|split]].
  - intros k Hk. destruct (flat_pos h w k Hk) as (W' & R & D'). apply lin_minus; apply G; lia.
  - intros k Hk. destruct (flat_pos h w k Hk) as (W' & R & D'). unfold diff.
    rewrite exp_minus by (apply (rs_int _ _ _ _ _ _ _ _ RS); lia). rewrite !M by lia. ring.
  - intros k Hk. destruct (flat_pos h w k Hk) as (W' & R & D'). unfold diff.
    rewrite (cov_minus C inside var_of Hint Hprod (fun o => grey 0 (k / w) (k mod w) (S o))
      (fun o => grey 1 (k / w) (k mod w) (S o)) (fun o => grey 0 (k / w) (k mod w) (S o))
      (fun o => grey 1 (k / w) (k mod w) (S o))) by (apply G; lia).
    rewrite !V by lia. rewrite !D by (try lia; congruence). ring.
  - intros k k' Hk Hk' Ne. destruct (flat_pos h w k Hk) as (W' & R & D').
    destruct (flat_pos h w k' Hk') as (_ & R' & D''). unfold diff.
    rewrite (cov_minus C inside var_of Hint Hprod (fun o => grey 0 (k / w) (k mod w) (S o))
      (fun o => grey 1 (k / w) (k mod w) (S o)) (fun o => grey 0 (k' / w) (k' mod w) (S o))
      (fun o => grey 1 (k' / w) (k' mod w) (S o))) by (apply G; lia).
    rewrite !D; try lia; try ring; intro F; apply Ne, (flat_inj w k k' W'); congruence.
Qed.

Lemma temporal_any (T : W -> tdata) : L = 2%nat -> (0 < h * w)%nat ->
  (forall o A B, S o = [A; B] -> pair_ok h w A B) ->
  (forall o, temporal_data_of (S o) (T o)) ->
  averages C (fun o => Q2R (td_mean (h * w) (T o))) (pixel_meanR h w mu + averageR 2 drift) /\
  averages C (fun o => Q2R (td_s2 (h * w) (T o)))
    ((1 - 1 / INR (h * w)) * pixel_meanR h w (fun r c => (s2 0 r c + s2 1 r c) / 2)).
Proof.
  intros E2 Hn OK HT. assert (NR := INR_pos _ Hn). assert (W' : (0 < w)%nat) by (destruct w; lia).
  assert (G := lin_grey). rewrite E2 in G.
  assert (Val : forall o,
     Q2R (td_mean (h * w) (T o)) = pixel_meanR h w (fun r c => (grey 0 r c (S o) + grey 1 r c (S o)) / 2) /\
     Q2R (td_s2 (h * w) (T o)) =
     sumR (h * w) (fun k => (diff h w (S o) k - sumR (h * w) (diff h w (S o)) / INR (h * w)) *
                            (diff h w (S o) k - sumR (h * w) (diff h w (S o)) / INR (h * w))) / (2 * INR (h * w))).
  { intros o. pose proof (rs_length _ _ _ _ _ _ _ _ RS o) as Len. rewrite E2 in Len. pose proof (HT o) as HTo.
    destruct (S o) as [|A [|B [|D s]]] eqn:E; try discriminate Len.
    apply (pair_figures h w A B); [apply (OK o); exact E|exact HTo]. }
  assert (Lm : linear (fun o => pixel_meanR h w (fun r c => (grey 0 r c (S o) + grey 1 r c (S o)) / 2))).
  { apply (lin_ext inside var_of (fun o => sumR (h * w) (fun k =>
       (grey 0 (k / w) (k mod w) (S o) + grey 1 (k / w) (k mod w) (S o)) / 2) / INR (h * w))).
    { intros o. unfold pixel_meanR. rewrite (sumR2_flat h w _ W'). reflexivity. }
    apply lin_div. apply (lin_sum inside var_of (h * w) (fun k o =>
       (grey 0 (k / w) (k mod w) (S o) + grey 1 (k / w) (k mod w) (S o)) / 2)).
    intros k Hk. destruct (flat_pos h w k Hk) as (_ & R & D'). apply lin_div, lin_plus; apply G; lia. }
  pose proof (uncor_diff E2) as U.
  assert (Iv : integrable C (fun o => sumR (h * w) (fun k => (diff h w (S o) k - sumR (h * w) (diff h w (S o)) / INR (h * w)) *
                            (diff h w (S o) k - sumR (h * w) (diff h w (S o)) / INR (h * w))))).
  { apply (int_centred_sum C inside var_of Hint Hprod (h * w) (fun k o => diff h w (S o) k)). apply U. }
  split; split.
  - eapply int_ext; [intros o; symmetry; apply (proj1 (Val o))|]. apply (lin_int C inside var_of Hint), Lm.
  - rewrite (exp_ext C _ _ (fun o => proj1 (Val o))). unfold pixel_meanR.
    rewrite (exp_ext C _ (fun o => sumR (h * w) (fun k =>
       (grey 0 (k / w) (k mod w) (S o) + grey 1 (k / w) (k mod w) (S o)) / 2) / INR (h * w)))
      by (intros o; rewrite (sumR2_flat h w _ W'); reflexivity).
    assert (Lk : forall k, (k < h * w)%nat ->
       linear (fun o => (grey 0 (k / w) (k mod w) (S o) + grey 1 (k / w) (k mod w) (S o)) / 2)).
    { intros k Hk. destruct (flat_pos h w k Hk) as (_ & R & D'). apply lin_div, lin_plus; apply G; lia. }
    rewrite exp_divI by (apply (int_sumI C (h * w) (fun k o =>
       (grey 0 (k / w) (k mod w) (S o) + grey 1 (k / w) (k mod w) (S o)) / 2));
       intros; apply (lin_int C inside var_of Hint); auto).
    rewrite (exp_sumI C (h * w) (fun k o =>
       (grey 0 (k / w) (k mod w) (S o) + grey 1 (k / w) (k mod w) (S o)) / 2))
       by (intros; apply (lin_int C inside var_of Hint); auto).
    rewrite (sumR_ext (h * w) _ (fun k => mu (k / w)%nat (k mod w)%nat + averageR 2 drift)).
    + rewrite sumR_plus, sumR_const, <- (sumR2_flat h w mu W'). field. lra.
    + intros k Hk. destruct (flat_pos h w k Hk) as (_ & R & D').
      assert (I0 : integrable C (fun o => grey 0 (k / w) (k mod w) (S o))) by (apply (rs_int _ _ _ _ _ _ _ _ RS); lia).
      assert (I1 : integrable C (fun o => grey 1 (k / w) (k mod w) (S o))) by (apply (rs_int _ _ _ _ _ _ _ _ RS); lia).
      rewrite exp_divI by (auto using integrable_plus). rewrite expect_plus by assumption.
      rewrite !(rs_mean _ _ _ _ _ _ _ _ RS) by lia. unfold averageR. cbn [sumR]. simpl (INR 2). field.
  - eapply int_ext; [intros o; symmetry; apply (proj2 (Val o))|]. apply int_divI, Iv.
  - rewrite (exp_ext C _ _ (fun o => proj2 (Val o))). rewrite exp_divI by exact Iv.
    pose proof (exp_centred C inside var_of Hint Hprod (h * w) (fun k o => diff h w (S o) k) _ _ Hn U) as EC.
    cbv beta in EC.
    match type of EC with ?l = _ => match goal with |- ?l' / _ = _ => change l' with l end end. rewrite EC. clear EC.
    rewrite (sumR_ext (h * w) (fun _ => _ * _) (fun _ => 0)).
    2:{ intros k Hk. rewrite sumR_const. replace (drift 0 - drift 1 - INR (h * w) * (drift 0 - drift 1) / INR (h * w))%R with 0 by (field; lra). ring. }
    unfold pixel_meanR. rewrite (sumR2_div h w (fun r c => s2 0 r c + s2 1 r c)), (sumR2_flat h w _ W').
    rewrite sumR_0. field. lra.
Qed.

Hypothesis L2 : (2 <= L)%nat.
Hypothesis HW : (2 <= h * w)%nat.
Hypothesis DOC : forall o, documented h w (S o).
Variable D : W -> sdata.
Hypothesis HD : forall o, spatial_data_of h w (S o) (D o).

Let W0 : (0 < w)%nat. Proof. clear - HW. destruct w; lia. Qed.
Let NL : 0 < INR L. Proof. clear - L2. apply INR_pos. lia. Qed.
Let NL1 : INR L = INR (L - 1) + 1.
Proof. rewrite <- S_INR. f_equal. lia. Qed.
Let Np1 : 0 < INR (L - 1). Proof. apply INR_pos. lia. Qed.
Let N0 : 0 < INR (h * w). Proof. apply INR_pos. lia. Qed.
Let N1 : INR (h * w) = INR (h * w - 1) + 1.
Proof. rewrite <- S_INR. f_equal. lia. Qed.
Let Nm : 0 < INR (h * w - 1). Proof. apply INR_pos. lia. Qed.

Definition noise_at (r c : nat) : R := sumR L (fun l => s2 l r c) / INR L.

Lemma uncor_avg : uncor C inside var_of (h * w) (fun k o => avgR L (k / w) (k mod w) (S o))
  (fun k => mu (k / w)%nat (k mod w)%nat + averageR L drift)
  (fun k => noise_at (k / w) (k mod w) / INR L).
Proof.
  pose proof RS as [_ _ _ M V Dd].
  destruct (uncor_means C inside var_of Hint Hprod (h * w) L (fun k l o => grey l (k / w) (k mod w) (S o))
    (fun k l => mu (k / w)%nat (k mod w)%nat + drift l) (fun k l => s2 l (k / w)%nat (k mod w)%nat)) as (A & B & E & F).
  - lia.
  - intros k l Hk Hl. destruct (flat_pos h w k Hk) as (_ & R & D'). apply lin_grey; assumption.
  - intros k l Hk Hl. destruct (flat_pos h w k Hk) as (_ & R & D'). apply M; assumption.
  - intros k l Hk Hl. destruct (flat_pos h w k Hk) as (_ & R & D'). apply V; assumption.
  - intros k l k' l' Hk Hl Hk' Hl' Ne. destruct (flat_pos h w k Hk) as (_ & R & D').
    destruct (flat_pos h w k' Hk') as (_ & R' & D'').
    apply Dd; try assumption. intro Q. apply Ne. f_equal; [apply (flat_inj w k k' W0)|]; congruence.
  - split; [exact A|split; [|split]].
    + intros k Hk. unfold avgR. rewrite B by exact Hk. rewrite sumR_plus, sumR_const. unfold averageR. field. lra.
    + intros k Hk. unfold avgR. rewrite E by exact Hk. unfold noise_at. field. lra.
    + exact F.
Qed.

Lemma uncor_series r c : (r < h)%nat -> (c < w)%nat ->
  uncor C inside var_of L (fun l o => grey l r c (S o)) (fun l => mu r c + drift l) (fun l => s2 l r c).
Proof.
  intros Hr Hc. pose proof RS as [_ _ _ M V Dd]. split; [|split; [|split]].
  - intros. apply lin_grey; assumption.
  - intros. apply M; assumption.
  - intros. apply V; assumption.
  - intros l l' Hl Hl' Ne. apply Dd; try assumption. congruence.
Qed.

Definition pixel_var (r c : nat) (o : W) : R :=
  sumR L (fun l => (grey l r c (S o) - sumR L (fun l => grey l r c (S o)) / INR L) *
                   (grey l r c (S o) - sumR L (fun l => grey l r c (S o)) / INR L)) / INR (L - 1).
Lemma int_pixel_var r c : (r < h)%nat -> (c < w)%nat -> integrable C (pixel_var r c).
Proof.
  intros Hr Hc. apply int_divI.
  apply (int_centred_sum C inside var_of Hint Hprod L (fun l o => grey l r c (S o))). apply uncor_series; assumption.
Qed.
Lemma exp_pixel_var r c : (r < h)%nat -> (c < w)%nat ->
  expect C (pixel_var r c) = noise_at r c + varianceR L drift.
Proof.
  intros Hr Hc. unfold pixel_var.
  rewrite exp_divI by (apply (int_centred_sum C inside var_of Hint Hprod L (fun l o => grey l r c (S o))); apply uncor_series; assumption).
  rewrite (exp_centred C inside var_of Hint Hprod L (fun l o => grey l r c (S o)) _ _ ltac:(lia) (uncor_series r c Hr Hc)).
  rewrite (sumR_ext L (fun _ => _ * _) (fun l => (drift l - averageR L drift) * (drift l - averageR L drift))).
  2:{ intros l Hl. rewrite sumR_plus, sumR_const. unfold averageR. field. lra. }
  unfold noise_at, varianceR. set (T := sumR L (fun l => _ * _)). set (Q := sumR L (fun l => s2 l r c)).
  clearbody T Q. rewrite NL1. field. lra.
Qed.

Lemma figures o : sd_L (D o) = L /\
  Q2R (sd_avg_mean (D o)) = pixel_meanR h w (fun r c => avgR L r c (S o)) /\
  exists vm av, sd_var_mean (D o) = Some vm /\ sd_avg_var (D o) = Some av /\
    Q2R vm = pixel_meanR h w (fun r c => pixel_var r c o) /\
    Q2R av = spatial_varianceR h w (fun r c => avgR L r c (S o)).
Proof.
  pose proof (rs_length _ _ _ _ _ _ _ _ RS o) as Len.
  pose proof (stack_figures h w (S o) (D o) (DOC o) ltac:(lia) HW (HD o)) as F.
  rewrite Len in F. exact F.
Qed.

Lemma int_mean : integrable C (fun o => Q2R (sd_avg_mean (D o))).
Proof.
  eapply int_ext; [intros o; symmetry; exact (proj1 (proj2 (figures o)))|]. unfold pixel_meanR.
  apply (int_ext C (fun o => sumR (h * w) (fun k => avgR L (k / w) (k mod w) (S o)) / INR (h * w))).
  { intros o. rewrite (sumR2_flat h w _ W0). reflexivity. }
  destruct uncor_avg as (A & _). apply int_divI.
  apply (int_sumI C (h * w) (fun k o => avgR L (k / w) (k mod w) (S o))).
  intros; apply (lin_int C inside var_of Hint); apply A; assumption.
Qed.
Lemma mean_any : expect C (fun o => Q2R (sd_avg_mean (D o))) = pixel_meanR h w mu + averageR L drift.
Proof.
  rewrite (exp_ext C _ _ (fun o => proj1 (proj2 (figures o)))). unfold pixel_meanR.
  rewrite (exp_ext C _ (fun o => sumR (h * w) (fun k => avgR L (k / w) (k mod w) (S o)) / INR (h * w)))
    by (intros o; rewrite (sumR2_flat h w _ W0); reflexivity).
  destruct uncor_avg as (A & B & _).
  assert (I : forall k, (k < h * w)%nat -> integrable C (fun o => avgR L (k / w) (k mod w) (S o)))
    by (intros; apply (lin_int C inside var_of Hint); apply A; assumption).
  rewrite exp_divI by (apply (int_sumI C (h * w) (fun k o => avgR L (k / w) (k mod w) (S o))); auto).
  rewrite (exp_sumI C (h * w) (fun k o => avgR L (k / w) (k mod w) (S o))) by auto.
  rewrite (sumR_ext (h * w) _ _ B), sumR_plus, sumR_const, <- (sumR2_flat h w mu W0). field. lra.
Qed.

Lemma int_noise : integrable C (fun o => pixel_meanR h w (fun r c => pixel_var r c o)).
Proof.
  unfold pixel_meanR. apply (int_ext C (fun o => sumR (h * w) (fun k => pixel_var (k / w) (k mod w) o) / INR (h * w))).
  { intros o. rewrite (sumR2_flat h w _ W0). reflexivity. }
  apply int_divI. apply (int_sumI C (h * w) (fun k o => pixel_var (k / w) (k mod w) o)).
  intros k Hk. destruct (flat_pos h w k Hk) as (_ & R & D'). apply int_pixel_var; assumption.
Qed.
Lemma noise_any : expect C (fun o => pixel_meanR h w (fun r c => pixel_var r c o)) =
  pixel_meanR h w noise_at + varianceR L drift.
Proof.
  unfold pixel_meanR.
  rewrite (exp_ext C _ (fun o => sumR (h * w) (fun k => pixel_var (k / w) (k mod w) o) / INR (h * w)))
    by (intros o; rewrite (sumR2_flat h w _ W0); reflexivity).
  assert (I : forall k, (k < h * w)%nat -> integrable C (fun o => pixel_var (k / w) (k mod w) o))
    by (intros k Hk; destruct (flat_pos h w k Hk) as (_ & R & D'); apply int_pixel_var; assumption).
  rewrite exp_divI by (apply (int_sumI C (h * w) (fun k o => pixel_var (k / w) (k mod w) o)); auto).
  rewrite (exp_sumI C (h * w) (fun k o => pixel_var (k / w) (k mod w) o)) by auto.
  rewrite (sumR_ext (h * w) _ (fun k => noise_at (k / w) (k mod w) + varianceR L drift)).
  - rewrite sumR_plus, sumR_const, <- (sumR2_flat h w noise_at W0). field. lra.
  - intros k Hk. destruct (flat_pos h w k Hk) as (_ & R & D'). apply exp_pixel_var; assumption.
Qed.

Lemma spatial_flat f : spatial_varianceR h w f =
  sumR (h * w) (fun k => (f (k / w)%nat (k mod w)%nat - sumR (h * w) (fun k => f (k / w)%nat (k mod w)%nat) / INR (h * w)) *
     (f (k / w)%nat (k mod w)%nat - sumR (h * w) (fun k => f (k / w)%nat (k mod w)%nat) / INR (h * w))) / INR (h * w - 1).
Proof.
  unfold spatial_varianceR, pixel_meanR. rewrite (sumR2_flat h w f W0). rewrite (sumR2_flat h w _ W0). reflexivity.
Qed.
Lemma int_spatial : integrable C (fun o => spatial_varianceR h w (fun r c => avgR L r c (S o))).
Proof.
  eapply int_ext; [intros o; symmetry; apply spatial_flat|]. apply int_divI.
  apply (int_centred_sum C inside var_of Hint Hprod (h * w) (fun k o => avgR L (k / w) (k mod w) (S o))).
  apply uncor_avg.
Qed.
Lemma spatial_any : expect C (fun o => spatial_varianceR h w (fun r c => avgR L r c (S o))) =
  spatial_varianceR h w mu + pixel_meanR h w noise_at / INR L.
Proof.
  rewrite (exp_ext C _ _ (fun o => spatial_flat (fun r c => avgR L r c (S o)))).
  rewrite exp_divI by (apply (int_centred_sum C inside var_of Hint Hprod (h * w) (fun k o => avgR L (k / w) (k mod w) (S o))); apply uncor_avg).
  rewrite (exp_centred C inside var_of Hint Hprod (h * w) (fun k o => avgR L (k / w) (k mod w) (S o)) _ _ ltac:(lia) uncor_avg).
  rewrite spatial_flat. unfold pixel_meanR. rewrite (sumR2_flat h w noise_at W0), sumR_div.
  rewrite (sumR_ext (h * w) (fun i => (mu _ _ + _ - _) * _) (fun k =>
     (mu (k / w)%nat (k mod w)%nat - sumR (h * w) (fun k => mu (k / w)%nat (k mod w)%nat) / INR (h * w)) *
     (mu (k / w)%nat (k mod w)%nat - sumR (h * w) (fun k => mu (k / w)%nat (k mod w)%nat) / INR (h * w)))).
  2:{ intros k Hk. rewrite sumR_plus, sumR_const. field. lra. }
  set (T := sumR (h * w) _). set (Q := sumR (h * w) (fun k => noise_at _ _)). clearbody T Q.
  rewrite N1. field. lra.
Qed.

(** Noise and the spatial variance less its share. *)
Lemma spatial_results :
  averages C (fun o => Q2R (sd_avg_mean (D o))) (pixel_meanR h w mu + averageR L drift) /\
  averages C (fun o => Q2R (number (sd_var_mean (D o)))) (pixel_meanR h w noise_at + varianceR L drift) /\
  averages C (fun o => Q2R (number (olift2 Qminus (sd_avg_var (D o)) (omap (fun v => v / qn (sd_L (D o)))%Q (sd_var_mean (D o))))))
    (spatial_varianceR h w mu - varianceR L drift / INR L).
Proof.
  split; [split; [apply int_mean|apply mean_any]|]. split.
  - assert (E : forall o, pixel_meanR h w (fun r c => pixel_var r c o) = Q2R (number (sd_var_mean (D o)))).
    { intros o. destruct (figures o) as (_ & _ & vm & av & E1 & _ & V & _). rewrite E1. symmetry. exact V. }
    split; [eapply int_ext; [exact E|apply int_noise]|]. rewrite <- (exp_ext C _ _ E). apply noise_any.
  - assert (E : forall o, spatial_varianceR h w (fun r c => avgR L r c (S o)) -
       pixel_meanR h w (fun r c => pixel_var r c o) / INR L =
       Q2R (number (olift2 Qminus (sd_avg_var (D o)) (omap (fun v => v / qn (sd_L (D o)))%Q (sd_var_mean (D o)))))).
    { intros o. destruct (figures o) as (EL & _ & vm & av & E1 & E2 & V & V'). rewrite E1, E2, EL.
      cbn [olift2 omap number]. rewrite Q2R_minus, Q2R_over, V, V', Q2R_qn by (apply qn_neq0; lia). reflexivity. }
    split; [eapply int_ext; [exact E|]; apply int_minus; auto using int_spatial, int_noise, int_divI|].
    rewrite <- (exp_ext C _ _ E).
    rewrite exp_minus by (auto using int_spatial, int_noise, int_divI).
    rewrite exp_divI by apply int_noise. rewrite spatial_any, noise_any. field. lra.
Qed.
End Series.
