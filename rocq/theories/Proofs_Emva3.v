(** Figures of the whole chain, and independence of the order. *)
From Coq Require Import Ascii String List Bool Arith ZArith QArith Reals Qreals Lia Permutation Sorting.Sorted.
From Verif Require Import Base_Prelude Base_Str Base_Num Base_Order Base_Sum Base_Xreal Model_Path Model_Images
  Model_Loader Model_Data Model_Parser Model_Results Model_Emva Spec_Parser Spec_Images Spec_Loader
  Spec_Data Spec_Results Spec_Emva Proofs_Parser Proofs_Parser2 Proofs_Images Proofs_Loader
  Proofs_Data Proofs_Data2 Proofs_Results Proofs_Results2 Proofs_Fit Proofs_Same Proofs_Emva Proofs_Emva2.
Import ListNotations.
Open Scope nat_scope.
Local Arguments feq : simpl never.
Local Arguments flt : simpl never.

Lemma emva_chain fs h w visit_t visit_s fname t es :
  any_order visit_t -> any_order visit_s -> lists fname t es -> complete_set fs h w es ->
  exists o rows, emva fs visit_t visit_s fname (Some t) = Ok (Some o) /\ object_ok fs h w es o rows.
Proof.
  intros VT VS (toks & TC & W & B) CS.
  destruct (parse_file_cases fname None t toks TC) as [(es' & d & _ & B' & E & P & _ & _ & DI)|(N & _)];
    [|contradiction].
  assert (es' = es).
  { eapply denotes_unique; [apply blocks_header|exact B'|exact B]. }
  subst es'.
  assert (NC : ForallOrdPairs (fun x y => ~ clash x y) (entries d)).
  { eapply FOP_perm; [apply nclash_sym|symmetry; exact P|]. destruct W as (_ & _ & _ & _ & W). auto. }
  pose proof (entry_kinds fname None t toks d TC E) as K.
  assert (K' : forall e, In e es -> 2 <= length (e_files e) /\
                   (e_kind e = Temporal <-> length (e_files e) = 2) /\
                   (e_kind e = Spatial <-> 2 < length (e_files e))).
  { rewrite Forall_forall in K. intros e He. apply K. apply (Permutation_in _ (Permutation_sym P)). auto. }
  destruct (chain fs h w es d visit_t visit_s (VT _) (VS _) P DI NC
              ltac:(intros e He; apply (K' e He)) ltac:(intros e He; apply (K' e He)) CS)
    as (l & dat & o & rows & L & M & O & OK).
  exists o, rows. split; auto. unfold emva, emva_data. rewrite E. simpl bind. rewrite L. simpl bind.
  rewrite M. simpl bind. rewrite O. reflexivity.
Qed.

(** ** Saturation index *)
Lemma at_same s s' i : qlist s s' -> (at_ s i == at_ s' i)%Q.
Proof.
  intro H. unfold at_. revert i. induction H as [|x y s s' E H IH]; intros [|i]; simpl; auto; reflexivity.
Qed.

Lemma previous_same s s' j : qlist s s' -> (previous s j == previous s' j)%Q.
Proof.
  intro H. unfold previous. rewrite (f2_length _ _ _ H).
  destruct (S j =? length s'); [reflexivity|apply at_same; auto].
Qed.

Lemma goes_on_same s s' j : qlist s s' -> (goes_on s j <-> goes_on s' j).
Proof.
  intros H. unfold goes_on.
  rewrite (previous_same _ _ j H), (at_same _ _ j H), (at_same _ _ (neighbour j) H). tauto.
Qed.

Lemma qlist_sym a b : qlist a b -> qlist b a.
Proof. induction 1; constructor; auto. symmetry. auto. Qed.
Lemma qlist_trans a b c : qlist a b -> qlist b c -> qlist a c.
Proof.
  intro H. revert c. induction H; intros c G; inversion G; subst; constructor.
  - etransitivity; eauto.
  - apply IHForall2. auto.
Qed.

Lemma at_map {A} (f : A -> Q) l i :
  at_ (map f l) i = match nth_error l i with Some x => f x | None => 0%Q end.
Proof.
  unfold at_. revert i. induction l as [|x l IH]; intros [|i]; simpl; auto.
Qed.

Lemma best_slope_same X Y X' Y' m a :
  (forall i, (i <= m)%nat -> (X i == X' i)%Q /\ (Y i == Y' i)%Q) ->
  best_slope X Y m a -> best_slope X' Y' m a.
Proof.
  intros E H a' N. specialize (H a' N). unfold sse_slope in *.
  assert (G : forall c, sumr (fun i => sq (Q2R (Y i) - c * Q2R (X i))%R) m
                        = sumr (fun i => sq (Q2R (Y' i) - c * Q2R (X' i))%R) m).
  { intro c. apply sumr_ext. intros i Hi. destruct (E i Hi) as (E1 & E2).
    rewrite (Qeq_eqR _ _ E1), (Qeq_eqR _ _ E2). reflexivity. }
  rewrite !G in H. exact H.
Qed.

Section Figures.
Context (fs : fsys) (h w : nat) (es : list entry) (o : robj) (rows : list row).
Hypothesis CS : complete_set fs h w es.
Hypothesis OK : object_ok fs h w es o rows.

Lemma ok_shaped : shaped o (length rows).
Proof.
  destruct OK as (_ & A & B & C & D & E & F & _). unfold shaped.
  rewrite A, B, (f2_length _ _ _ C), (f2_length _ _ _ D), (f2_length _ _ _ E), (f2_length _ _ _ F).
  rewrite !map_length. tauto.
Qed.

Lemma ok_photons i : photons o i = m_photons rows i.
Proof.
  destruct OK as (_ & _ & B & _). unfold photons, m_photons, at_row. rewrite B. apply at_map.
Qed.

Lemma ok_sig i : (sig o i == m_signal h w rows i)%Q.
Proof.
  destruct OK as (_ & _ & _ & C & _ & E & _). unfold sig, m_signal, at_row.
  rewrite (at_same _ _ i C), (at_same _ _ i E), !at_map. destruct (nth_error rows i); [reflexivity|].
  reflexivity.
Qed.

Lemma ok_noise i : (noise o i == m_noise h w rows i)%Q.
Proof.
  destruct OK as (_ & _ & _ & _ & D & _ & F & _). unfold noise, m_noise, at_row.
  rewrite (at_same _ _ i D), (at_same _ _ i F), !at_map. destruct (nth_error rows i); [reflexivity|].
  reflexivity.
Qed.

Lemma variances_nonneg : Forall (fun x => 0 <= x)%Q (m_variances h w rows).
Proof.
  unfold m_variances. apply Forall_forall. intros x Hx. apply in_map_iff in Hx.
  destruct Hx as (r & <- & _). apply pair_variance_nonneg. destruct (cs_size _ _ _ _ CS). lia.
Qed.

Lemma ok_saturation : rows <> [] -> exists i,
  value_of F_index_u_ysat o = VZ (Ok (Z.of_nat i)) /\ i < length rows /\
  (forall j, i <= j < length rows -> goes_on (m_variances h w rows) j) /\
  (i = 0 \/ ~ goes_on (m_variances h w rows) (i - 1)).
Proof.
  intro NE. pose proof variances_nonneg as V.
  destruct OK as (_ & _ & _ & _ & D & _ & _ & _ & _ & U).
  assert (L : length (r_s2y (o_t o)) = length rows)
    by (rewrite (f2_length _ _ _ D), map_length; reflexivity).
  assert (V' : Forall (fun x => 0 <= x)%Q (r_s2y (o_t o))).
  { clear - D V. unfold m_variances in V. revert D. generalize (r_s2y (o_t o)) as l. induction rows as [|r rs IH];
      intros l D; inversion D; subst; constructor; inversion V; subst; auto.
    match goal with H : (_ == _)%Q |- _ => rewrite H end. auto. }
  assert (P : 0 < length rows) by (destruct rows; [contradiction|simpl; lia]).
  destruct (saturation_index o U) as (i & E & I & G & _).
  { destruct (le_lt_dec 2 (length (r_s2y (o_t o)))); [left; auto|right; split; [lia|auto]]. }
  destruct G as (G1 & G2).
  { apply last_goes_on; auto. intro N. rewrite N in L. simpl in L. lia. }
  exists i. simpl. rewrite E. split; auto. rewrite <- L. split; auto. split.
  - intros j J. apply (goes_on_same _ _ j D). auto.
  - destruct G2 as [G2|G2]; auto. right. intro G. apply G2. apply (goes_on_same _ _ (i-1) D). auto.
Qed.

Lemma bright_rows r : In r rows -> ~ dark_entry (w_bright r) /\ In (w_bright r) es.
Proof.
  intro H. destruct OK as ((_ & _ & _ & R) & _). destruct (R (w_bright r)) as (R1 & _).
  destruct R1; [apply in_map; auto|]. tauto.
Qed.

Lemma rows_nonempty : (exists e, In e es /\ temporal_entry e) -> rows <> [].
Proof.
  intros (e & He & T). destruct (cs_bright _ _ _ _ CS e He T) as (b & Hb & Tb & Db & _).
  destruct OK as ((_ & _ & _ & R) & _). destruct (R b) as (_ & R2).
  intro N. rewrite N in R2. apply R2. auto.
Qed.

Lemma ok_fits i : i < length rows -> value_of F_index_u_ysat o = VZ (Ok (Z.of_nat i)) ->
  (forall m, value_of F_index_sensitivity_max o = VN (Ok m) <->
     largest (length rows) (fun j => m_signal h w rows j <= (7 # 10) * m_signal h w rows i)%Q m) /\
  (forall m, value_of F_index_sensitivity_max o = VN (Ok m) ->
     (exists r, value_of F_R o = VQ (Ok r) /\
        best_slope (m_photons rows) (m_signal h w rows) m r) /\
     ((exists j, j <= m /\ ~ (m_signal h w rows j == 0)%Q) ->
      exists k, value_of F_K o = VQ (Ok k) /\
        best_slope (m_signal h w rows) (m_noise h w rows) m k)).
Proof.
  intros I E. simpl in E. assert (SP : sat_point o (length rows) i).
  { split; auto. eexists. split; [injection E as E; exact E|]. left. auto. }
  destruct (sensitivity_max_iff o (length rows) i ok_shaped SP) as (A & _). simpl. split.
  - intro m. split.
    + intro H. injection H as H. apply A in H. destruct H as (H1 & H2 & H3). split; auto.
      rewrite <- !ok_sig. split; auto. intros j J. rewrite <- !ok_sig. auto.
    + intros (H1 & H2 & H3). f_equal. apply A. split; auto.
      rewrite !ok_sig. split; auto. intros j J. rewrite !ok_sig. auto.
  - intros m H. injection H as H. pose proof (proj1 (proj1 (A m) H)) as M. split.
    + destruct (responsivity_best o (length rows) m ok_shaped H) as (r & R & B).
      { exists 0. split; [lia|]. rewrite ok_photons. unfold m_photons, at_row.
        destruct (nth_error rows 0) as [r|] eqn:ER; [|apply nth_error_None in ER; lia].
        destruct (bright_rows r) as (D & He); [eapply nth_error_In; eauto|].
        unfold w_photons. destruct (cs_finite _ _ _ _ CS _ He) as (_ & (q & Q)).
        unfold dark_entry, is_dark in D. rewrite Q in *. simpl. intro Z. apply D.
        unfold feq, fzero. simpl. apply Qeq_bool_iff. symmetry. auto. }
      exists r. split; [rewrite R; auto|]. eapply best_slope_same; [|exact B].
      intros j _. rewrite ok_photons, ok_sig. split; reflexivity.
    + intros (j & J & N).
      destruct (gain_best o (length rows) m ok_shaped H) as (k & K & B).
      { exists j. split; auto. rewrite ok_sig. auto. }
      exists k. split; [rewrite K; auto|]. eapply best_slope_same; [|exact B].
      intros u _. rewrite ok_noise, ok_sig. split; reflexivity.
Qed.
End Figures.
