(** From pairs of images to the indices; a point exactly at 70 %. *)
From Coq Require Import List Bool Arith ZArith QArith Qabs Qreals Reals Lia Lra.
From Flocq Require Import Core.
From Verif Require Import Base_Prelude Base_Num Base_Order Base_Sum Base_Float Spec_Num
  Model_Images Model_Loader Model_Data Model_Hist Model_Rounded Model_Results Model_RoundedIndex
  Spec_Images Spec_Data Spec_Rounded Spec_RoundedIndex Proofs_Num Proofs_Round Proofs_Float Proofs_Images Proofs_Data Proofs_Data2 Proofs_Results
  Proofs_Rounded Proofs_Rounded2 Proofs_Rounded3 Proofs_Rounded4 Proofs_Rounded5 Proofs_RoundedIndex Proofs_RoundedIndex2.
Import ListNotations.

Lemma mean_bounded b h w A B : pair_bits b h w A B -> (0 <= Q2R (stack_mean h w [A; B]) <= IZR (2 ^ b))%R.
Proof.
  intros (P & L & A1 & A2 & B1 & B2 & Hb & K). inversion K as [|? ? KA K']; subst. inversion K' as [|? ? KB _]; subst.
  assert (E : (stack_mean (ih A) (iw A) [A; B] == (grey_mean A + grey_mean B) / 2)%Q).
  { rewrite (grey_mean_sum (ih A) (iw A) A) by auto. rewrite (grey_mean_sum (ih A) (iw A) B) by auto.
    assert (N : ~ (qn (ih A * iw A) == 0)%Q) by (apply qn_neq0; auto).
    unfold stack_mean. cbn [length map lsumq]. rewrite (qn_mult 2). change (qn 2) with 2%Q.
    field. auto. }
  rewrite (Qeq_eqR _ _ E). rewrite Q2R_div, Q2R_plus by discriminate.
  pose proof (grey_mean_bound (ih A) (iw A) A b eq_refl eq_refl P KA).
  pose proof (grey_mean_bound (ih A) (iw A) B b B1 B2 P KB).
  replace (Q2R 2) with 2%R by (unfold Q2R; simpl; lra). lra.
Qed.

Lemma all_near order b h w pairs data fdata T F : sound_order order ->
  every (fun p => pair_bits b h w (fst p) (snd p)) pairs ->
  table2 (table2 exact_entry) pairs data -> table2 (table2 (float_entry order)) pairs fdata ->
  get_temporal (h * w) data = Ok T -> get_temporal_f (h * w) fdata = Ok F ->
  arrays2 (bounded_mean b) (near_var b) T F.
Proof.
  intros O K E G ET EF.
  assert (A : out2 (arrays2 (bounded_mean b) (near_var b)) (get_temporal (h * w) data) (get_temporal_f (h * w) fdata)).
  { apply temporal2.
    apply (table2_trans (fun d => List.Forall (fun x => pair_bits b h w (fst (snd x)) (snd (snd x))) d)
             (table2 exact_entry) (table2 (float_entry order)) _ pairs); auto.
    intros dd de df HK HE HF.
    apply (table2_trans (fun p => pair_bits b h w (fst p) (snd p)) exact_entry (float_entry order) _ dd); auto.
    intros [A B] d f HP HE' HF'. destruct (entries_agree order b h w A B d f O HP HE' HF') as (M & V). split; [|exact V].
    split; [exact M|]. destruct HE' as (r & E1 & ->). cbn [fst snd] in *.
    destruct (pair_estimators h w A B (pair_bits_ok _ _ _ _ _ HP)) as (r' & E' & M' & _). rewrite E1 in E'. injection E' as <-.
    rewrite (Qeq_eqR _ _ M'). apply mean_bounded. auto. }
  destruct A as [(e & A & _)|(T' & F' & A1 & A2 & A)]; [congruence|]. rewrite ET in A1. rewrite EF in A2.
  injection A1 as <-. injection A2 as <-. exact A.
Qed.

Section Points.
Variables (order : image -> stree) (b : Z) (h w : nat) (pairs : dict pyfloat (dict pyfloat (image * image)))
  (data : dict pyfloat (dict pyfloat tdata)) (fdata : dict pyfloat (dict pyfloat ftdata)) (T : temporal) (F : ftemporal) (o : robj) (fo : fobj).
Hypothesis Hb : (0 <= b <= 16)%Z.
Hypothesis O : sound_order order.
Hypothesis K : every (fun p => pair_bits b h w (fst p) (snd p)) pairs.
Hypothesis E : table2 (table2 exact_entry) pairs data.
Hypothesis G : table2 (table2 (float_entry order)) pairs fdata.
Hypothesis ET : get_temporal (h * w) data = Ok T.
Hypothesis EF : get_temporal_f (h * w) fdata = Ok F.
Hypothesis OT : exact_arrays T o.
Hypothesis FO : fo_t fo = F /\ fo_sat fo = o_sat o.

Lemma points_same : clear_variances (variance_error b) (ftp_s2y F) (tp_s2y T) ->
  findex_u_ysat fo = fst (index_u_ysat o) /\
  (clear_limit (signal_error b) (7 # 10) o -> findex_sensitivity_max fo = index_sensitivity_max o) /\
  (clear_limit (signal_error b) (5 # 100) o -> findex_linearity_min fo = index_linearity_min o) /\
  (clear_limit (signal_error b) (95 # 100) o -> findex_linearity_max fo = index_linearity_max o).
Proof.
  intro CV. destruct (all_near _ _ _ _ _ _ _ _ _ O K E G ET EF) as (_ & _ & UY & SY & UD & _).
  assert (S : findex_u_ysat fo = fst (index_u_ysat o)) by (eapply sat_same; eauto).
  split; [exact S|]. split; [|split]; intro C.
  - eapply sensitivity_same; eauto.
  - eapply linearity_min_same; eauto.
  - eapply linearity_max_same; eauto.
Qed.

Lemma points_margin : clear_variances (variance_error b) (ftp_s2y F) (tp_s2y T) ->
  forall m Y i y, findex_sensitivity_max fo = Ok m -> signal o = Ok Y -> fst (index_u_ysat o) = Ok i -> py_get Y i = Ok y ->
  (forall j v, nth_error Y j = Some v -> (v <= (7 # 10) * y - signal_error b)%Q -> (j <= m)%nat) /\
  exists v, nth_error Y m = Some v /\ (v <= (7 # 10) * y + signal_error b)%Q.
Proof.
  intros CV m Y i y. destruct (all_near _ _ _ _ _ _ _ _ _ O K E G ET EF) as (_ & _ & UY & SY & UD & _).
  intros. eapply (sensitivity_margin b T F o fo Hb UY UD OT FO); eauto. eapply sat_same; eauto.
Qed.

Lemma points_responsivity : clear_variances (variance_error b) (ftp_s2y F) (tp_s2y T) -> clear_limit (signal_error b) (7 # 10) o ->
  tp_up T = map FFin (r_up (o_t o)) -> List.Forall (fun x => 0 <= x)%Q (r_up (o_t o)) -> length (r_up (o_t o)) = length (r_uy (o_t o)) ->
  length (r_uydark (o_t o)) = length (r_uy (o_t o)) ->
  forall r, responsivity o = Ok r ->
  exists m r', index_sensitivity_max o = Ok m /\ fresponsivity fo = Ok r' /\
    (Qabs (r' - r) * lsumq (slice 0 (m + 1) (r_up (o_t o))) <= qn (m + 1) * signal_error b)%Q.
Proof.
  intros CV CL EU PU L1 L2 r. destruct (all_near _ _ _ _ _ _ _ _ _ O K E G ET EF) as (_ & UP & UY & SY & UD & _).
  eapply (responsivity_near b T F o fo Hb UY UD OT FO); eauto.
  - eapply sat_same; eauto.
  - congruence.
Qed.
End Points.

Lemma entry_exact p d : match get_int_imgs [fst p; snd p] with Ok r => temporal_summary r = d | Err _ => False end -> exact_entry p d.
Proof. unfold exact_entry. destruct (get_int_imgs _) as [r|]; [|tauto]. intro E. exists r. auto. Qed.
