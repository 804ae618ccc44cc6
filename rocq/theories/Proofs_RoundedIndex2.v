(** Rounded data: the same points, and nearly the same responsivity. *)
From Coq Require Import List Bool Arith ZArith QArith Qabs Qreals Reals Lia Lra.
From Flocq Require Import Core.
From Verif Require Import Base_Prelude Base_Num Base_Order Base_Sum Base_Float Spec_Num
  Model_Images Model_Loader Model_Data Model_Hist Model_Rounded Model_Results Model_RoundedIndex
  Spec_Images Spec_Data Spec_Rounded Spec_RoundedIndex Proofs_Num Proofs_Round Proofs_Float Proofs_Images Proofs_Data Proofs_Data2 Proofs_Results
  Proofs_Rounded Proofs_Rounded2 Proofs_Rounded3 Proofs_Rounded4 Proofs_RoundedIndex.
Import ListNotations.
Open Scope R_scope.

Lemma fargwhere_agree (f : pyfloat -> bool) (g : Q -> bool) l l' :
  Forall2 (fun x q => f x = g q) l l' -> fargwhere f l = argwhere g l'.
Proof.
  intro H. unfold fargwhere, argwhere. rewrite (F2_length _ _ _ H). generalize 0%nat as a.
  induction H as [|x y l l' E H IH]; intro a; simpl; auto. rewrite E. destruct (g y); simpl; rewrite IH; reflexivity.
Qed.
Lemma fargwhere_in f l i : In i (fargwhere f l) <-> exists x, nth_error l i = Some x /\ f x = true.
Proof.
  unfold fargwhere. rewrite in_map_iff.
  assert (G : forall (l : list pyfloat) a i x, In (i, x) (combine (seq a (length l)) l) <-> (a <= i)%nat /\ nth_error l (i - a) = Some x).
  { clear. induction l as [|y l IH]; intros a i x; simpl.
    - split; [tauto|]. intros (_ & H). destruct (i - a)%nat; discriminate.
    - rewrite IH. split.
      + intros [E|(L & E)].
        * injection E as -> ->. rewrite Nat.sub_diag. auto.
        * split; [lia|]. replace (i - a)%nat with (S (i - S a)) by lia. auto.
      + intros (L & E). destruct (Nat.eq_dec i a) as [->|N].
        * rewrite Nat.sub_diag in E. injection E as ->. auto.
        * right. split; [lia|]. replace (i - a)%nat with (S (i - S a)) in E by lia. auto. }
  split.
  - intros ((j & x) & <- & H). apply filter_In in H. destruct H as (H & F). apply G in H. rewrite Nat.sub_0_r in H.
    exists x. simpl in *. tauto.
  - intros (x & E & F). exists (i, x). split; auto. apply filter_In. split; auto. apply G. rewrite Nat.sub_0_r. split; [lia|auto].
Qed.

Lemma py_get_f2 {A B} (R : A -> B -> Prop) l l' i : Forall2 R l l' ->
  match py_get l' i with
  | Err e => py_get l i = Err e
  | Ok y => exists x, py_get l i = Ok x /\ R x y /\ In y l'
  end.
Proof.
  intro H. unfold py_get. rewrite (F2_length _ _ _ H).
  destruct (_ <? 0)%Z; auto. generalize (Z.to_nat (if (i <? 0)%Z then (i + Z.of_nat (length l'))%Z else i)).
  clear i. induction H as [|x y l l' E H IH]; intros [|n]; simpl; auto; [eauto|].
  specialize (IH n). destruct (nth_error l' n); cbn [of_option] in *; auto.
  destruct IH as (x' & E1 & E2 & E3). eauto.
Qed.

(** ** A fit of nearly the same values *)
Section Fit.
Open Scope Q_scope.
Lemma qn_S n : qn (S n) == 1 + qn n.
Proof. unfold qn. rewrite Nat2Z.inj_succ, <- Z.add_1_l, inject_Z_plus. reflexivity. Qed.
Lemma qn_nonneg n : 0 <= qn n.
Proof. unfold qn, Qle. simpl. lia. Qed.
Lemma sum_squares l : lsumq l * lsumq l <= qn (length l) * lsumq (map (fun x => x * x) l).
Proof.
  induction l as [|a l IH]; simpl lsumq; simpl length; simpl map.
  - apply Qle_refl.
  - simpl lsumq. set (S := lsumq l) in *. set (T := lsumq (map (fun x => x * x) l)) in *. rewrite qn_S. set (n := qn (length l)) in *.
    assert (N : 0 <= n) by apply qn_nonneg.
    assert (2 * a * S <= n * (a * a) + T).
    { destruct l as [|b l].
      - subst S T n. simpl. change (qn 0) with 0. Lqa.lra.
      - assert (P : 0 < n). { subst n. simpl length. rewrite qn_S. pose proof (qn_nonneg (length l)). Lqa.lra. }
        apply (Qmult_le_l _ _ n P). assert (0 <= (n * a - S) * (n * a - S)) by (destruct (Qlt_le_dec (n * a - S) 0); Lqa.nra).
        Lqa.nra. }
    Lqa.nra.
Qed.
Lemma squares_nonneg l : 0 <= lsumq (map (fun x => x * x) l).
Proof.
  induction l as [|a l IH]; simpl; [apply Qle_refl|]. assert (0 <= a * a) by (destruct (Qlt_le_dec a 0); Lqa.nra). Lqa.lra.
Qed.
Lemma fit_near e P P' : 0 <= e ->
  Forall2 (fun p p' => fst p' = fst p /\ 0 <= fst p /\ Qabs (snd p' - snd p) <= e) P P' ->
  Qabs (fit_b0 P' - fit_b0 P) * lsumq (map fst P) <= qn (length P) * e.
Proof.
  intros He H. unfold fit_b0.
  assert (EX : map (fun p : Q * Q => fst p * fst p) P' = map (fun p : Q * Q => fst p * fst p) P).
  { induction H as [|p p' P P' (E & _) H IH]; simpl; congruence. }
  assert (SQ : map (fun p : Q * Q => fst p * fst p) P = map (fun x => x * x) (map fst P)) by (rewrite map_map; auto).
  rewrite EX. set (A := lsumq (map fst P)).
  assert (CS : A * A <= qn (length P) * lsumq (map (fun p : Q * Q => fst p * fst p) P)).
  { rewrite SQ. rewrite <- (map_length fst P). apply sum_squares. }
  assert (S0 : 0 <= lsumq (map (fun p : Q * Q => fst p * fst p) P)) by (rewrite SQ; apply squares_nonneg).
  assert (A0 : 0 <= A).
  { subst A. clear - H. induction H as [|p p' P P' (_ & E & _) H IH]; simpl; [apply Qle_refl|Lqa.lra]. }
  set (S := lsumq (map (fun p : Q * Q => fst p * fst p) P)) in *.
  set (T := lsumq (map (fun p : Q * Q => fst p * snd p) P)). set (T' := lsumq (map (fun p : Q * Q => fst p * snd p) P')).
  assert (D : Qabs (T' - T) <= e * A).
  { subst T T' A. clear - H He. induction H as [|p p' P P' (E & X & Y) H IH]; cbn [map]; [simpl; rewrite Qmult_0_r; apply Qle_refl|]. cbn [lsumq].
    rewrite E. set (U := lsumq (map (fun p : Q * Q => fst p * snd p) P)) in *. set (U' := lsumq (map (fun p : Q * Q => fst p * snd p) P')) in *.
    setoid_replace (fst p * snd p' + U' - (fst p * snd p + U)) with (fst p * (snd p' - snd p) + (U' - U)) by ring.
    eapply Qle_trans; [apply Qabs_triangle|]. rewrite Qabs_Qmult, (Qabs_pos (fst p)) by auto.
    rewrite Qmult_plus_distr_r. apply Qplus_le_compat; auto. rewrite (Qmult_comm e). rewrite !(Qmult_comm (fst p)).
    apply Qmult_le_compat_r; auto. }
  assert (N := qn_nonneg (length P)).
  destruct (Qeq_bool S 0) eqn:Z.
  - setoid_replace (1 - 1) with 0 by ring. change (Qabs 0) with 0. rewrite Qmult_0_l. apply Qmult_le_0_compat; auto.
  - apply Qeq_bool_neq in Z. assert (SP : 0 < S) by (apply Qle_lteq in S0; destruct S0 as [|E]; auto; exfalso; apply Z; symmetry; auto).
    setoid_replace (T' / S - T / S) with ((T' - T) * / S) by (unfold Qdiv; ring).
    rewrite Qabs_Qmult, (Qabs_pos (/ S)) by (apply Qlt_le_weak, Qinv_lt_0_compat; auto).
    setoid_replace (Qabs (T' - T) * / S * A) with (Qabs (T' - T) * A / S) by (unfold Qdiv; ring).
    apply Qle_shift_div_r; auto. apply Qle_trans with (e * A * A); [apply Qmult_le_compat_r; auto|].
    setoid_replace (e * A * A) with (A * A * e) by ring. setoid_replace (qn (length P) * e * S) with (qn (length P) * S * e) by ring.
    apply Qmult_le_compat_r; auto.
Qed.
End Fit.

(** ** The indices *)
Section Same.
Variables (b : Z) (T : temporal) (F : ftemporal) (o : robj) (fo : fobj).
Hypothesis Hb : (0 <= b <= 16)%Z.
Hypothesis UY : Forall2 (bounded_mean b) (ftp_uy F) (tp_uy T).
Hypothesis UD : Forall2 (bounded_mean b) (ftp_uydark F) (tp_uydark T).
Hypothesis SY : Forall2 (near_var b) (ftp_s2y F) (tp_s2y T).
Hypothesis OT : exact_arrays T o.
Hypothesis FO : fo_t fo = F /\ fo_sat fo = o_sat o.
Let u := ulp1 * IZR (2 ^ b).

Lemma sat_same : clear_variances (variance_error b) (ftp_s2y F) (tp_s2y T) -> findex_u_ysat fo = fst (index_u_ysat o).
Proof.
  intro CV. destruct OT as (_ & _ & E3). destruct FO as (F1 & F2).
  assert (W : Forall2 (within (variance_error b)) (tp_s2y T) (ftp_s2y F)).
  { clear - SY. induction SY; constructor; auto. }
  destruct (agree_variances _ _ _ W CV) as (A1 & A2).
  unfold findex_u_ysat, index_u_ysat. rewrite F1, F2, E3.
  rewrite (loop_same (ftp_s2y F) (tp_s2y T) (F2_length _ _ _ SY) A1 A2 _ fzero 0%Q 0%nat (or_introl eq_refl)).
  rewrite (F2_length _ _ _ SY).
  destruct (o_sat o) as [z|]; [destruct (negb (z =? 0)%Z); auto|]; destruct (sat_loop _ _ _ _); reflexivity.
Qed.

Lemma signals : match signal o with
  | Err e => fsignal fo = Err e
  | Ok Y => exists Yf, fsignal fo = Ok Yf /\ Forall2 (off (4 * u)) Yf Y /\ List.Forall (fun q => Rabs (Q2R q) <= IZR (2 ^ b)) Y
  end.
Proof.
  destruct OT as (E1 & E2 & _). destruct FO as (F1 & _). unfold signal, fsignal. rewrite E1, E2, F1.
  apply (pairs_off b Hb); auto.
Qed.

(** A comparison that is far enough from equality. *)
Lemma compare_le c y q x v : 0 <= Q2R c <= 1 -> off (4 * u) y q -> Rabs (Q2R q) <= IZR (2 ^ b) -> off (4 * u) x v ->
  (signal_error b < Qabs (v - c * q))%Q ->
  fge (fmul (rnd64 c) y) x = Qle_bool v (c * q) /\ fge x (fmul (rnd64 c) y) = Qge_b v (c * q).
Proof.
  intros C Y Q (w & -> & D) E. destruct (limit_off b Hb c y q C Y Q) as (l & -> & DL). fold u in DL.
  apply Qlt_Rlt in E. rewrite (signal_error_u b) in E. fold u in E. rewrite Q2R_Qabs, Q2R_minus in E.
  assert (U : 0 < u) by apply (u_B b Hb).
  rewrite !fge_fin. unfold Qge_b. apply Rabs_le_inv in D, DL.
  destruct (Rle_dec (Q2R v) (Q2R (c * q))) as [L|L].
  - rewrite Rabs_left1 in E by lra. split; [transitivity true; [|symmetry]; apply Qle_boolR; lra|].
    transitivity false; [|symmetry]; apply Qle_boolR_false; lra.
  - rewrite Rabs_pos_eq in E by lra. split; [transitivity false; [|symmetry]; apply Qle_boolR_false; lra|].
    transitivity true; [|symmetry]; apply Qle_boolR; lra.
Qed.

Lemma index_same (pick : list nat -> res nat) c
  (f : pyfloat -> pyfloat -> bool) (g : Q -> Q -> bool) :
  (forall y q x v, off (4 * u) y q -> Rabs (Q2R q) <= IZR (2 ^ b) -> off (4 * u) x v ->
    (signal_error b < Qabs (v - c * q))%Q -> f x y = g v q) ->
  findex_u_ysat fo = fst (index_u_ysat o) -> clear_limit (signal_error b) c o ->
  (Y <- fsignal fo ;; i <- findex_u_ysat fo ;; y <- py_get Y i ;; pick (fargwhere (fun v => f v y) Y)) =
  (Y <- signal o ;; i <- fst (index_u_ysat o) ;; y <- py_get Y i ;; pick (argwhere (fun v => g v y) Y)).
Proof.
  intros FG SAT CL. pose proof signals as S. destruct (signal o) as [Y|e] eqn:ES; [|rewrite S; reflexivity].
  destruct S as (Yf & -> & O & BD). cbn [bind]. rewrite SAT.
  destruct (fst (index_u_ysat o)) as [i|e] eqn:EI; [|reflexivity]. cbn [bind].
  pose proof (py_get_f2 _ _ _ i O) as G. destruct (py_get Y i) as [q|e] eqn:EG; [|rewrite G; reflexivity].
  destruct G as (y & -> & OY & IN). cbn [bind]. f_equal.
  apply fargwhere_agree. assert (BQ : Rabs (Q2R q) <= IZR (2 ^ b)) by (rewrite List.Forall_forall in BD; auto).
  assert (CLV : forall v, In v Y -> (signal_error b < Qabs (v - c * q))%Q) by (intros v Hv; eapply CL; eauto).
  clear - FG O OY BQ CLV. revert CLV. induction O as [|x v Yf Y H O IH]; intros CLV; constructor.
  - apply FG; auto. apply CLV. left. auto.
  - apply IH. intros. apply CLV. right. auto.
Qed.

Lemma range c n d : (c = n # d)%Q -> (0 <= n <= Zpos d)%Z -> 0 <= Q2R c <= 1.
Proof.
  intros -> (A & B). split.
  - replace 0 with (Q2R 0) by (unfold Q2R; simpl; lra). apply Qle_Rle. unfold Qle. simpl. lia.
  - replace 1 with (Q2R 1) by (unfold Q2R; simpl; lra). apply Qle_Rle. unfold Qle. simpl. lia.
Qed.

Lemma sensitivity_same : findex_u_ysat fo = fst (index_u_ysat o) -> clear_limit (signal_error b) (7 # 10) o ->
  findex_sensitivity_max fo = index_sensitivity_max o.
Proof.
  intros S C. refine (index_same max_index (7 # 10)%Q (fun v y => fge (fmul (rnd64 (7 # 10)) y) v) _ _ S C).
  intros. apply compare_le; auto. eapply range; [reflexivity|lia].
Qed.
Lemma linearity_max_same : findex_u_ysat fo = fst (index_u_ysat o) -> clear_limit (signal_error b) (95 # 100) o ->
  findex_linearity_max fo = index_linearity_max o.
Proof.
  intros S C. refine (index_same max_index (95 # 100)%Q (fun v y => fge (fmul (rnd64 (95 # 100)) y) v) _ _ S C).
  intros. apply compare_le; auto. eapply range; [reflexivity|lia].
Qed.
Lemma linearity_min_same : findex_u_ysat fo = fst (index_u_ysat o) -> clear_limit (signal_error b) (5 # 100) o ->
  findex_linearity_min fo = index_linearity_min o.
Proof.
  intros S C. refine (index_same min_index (5 # 100)%Q (fun v y => fge v (fmul (rnd64 (5 # 100)) y)) _ _ S C).
  intros. apply compare_le; auto. eapply range; [reflexivity|lia].
Qed.

(** Whether or not a point is near the limit. *)
Lemma sensitivity_margin m Y i y : findex_u_ysat fo = fst (index_u_ysat o) -> findex_sensitivity_max fo = Ok m ->
  signal o = Ok Y -> fst (index_u_ysat o) = Ok i -> py_get Y i = Ok y ->
  (forall j v, nth_error Y j = Some v -> (v <= (7 # 10) * y - signal_error b)%Q -> (j <= m)%nat) /\
  exists v, nth_error Y m = Some v /\ (v <= (7 # 10) * y + signal_error b)%Q.
Proof.
  intros SAT M EY EI EG. pose proof signals as S. rewrite EY in S. destruct S as (Yf & EF & O & BD).
  unfold findex_sensitivity_max in M. rewrite EF, SAT, EI in M. cbn [bind] in M.
  pose proof (py_get_f2 _ _ _ i O) as G. rewrite EG in G. destruct G as (yf & E & OY & IN). rewrite E in M. cbn [bind] in M.
  apply max_index_iff in M. destruct M as (M1 & M2).
  assert (BQ : Rabs (Q2R y) <= IZR (2 ^ b)) by (rewrite List.Forall_forall in BD; auto).
  destruct (limit_off b Hb (7 # 10) yf y (range (7 # 10) 7 10 eq_refl ltac:(lia)) OY BQ) as (l & EL & DL). fold u in DL.
  rewrite EL in *. assert (U : 0 < u) by apply (u_B b Hb). apply Rabs_le_inv in DL.
  assert (N : forall j, (forall x, nth_error Yf j = Some x -> exists v, nth_error Y j = Some v /\ off (4 * u) x v) /\
    (forall v, nth_error Y j = Some v -> exists x, nth_error Yf j = Some x /\ off (4 * u) x v)).
  { clear - O. induction O as [|x v Yf Y H O IH]; intros [|j]; simpl; try (split; discriminate); auto.
    split; intros ? E; injection E as <-; eauto. }
  split.
  - intros j v Hj L. apply M2. apply fargwhere_in. destruct (N j) as (_ & N2). destruct (N2 v Hj) as (x & Hx & w & -> & D).
    exists (FFin w). split; auto. rewrite fge_fin. apply Qle_boolR. apply Rabs_le_inv in D.
    apply Qle_Rle in L. rewrite Q2R_minus, (signal_error_u b) in L. fold u in L. lra.
  - apply fargwhere_in in M1. destruct M1 as (x & Hx & C). destruct (N m) as (N1 & _).
    destruct (N1 x Hx) as (v & Hv & w & -> & D). exists v. split; auto. rewrite fge_fin in C. apply Qle_boolR in C.
    apply Rabs_le_inv in D. apply Rle_Qle. rewrite Q2R_plus, (signal_error_u b). fold u. lra.
Qed.

Lemma responsivity_near r : findex_u_ysat fo = fst (index_u_ysat o) -> clear_limit (signal_error b) (7 # 10) o ->
  ftp_up F = map FFin (r_up (o_t o)) -> List.Forall (fun x => 0 <= x)%Q (r_up (o_t o)) -> length (r_up (o_t o)) = length (r_uy (o_t o)) ->
  length (r_uydark (o_t o)) = length (r_uy (o_t o)) ->
  responsivity o = Ok r ->
  exists m r', index_sensitivity_max o = Ok m /\ fresponsivity fo = Ok r' /\
    (Qabs (r' - r) * lsumq (slice 0 (m + 1) (r_up (o_t o))) <= qn (m + 1) * signal_error b)%Q.
Proof.
  intros SAT CL EU PU L1 L2 R. pose proof signals as S. unfold responsivity in R.
  destruct (signal o) as [Y|] eqn:EY; [|discriminate]. cbn [bind] in R. destruct S as (Yf & EF & O & BD).
  destruct (index_sensitivity_max o) as [m|] eqn:EM; [|discriminate]. cbn [bind] in R.
  exists m. unfold fresponsivity. rewrite EF, (sensitivity_same SAT CL), EM. cbn [bind].
  destruct FO as (F1 & _). rewrite F1, EU.
  assert (MX : forall l, mapM finite_number (map FFin l) = Ok l) by (induction l as [|a l IH]; simpl; [|rewrite IH]; reflexivity).
  rewrite MX. cbn [bind].
  assert (exists Y', mapM finite_number Yf = Ok Y' /\ Forall2 (fun y y' => Qabs (y' - y) <= signal_error b)%Q Y Y') as (Y' & -> & O').
  { assert (U : 0 < u) by apply (u_B b Hb). clear - O U. induction O as [|x v Yf Y (w & -> & D) O (Y' & E & IH)]; simpl; [exists []; split; auto|].
    exists (w :: Y'). rewrite E. split; auto. constructor; [|auto]. change (Qabs (w - v) <= signal_error b)%Q. apply Rle_Qle. rewrite Q2R_Qabs, Q2R_minus, (signal_error_u b). fold u. lra. }
  cbn [bind].
  assert (LY : length Y = length (r_uy (o_t o))).
  { unfold signal, np_sub, np_pairs in EY. rewrite L2, Nat.eqb_refl in EY. cbn [bind] in EY. injection EY as <-.
    rewrite map_length, combine_length. lia. }
  assert (LY' : length Y' = length Y) by (symmetry; apply (F2_length _ _ _ O')).
  unfold index_sensitivity_min in *. set (X := r_up (o_t o)) in *.
  assert (SL : forall A (l : list A), length (slice 0 (m + 1) l) = Nat.min (m + 1) (length l)).
  { intros. unfold slice. rewrite firstn_length. simpl. lia. }
  assert (E1 : length (slice 0 (m + 1) X) = length (slice 0 (m + 1) Y)) by (rewrite !SL, LY, L1; auto).
  assert (E2 : length (slice 0 (m + 1) X) = length (slice 0 (m + 1) Y')) by (rewrite !SL, LY', LY, L1; auto).
  unfold linear_b0, np_pairs in R. rewrite E1, Nat.eqb_refl in R. cbn [bind] in R.
  rewrite combine_length, E1, Nat.min_id in R.
  unfold linear_b0, np_pairs. rewrite E2, Nat.eqb_refl. cbn [bind]. rewrite combine_length, E2, Nat.min_id, <- E2, E1.
  destruct (_ <? 1)%nat; [discriminate|]. injection R as <-. eexists. split; [reflexivity|]. split; [reflexivity|].
  assert (ML : (m + 1 <= length X)%nat).
  { unfold index_sensitivity_max in EM. rewrite EY in EM. cbn [bind] in EM.
    destruct (fst (index_u_ysat o)) as [i|]; [|discriminate]. cbn [bind] in EM. destruct (py_get Y i) as [y|]; [|discriminate].
    cbn [bind] in EM. apply max_index_iff in EM. destruct EM as (EM & _). unfold argwhere in EM. apply in_map_iff in EM.
    destruct EM as ((j & v) & <- & J). apply filter_In in J. destruct J as (J & _). apply in_combine_l in J. apply in_seq in J. simpl. lia. }
  set (P := combine (slice 0 (m + 1) X) (slice 0 (m + 1) Y)).
  assert (LP : length P = (m + 1)%nat) by (unfold P; rewrite combine_length, !SL, LY, <- L1; lia).
  assert (MP : map fst P = slice 0 (m + 1) X).
  { unfold P. assert (E : length (slice 0 (m + 1) X) = length (slice 0 (m + 1) Y)) by (rewrite !SL, LY, L1; auto).
    revert E. generalize (slice 0 (m + 1) X), (slice 0 (m + 1) Y). clear. induction l as [|a l IH]; intros [|c k] E; simpl in *; try discriminate; auto.
    f_equal. apply IH. congruence. }
  pose proof (fit_near (signal_error b) P (combine (slice 0 (m + 1) X) (slice 0 (m + 1) Y'))) as Q.
  rewrite MP, LP in Q. apply Q; clear Q.
  - apply Rle_Qle. rewrite (signal_error_u b). pose proof (u_B b Hb). replace (Q2R 0) with 0 by (unfold Q2R; simpl; lra). lra.
  - unfold P, slice. simpl skipn. clearbody X. clear - O' PU. rewrite Nat.sub_0_r. generalize (m + 1)%nat as k. revert X PU.
    induction O' as [|y y' Y Y' H O' IH]; intros [|x X] PU [|k]; simpl; try constructor.
    + inversion PU; subst. simpl. auto.
    + apply IH. inversion PU; auto.
Qed.
End Same.
