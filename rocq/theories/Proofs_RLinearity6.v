(** The linearity errors of a measurement in double precision against the exact ones. *)
From Coq Require Import List Bool Arith ZArith QArith Qabs Qreals Reals Lia Lra.
From Verif Require Import Base_Prelude Base_Num Base_Order Base_Sum Base_Float Spec_Num
  Model_Images Model_Data Model_Rounded Model_Results Model_RoundedIndex Model_RoundedLinearity
  Spec_Results Spec_Rounded Spec_RoundedLinearity Proofs_Rounded Proofs_RFigures Proofs_Float Proofs_Results Proofs_Results2 Proofs_Results3
  Proofs_RLinearity Proofs_RLinearity2 Proofs_RLinearity3 Proofs_RLinearity4 Proofs_RLinearity5.
Import ListNotations.
Open Scope Q_scope.
Set Bullet Behavior "Strict Subproofs".

Lemma stands_val x q : stands_for x q -> fval x (Q2R q).
Proof. intros (v & -> & E). exists v. split; [reflexivity|]. apply Qeq_eqR, E. Qed.

Lemma seq_nth_map {A} (l : list A) d : map (fun i => nth i l d) (seq 0 (length l)) = l.
Proof.
  apply (nth_ext _ _ d d); [rewrite map_length, seq_length; reflexivity|]. intros i H. rewrite map_length, seq_length in H.
  rewrite (nth_indep _ d (nth 0 l d)) by (rewrite map_length, seq_length; exact H).
  rewrite (map_nth (fun i => nth i l d)), seq_nth by exact H. reflexivity.
Qed.
Lemma combine_maps {A B C} (f : A -> B) (g : A -> C) l : combine (map f l) (map g l) = map (fun x => (f x, g x)) l.
Proof. induction l as [|x l IH]; [reflexivity|]. cbn [map combine]. rewrite IH. reflexivity. Qed.
Lemma combine_nths {A B} (l : list A) (l' : list B) n d d' : length l = n -> length l' = n ->
  combine l l' = map (fun i => (nth i l d, nth i l' d')) (seq 0 n).
Proof.
  intros H G. rewrite <- (seq_nth_map l d) at 1. rewrite <- (seq_nth_map l' d') at 1. rewrite H, G. apply combine_maps.
Qed.
Lemma forall2_map {A B C} (R : B -> C -> Prop) (f : A -> B) (g : A -> C) l : (forall x, In x l -> R (f x) (g x)) -> Forall2 R (map f l) (map g l).
Proof.
  induction l as [|x l IH]; intro H; cbn [map]; constructor; [apply H; left; reflexivity|]. apply IH. intros. apply H. right. assumption.
Qed.
Lemma forall2_nth {A B} (R : A -> B -> Prop) l l' d d' i : Forall2 R l l' -> (i < length l)%nat -> R (nth i l d) (nth i l' d').
Proof. intro H. revert i. induction H as [|x y l l' H _ IH]; intros [|i] L; cbn in *; try lia; [exact H|]. apply IH. lia. Qed.
Lemma close_R j x q : moderate q -> signal_close j x q -> exists y, fval x y /\ (Rabs (y - Q2R q) <= INR j * ulp1 * Q2R q)%R.
Proof.
  intros M (v & -> & H). exists (Q2R v). split; [exists v; split; reflexivity|]. apply Qle_Rle in H.
  rewrite Q2R_Qabs, Q2R_minus, Q2R_mult, Q2R_div, Q2R_qn, Q2R_inject_Z in H by discriminate. exact H.
Qed.
Lemma slice_combine {A B} i j (l : list A) (l' : list B) : slice i j (combine l l') = combine (slice i j l) (slice i j l').
Proof.
  assert (S : forall k (l : list A) (l' : list B), skipn k (combine l l') = combine (skipn k l) (skipn k l')).
  { induction k as [|k IH]; [reflexivity|]. intros [|x m] [|y m']; cbn [skipn combine]; auto.
    destruct (skipn k m); reflexivity. }
  unfold slice. rewrite S. apply combine_firstn.
Qed.
Lemma between_in {A} lo hi (l : list A) d : In d (between lo hi l) <-> exists i, in_range lo hi i /\ nth_error l i = Some d.
Proof.
  unfold between, in_range. split.
  - intro I. apply In_nth_error in I. destruct I as (j & E). exists (lo + j)%nat.
    assert (J : (j < hi + 1 - lo)%nat).
    { assert (H : nth_error (firstn (hi + 1 - lo) (skipn lo l)) j <> None) by congruence. apply nth_error_Some in H.
      rewrite firstn_length in H. lia. }
    split; [lia|]. rewrite <- E. clear - J. revert J. generalize (hi + 1 - lo)%nat as m. revert lo j.
    induction l as [|x l IH]; intros lo j m J.
    + destruct lo, j, m; reflexivity.
    + destruct lo as [|lo]; cbn [skipn plus].
      * clear IH. revert j m J. generalize (x :: l). clear. induction l as [|x l IH]; intros j m J; [destruct j, m; reflexivity|].
        destruct m as [|m]; [lia|]. destruct j as [|j]; [reflexivity|]. cbn [firstn nth_error]. apply IH. lia.
      * apply IH. exact J.
  - intros (i & R & E). assert (G : In d (skipn lo l) /\ nth_error (skipn lo l) (i - lo) = Some d).
    { assert (N : nth_error (skipn lo l) (i - lo) = Some d).
      { rewrite <- E. replace i with (lo + (i - lo))%nat at 2 by lia. generalize (i - lo)%nat. clear. revert l.
        induction lo as [|lo IH]; intros [|x l] j; cbn [skipn plus nth_error]; auto. destruct j; reflexivity. }
      split; [eapply nth_error_In; eauto|exact N]. }
    destruct G as (_ & G). apply (nth_error_In _ (i - lo)). rewrite <- G. 
    assert (J : (i - lo < hi + 1 - lo)%nat) by lia. revert J. generalize (i - lo)%nat as j, (hi + 1 - lo)%nat as m, (skipn lo l). clear.
    intros j m l. revert j m. induction l as [|x l IH]; intros j m J; [destruct j, m; reflexivity|].
    destruct m as [|m]; [lia|]. destruct j as [|j]; [reflexivity|]. cbn [firstn nth_error]. apply IH. lia.
Qed.

Lemma points_combine o n lo hi : length (r_up (o_t o)) = n -> (hi < n)%nat -> (lo <= hi)%nat ->
  slice lo (hi + 1) (combine (r_up (o_t o)) (map (sig o) (seq 0 n))) = range_points o lo hi.
Proof.
  intros HU H L. rewrite (combine_seq _ _ n HU), slice_map, slice_seq by lia. unfold range_points.
  replace (hi + 1 - lo)%nat with (S (hi - lo)) by lia. reflexivity.
Qed.

Lemma within_R e q x d : fval x d -> (Rabs (d - Q2R q) <= Q2R e)%R -> within e q x.
Proof.
  intros (v & -> & <-) H. exists v. split; [reflexivity|]. apply Qabs_Qle_condition.
  rewrite <- Q2R_minus in H. pose proof (Rle_abs (Q2R (v - q))) as A1. pose proof (Rle_abs (- Q2R (v - q))) as A2. rewrite Rabs_Ropp in A2. split; apply Rle_Qle; rewrite ?Q2R_opp; lra.
Qed.

(** The extremes of a list near another one. *)
Lemma extremes_near (R : nat -> Prop) (f : nat -> Q) (g : nat -> pyfloat) (l : list pyfloat) e mn mx emn emx :
  (forall d, In d l <-> exists i, R i /\ g i = d) -> (forall i, R i -> within e (f i) (g i)) -> extremes l mn mx ->
  (forall i, R i -> emn <= f i <= emx) -> (exists i, R i /\ emn = f i) -> (exists i, R i /\ emx = f i) ->
  within e emn mn /\ within e emx mx.
Proof.
  intros HL W EX B (i & Ri & Ei) (j & Rj & Ej). destruct EX as [(N & _)|(_ & M1 & M2 & ORD)].
  - apply HL in N. destruct N as (i' & Ri' & E). destruct (W i' Ri') as (v & E' & _). congruence.
  - assert (LE : forall u v, at_most (FFin u) (FFin v) -> u <= v).
    { intros u v [H|H]; cbn in H.
      - apply negb_true_iff in H. apply Qlt_le_weak, Qnot_le_lt. intro C. apply Qle_bool_iff in C. congruence.
      - apply Qeq_bool_iff in H. rewrite H. apply Qle_refl. }
    destruct (W i Ri) as (vi & Gi & Wi). destruct (W j Rj) as (vj & Gj & Wj).
    apply Qabs_Qle_condition in Wi, Wj.
    assert (I1 : In (g i) l) by (apply HL; eauto). assert (J1 : In (g j) l) by (apply HL; eauto).
    apply HL in M1, M2. destruct M1 as (a & Ra & <-), M2 as (b & Rb & <-).
    destruct (W a Ra) as (va & Ga & Wa). destruct (W b Rb) as (vb & Gb & Wb). apply Qabs_Qle_condition in Wa, Wb.
    pose proof (proj1 (ORD _ I1)) as O1. pose proof (proj2 (ORD _ J1)) as O2. rewrite Ga, Gi in O1. rewrite Gb, Gj in O2.
    apply LE in O1, O2. pose proof (B a Ra). pose proof (B b Rb).
    split; [exists va|exists vb]; (split; [assumption|]); apply Qabs_Qle_condition; subst emn emx; Lqa.lra.
Qed.

Lemma linearity_accuracy order o fo n Y lo hi kappa j : sound_sums order -> shaped o n ->
  Forall2 stands_for (ftp_up (fo_t fo)) (r_up (o_t o)) -> fsignal fo = Ok Y -> length Y = n ->
  index_linearity_min o = Ok lo -> index_linearity_max o = Ok hi ->
  findex_linearity_min fo = Ok lo -> findex_linearity_max fo = Ok hi -> (lo <= hi)%nat -> (hi - lo < 200)%nat -> (j < 100)%nat ->
  (forall i, in_range lo hi i -> signal_close j (nth i Y FNan) (sig o i)) ->
  (forall i, in_range lo hi i -> moderate (photons o i) /\ moderate (sig o i)) ->
  1 <= kappa -> levels_spread kappa (range_points o lo hi) -> linearity_bound kappa (S (hi - lo)) j <= 100 ->
  exists l a b, flinearity order fo = Ok l /\ best_relative_line (photons o) (sig o) lo hi a b /\
    (forall i, in_range lo hi i -> sig o i / 2 <= a * photons o i + b ->
       exists d, nth_error (fl_dev l) i = Some d /\ within (linearity_bound kappa (S (hi - lo)) j) (rel_dev o a b i) d) /\
    ((forall i, in_range lo hi i -> sig o i / 2 <= a * photons o i + b) ->
     exists mn mx, LE_min o = Ok (Some mn) /\ LE_max o = Ok (Some mx) /\
       within (linearity_bound kappa (S (hi - lo)) j) mn (fl_min l) /\
       within (linearity_bound kappa (S (hi - lo)) j) mx (fl_max l)).
Proof.
  intros SO SH HX EY LY E1 E2 F1 F2 L L200 J HY HM HK HS HB.
  destruct (linearity_bounds o n lo hi SH E1 E2) as (L1 & L2).
  assert (HU : length (r_up (o_t o)) = n) by (destruct SH as (_ & HU & _); auto).
  set (P := range_points o lo hi) in *.
  set (PA := combine (ftp_up (fo_t fo)) Y). set (PF := slice lo (hi + 1) PA).
  assert (LX : length (ftp_up (fo_t fo)) = n) by (rewrite (forall2_len _ _ _ HX); exact HU).
  assert (PE : PA = map (fun i => (nth i (ftp_up (fo_t fo)) FNan, nth i Y FNan)) (seq 0 n)) by (apply combine_nths; assumption).
  assert (VX : forall i, in_range lo hi i -> fval (nth i (ftp_up (fo_t fo)) FNan) (Q2R (photons o i))).
  { intros i R. apply stands_val. unfold photons, at_. apply forall2_nth; [exact HX|unfold in_range in R; lia]. }
  assert (VY : forall i, in_range lo hi i -> exists y, fval (nth i Y FNan) y /\ (Rabs (y - Q2R (sig o i)) <= INR j * ulp1 * Q2R (sig o i))%R)
    by (intros i R; apply close_R; [apply HM, R|apply HY, R]).
  assert (HF : Forall2 (fpoint (S j)) PF P).
  { unfold PF. rewrite PE, slice_map, slice_seq by lia. unfold P, range_points. replace (hi + 1 - lo)%nat with (S (hi - lo)) by lia.
    apply forall2_map. intros i I. apply in_seq in I. assert (R : in_range lo hi i) by (unfold in_range; lia).
    split; cbn [fst snd]; [apply VX, R|]. destruct (VY i R) as (y & V & B). exists y. split; [exact V|].
    apply rel_of; [lia|]. rewrite unit_ulp1. destruct (moderate_size _ (proj2 (HM i R))) as (S0 & _). rewrite (Rabs_pos_eq (Q2R (sig o i))) by lra. exact B. }
  assert (LP : length P = S (hi - lo)) by (unfold P, range_points; rewrite map_length, seq_length; reflexivity).
  assert (N200 : (0 < length P <= 200)%nat) by lia.
  assert (MP : Forall (fun q => moderate (fst q) /\ moderate (snd q)) P).
  { apply Forall_forall. intros q I. apply in_map_iff in I. destruct I as (i & <- & I). apply in_seq in I. apply HM. unfold in_range. lia. }
  rewrite <- LP in *. pose proof (exact_fit PF P order kappa j J SO HF N200 MP HK HS) as FIT.
  assert (NZ : forall i, in_range lo hi i -> ~ sig o i == 0) by (intros i R; apply moderate_nz, HM, R).
  assert (D : exists i j, in_range lo hi i /\ in_range lo hi j /\ ~ photons o i == photons o j).
  { destruct (existsb (fun j => negb (Qeq_bool (photons o j) (photons o lo))) (seq lo (S (hi - lo)))) eqn:E.
    - apply existsb_exists in E. destruct E as (i & I & E). apply in_seq in I. exists i, lo. unfold in_range. split; [lia|]. split; [lia|].
      intro Q. apply Qeq_bool_iff in Q. rewrite Q in E. discriminate.
    - exfalso. rewrite (relative_fit_level P (photons o lo)) in FIT; [discriminate|]. apply Forall_forall. intros q I.
      apply in_map_iff in I. destruct I as (i & <- & I). cbn [fst].
      destruct (Qeq_bool (photons o i) (photons o lo)) eqn:Q; [apply Qeq_bool_iff, Q|]. exfalso.
      assert (T : existsb (fun j => negb (Qeq_bool (photons o j) (photons o lo))) (seq lo (S (hi - lo))) = true).
      { apply existsb_exists. exists i. rewrite Q. split; [exact I|reflexivity]. } congruence. }
  destruct (linearity_figures o n lo hi SH E1 E2 NZ D) as (le & a & b & EL & EF & BEST & _ & _ & EXT).
  assert (AB : a = exact_slope P /\ b = exact_offset P).
  { unfold linearity in EL. rewrite (signal_shaped o n SH), E1, E2 in EL. cbn [bind] in EL.
    assert (LS : length (slice lo (hi + 1) (map (sig o) (seq 0 n))) = (hi + 1 - lo)%nat) by (apply slice_len; rewrite map_length, seq_length; lia).
    assert (LR : length (slice lo (hi + 1) (r_up (o_t o))) = (hi + 1 - lo)%nat) by (apply slice_len; lia).
    rewrite np_pairs_eq in EL by congruence. cbn [bind] in EL. rewrite <- slice_combine in EL.
    assert (SY : slice lo (hi + 1) (map (sig o) (seq 0 n)) = map snd P).
    { unfold P. rewrite <- (points_combine o n lo hi HU L2 L), slice_combine. symmetry. apply map_snd_combine. congruence. }
    rewrite SY, (points_combine o n lo hi HU L2 L) in EL. fold P in EL. rewrite FIT in EL.
    apply bind_ok in EL. destruct EL as (PP & _ & EL). apply bind_ok in EL. destruct EL as (mn & _ & EL).
    apply bind_ok in EL. destruct EL as (mx & _ & EL). injection EL as <-. cbn [lin_fit] in EF. injection EF as <- <-. split; reflexivity. }
  destruct AB as (EA & EB).
  destruct (linearity_reported order fo Y lo hi EY ltac:(lia) F1 F2) as (REP & _). destruct (REP L) as (l & EFL & LD).
  destruct (linearity_extremes order fo l EFL) as (lo' & hi' & F1' & F2' & _ & EXF).
  rewrite F1 in F1'. injection F1' as <-. rewrite F2 in F2'. injection F2' as <-.
  set (fs := fit_sums order PF (map snd PF)).
  assert (DEV : fl_dev l = map (fun p => deviation_f (fit_slope_f fs (fit_offset_f fs)) (fit_offset_f fs) (fst p) (snd p)) PA).
  { unfold flinearity in EFL. rewrite EY, F1, F2 in EFL. cbn [bind] in EFL.
    assert (S1 : length (slice lo (hi + 1) (ftp_up (fo_t fo))) = (hi + 1 - lo)%nat) by (apply slice_len; lia).
    assert (S2 : length (slice lo (hi + 1) Y) = (hi + 1 - lo)%nat) by (apply slice_len; lia).
    unfold fnp_pairs at 1 in EFL. rewrite S1, S2, Nat.eqb_refl in EFL. cbn [bind] in EFL.
    unfold fnp_pairs in EFL. rewrite LX, LY, Nat.eqb_refl in EFL. cbn [bind] in EFL. cbv zeta in EFL.
    apply bind_ok in EFL. destruct EFL as (mn & _ & EFL). apply bind_ok in EFL. destruct EFL as (mx & _ & EFL). injection EFL as <-.
    cbn [fl_dev]. fold PA. unfold fs. replace (map snd PF) with (slice lo (hi + 1) Y).
    - unfold PF, PA. rewrite slice_combine. reflexivity.
    - unfold PF, PA. rewrite slice_combine. symmetry. apply map_snd_combine. congruence. }
  assert (POINT : forall i, in_range lo hi i -> sig o i / 2 <= a * photons o i + b ->
       exists d, nth_error (fl_dev l) i = Some d /\ within (linearity_bound kappa (length P) j) (rel_dev o a b i) d).
  { intros i R H. destruct (VY i R) as (y & V & B).
    assert (IP : In (photons o i, sig o i) P).
    { unfold P, range_points. apply (in_map (fun i => (photons o i, sig o i))). apply in_seq. unfold in_range in R. lia. }
    destruct (deviation_near PF P order kappa j J SO HF N200 MP HK HS HB (nth i (ftp_up (fo_t fo)) FNan, nth i Y FNan) (photons o i, sig o i) y
      (VX i R) V B IP) as (d & W & E).
    - cbn [fst snd]. rewrite <- EA, <- EB. exact H.
    - cbn [fst snd] in E, W. rewrite <- EA, <- EB in E. rewrite DEV, PE, map_map, nth_error_map.
      unfold in_range in R. rewrite (nth_error_nth' _ 0%nat) by (rewrite seq_length; lia). rewrite seq_nth by lia. cbn [option_map fst snd plus].
      eexists. split; [reflexivity|]. apply (within_R _ _ _ d W E). }
  exists l, a, b. split; [exact EFL|]. split; [exact BEST|]. split; [exact POINT|].
  intro HALF. assert (NL : forall i, in_range lo hi i -> ~ a * photons o i + b == 0).
  { intros i R Z. pose proof (HALF i R) as H. rewrite Z in H. destruct (moderate_size _ (proj2 (HM i R))) as (S0 & _).
    apply Q2R_pos in S0. assert (T : 0 < sig o i / 2) by (apply Qlt_shift_div_l; [reflexivity|rewrite Qmult_0_l; exact S0]).
    apply (Qlt_not_le _ _ T H). }
  destruct (EXT NL) as (mn & mx & M1 & M2 & B & X1 & X2). exists mn, mx. split; [exact M1|]. split; [exact M2|].
  apply (extremes_near (in_range lo hi) (rel_dev o a b) (fun i => nth i (fl_dev l) FNan) (between lo hi (fl_dev l))); auto.
  - intro d. rewrite between_in. unfold in_range. split; intros (i & R & E); exists i; (split; [exact R|]).
    + apply nth_error_nth, E.
    + rewrite <- E. apply nth_error_nth'. rewrite LD. lia.
  - intros i R. destruct (POINT i R (HALF i R)) as (d & E & W). rewrite (nth_error_nth _ _ _ E). exact W.
Qed.
