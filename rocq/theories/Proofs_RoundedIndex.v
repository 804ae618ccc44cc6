(** The indices of rounded data. *)
From Coq Require Import List Bool Arith ZArith QArith Qabs Qreals Reals Lia Lra.
From Flocq Require Import Core.
From Verif Require Import Base_Prelude Base_Num Base_Order Base_Sum Base_Float Spec_Num Proofs_Round
  Proofs_Num Proofs_Float Model_Images Model_Loader Model_Data Model_Hist Model_Rounded Model_Results Model_RoundedIndex
  Spec_Images Spec_Data Spec_Rounded Spec_RoundedIndex Proofs_Images Proofs_Hist2 Proofs_Data Proofs_Data2
  Proofs_Rounded Proofs_Rounded2 Proofs_Rounded3 Proofs_Rounded4.
Import ListNotations.
Open Scope R_scope.

Lemma F2_length {A B} (R : A -> B -> Prop) l l' : Forall2 R l l' -> length l = length l'.
Proof. induction 1; simpl; auto. Qed.

(** A finite number at most d away. *)
Definition off (d : R) (x : pyfloat) (q : Q) : Prop := exists v, x = FFin v /\ Rabs (Q2R v - Q2R q) <= d.

Lemma fge_fin a b : fge (FFin a) (FFin b) = Qle_bool b a.
Proof.
  unfold fge. cbn [flt feq]. destruct (Qle_bool b a) eqn:E.
  - destruct (Qle_bool a b) eqn:F; [|reflexivity]. simpl. apply Qeq_bool_iff. apply Qle_bool_iff in E, F. apply Qle_antisym; auto.
  - destruct (Qle_bool a b) eqn:F; simpl.
    + destruct (Qeq_bool a b) eqn:G; [|reflexivity]. apply Qeq_bool_iff in G. rewrite <- E. symmetry. apply Qle_bool_iff. rewrite G. apply Qle_refl.
    + exfalso. assert (~ (b <= a)%Q) by (intro K; apply Qle_bool_iff in K; congruence).
      assert (~ (a <= b)%Q) by (intro K; apply Qle_bool_iff in K; congruence).
      destruct (Qlt_le_dec a b) as [K|K]; [apply Qlt_le_weak in K|]; contradiction.
Qed.
Lemma Qle_boolR a b : Qle_bool a b = true <-> Q2R a <= Q2R b.
Proof. rewrite Qle_bool_iff. split; [apply Qle_Rle|apply Rle_Qle]. Qed.
Lemma Qle_boolR_false a b : Qle_bool a b = false <-> Q2R b < Q2R a.
Proof.
  destruct (Qle_bool a b) eqn:E.
  - apply Qle_boolR in E. split; [discriminate|lra].
  - split; [intros _|auto]. destruct (Rlt_le_dec (Q2R b) (Q2R a)) as [H|H]; auto. apply Qle_boolR in H. congruence.
Qed.

(** ** The saturation index *)
Definition agreeing (p p' : pyfloat * Q) : Prop := fge (fst p) (fst p') = Qge_b (snd p) (snd p').

Lemma nth_combine {A B} (xs : list A) (qs : list B) i : length xs = length qs ->
  (nth_error xs i = None /\ nth_error qs i = None) \/
  exists x q, nth_error xs i = Some x /\ nth_error qs i = Some q /\ In (x, q) (combine xs qs).
Proof.
  intro L. destruct (nth_error (combine xs qs) i) as [[x q]|] eqn:E.
  - right. exists x, q. pose proof (nth_error_In _ _ E) as I. revert qs i L E I.
    induction xs as [|x0 xs IH]; intros [|q0 qs] [|i] L E I; simpl in *; try discriminate.
    + injection E as <- <-. auto.
    + injection L as L. destruct (IH qs i L E (nth_error_In _ _ E)) as (A1 & A2 & A3). auto.
  - left. apply nth_error_None in E. rewrite combine_length in E. split; apply nth_error_None; lia.
Qed.

Lemma loop_same xs qs : length xs = length qs ->
  (forall p, In p (combine xs qs) -> exists v, fst p = FFin v) ->
  (forall p p', In p (combine xs qs) -> In p' ((fzero, 0%Q) :: combine xs qs) -> agreeing p p') ->
  forall k mx mq mi, In (mx, mq) ((fzero, 0%Q) :: combine xs qs) ->
  fsat_loop xs k mx mi = sat_loop qs k mq mi.
Proof.
  intros L FN A. induction k as [|k IH]; intros mx mq mi I; [reflexivity|]. simpl.
  destruct (nth_combine xs qs k L) as [(-> & ->)|(x & q & -> & -> & I1)]; [reflexivity|].
  cbn [of_option bind]. pose proof (A _ _ I1 I) as E. unfold agreeing in E. cbn [fst snd] in E. rewrite E.
  destruct (Qge_b q mq) eqn:G1; [apply IH; right; auto|].
  destruct (nth_combine xs qs (if (k =? 0)%nat then 1%nat else (k - 1)%nat) L)
    as [(-> & ->)|(x' & q' & -> & -> & I2)]; [reflexivity|].
  cbn [of_option bind]. pose proof (A _ _ I2 I) as E'. unfold agreeing in E'. cbn [fst snd] in E'. rewrite E'.
  destruct (Qge_b q' mq) eqn:G2; [apply IH; right; auto|].
  assert (exists v, mx = FFin v) as (m & ->).
  { destruct I as [I|I]; [injection I as <- _; exists 0%Q; reflexivity|exact (FN _ I)]. }
  destruct (FN _ I1) as (v & V). destruct (FN _ I2) as (v' & V'). cbn [fst] in V, V'. subst x x'.
  rewrite fge_fin in E, E'. cbn [flt]. rewrite E, E'. reflexivity.
Qed.

Lemma agree_variances e xs qs : Forall2 (within e) qs xs -> clear_variances e xs qs ->
  (forall p, In p (combine xs qs) -> exists v, fst p = FFin v) /\
  (forall p p', In p (combine xs qs) -> In p' ((fzero, 0%Q) :: combine xs qs) -> agreeing p p').
Proof.
  intros F C.
  assert (W : forall p, In p (combine xs qs) -> within e (snd p) (fst p)).
  { clear C. induction F as [|q x qs xs H F IH]; simpl; [tauto|]. intros p [<-|I]; auto. }
  split.
  - intros p I. destruct (W p I) as (v & E & _). eauto.
  - intros [x q] p' I I'. destruct (W _ I) as (v & E & D). cbn [fst snd] in E, D. subst x.
    apply Qle_Rle in D. rewrite Q2R_Qabs, Q2R_minus in D. apply Rabs_le_inv in D.
    destruct (C _ I) as (Z & P). unfold agreeing. cbn [fst snd]. destruct I' as [<-|I'].
    + cbn [fst snd]. unfold fzero, Qge_b. rewrite fge_fin.
      destruct Z as [Z|(Z1 & Z2)].
      * cbn [fst snd] in Z. apply Qlt_Rlt in Z.
        assert (Z0 : Q2R 0 = 0) by (unfold Q2R; simpl; lra).
        transitivity true; [|symmetry]; apply Qle_boolR; rewrite Z0; lra.
      * cbn [fst snd] in Z1, Z2. cbn [feq fzero] in Z1. apply Qeq_bool_iff in Z1.
        transitivity true; [|symmetry]; apply Qle_bool_iff; [rewrite Z1|rewrite Z2]; apply Qle_refl.
    + destruct p' as [x' q']. destruct (W _ I') as (v' & E' & D'). cbn [fst snd] in E', D'. subst x'.
      apply Qle_Rle in D'. rewrite Q2R_Qabs, Q2R_minus in D'. apply Rabs_le_inv in D'.
      unfold Qge_b. cbn [fst snd]. rewrite fge_fin.
      destruct (P _ I') as [H|(H1 & H2)]; cbn [fst snd] in *.
      * apply Qlt_Rlt in H. rewrite Q2R_Qabs, Q2R_mult, Q2R_minus in H.
        replace (Q2R 2) with 2 in H by (unfold Q2R; simpl; lra). 
        destruct (Qle_bool q' q) eqn:G.
        -- apply Qle_boolR in G. apply Qle_boolR. rewrite Rabs_pos_eq in H by lra. lra.
        -- apply Qle_boolR_false in G. apply Qle_boolR_false. rewrite Rabs_left in H by lra. lra.
      * cbn [feq] in H1. apply Qeq_bool_iff in H1. transitivity true; [|symmetry]; apply Qle_bool_iff; [rewrite H1|rewrite H2]; apply Qle_refl.
Qed.

(** ** Signals and limits *)
Section Bits.
Variable b : Z.
Hypothesis Hb : (0 <= b <= 16)%Z.
Let B : R := IZR (2 ^ b).
Let u : R := ulp1 * B.

Definition bounded_mean (x : pyfloat) (q : Q) : Prop := near_mean x q /\ 0 <= Q2R q <= B.

Lemma B_ge : 1 <= B.
Proof. unfold B. apply IZR_le. change 1%Z with (2 ^ 0)%Z. apply Z.pow_le_mono_r; lia. Qed.
Lemma B_le : B <= 65536.
Proof. unfold B. apply IZR_le. change 65536%Z with (2 ^ 16)%Z. apply Z.pow_le_mono_r; lia. Qed.
Lemma u_B : 0 < u <= B / 1000.
Proof. unfold u. pose proof ulp1_pos. pose proof B_ge. split; [nra|]. nra. Qed.
Lemma tiny_u : 0 < tiny <= u / 1000.
Proof. pose proof tiny_small. pose proof ulp1_pos. pose proof B_ge. unfold u. nra. Qed.
Lemma big_B x : Rabs x <= 8 * B -> Rabs x <= big.
Proof.
  intro H. pose proof (big_M b 8 Hb ltac:(lra)) as K. fold B in K. pose proof B_ge. nra.
Qed.

Lemma mean_off x q : bounded_mean x q -> off (1001 / 1000 * u) x q.
Proof.
  intros ([(v & -> & N & _)|(n & y & -> & N & G & _)] & H).
  - exists v. split; auto. unfold nearest_even in N. change (Q2R v = rn (Q2R q)) in N. rewrite N.
    eapply Rle_trans; [apply (rn_abs _ B); rewrite Rabs_pos_eq; lra|]. fold u. pose proof tiny_u. lra.
  - exfalso. change (y = rn (Q2R q)) in N. pose proof (rn_abs (Q2R q) B ltac:(rewrite Rabs_pos_eq; lra)) as D.
    rewrite <- N in D. fold u in D. pose proof tiny_u. pose proof u_B. pose proof B_le.
    assert (Rabs y <= 2 * B). { apply Rabs_le_inv in D. apply Rabs_le. lra. }
    assert (bpow radix2 17 <= bpow radix2 1024) by (apply bpow_le; lia).
    change (bpow radix2 17) with 131072 in *.
    assert (B < 65536 \/ B = 65536) as [K|K] by lra; [lra|].
    apply Rabs_le_inv in D. assert (Rabs y <= 1.5 * B) by (apply Rabs_le; lra). lra.
Qed.

(** A signal off by at most 4 u. *)
Lemma sub_off x q x' q' : bounded_mean x q -> bounded_mean x' q' ->
  off (4 * u) (fsub x x') (q - q')%Q /\ Rabs (Q2R (q - q')) <= B.
Proof.
  intros H H'. pose proof (mean_off _ _ H) as (v & -> & D). pose proof (mean_off _ _ H') as (v' & -> & D').
  destruct H as (_ & H). destruct H' as (_ & H'). pose proof u_B. pose proof tiny_u.
  apply Rabs_le_inv in D, D'. rewrite Q2R_minus.
  assert (M : Rabs (Q2R v - Q2R v') <= 11 / 10 * B) by (apply Rabs_le; lra).
  destruct (fsub_val (FFin v) (FFin v') (Q2R v) (Q2R v')) as (w & E & W).
  - exists v; auto.
  - exists v'; auto.
  - apply big_B. pose proof B_ge. lra.
  - split; [|apply Rabs_le; lra]. exists w. split; auto. rewrite W, Q2R_minus.
    pose proof (rn_abs _ _ M) as N. replace (ulp1 * (11 / 10 * B)) with (11 / 10 * u) in N by (unfold u; ring).
    apply Rabs_le_inv in N. apply Rabs_le. lra.
Qed.

Lemma pairs_off xs qs xs' qs' : Forall2 bounded_mean xs qs -> Forall2 bounded_mean xs' qs' ->
  match np_sub qs qs' with
  | Err e => fnp_sub xs xs' = Err e
  | Ok Y => exists Yf, fnp_sub xs xs' = Ok Yf /\ Forall2 (off (4 * u)) Yf Y /\ List.Forall (fun q => Rabs (Q2R q) <= B) Y
  end.
Proof.
  intros F F'. unfold np_sub, fnp_sub, np_pairs, fnp_pairs.
  rewrite <- (F2_length _ _ _ F), <- (F2_length _ _ _ F').
  assert (ONE : forall l l' f g, Forall2 (fun p p' => bounded_mean (fst p) (fst p') /\ bounded_mean (snd p) (snd p')) l l' ->
    f = map (fun p => fsub (fst p) (snd p)) l -> g = map (fun p : Q * Q => fst p - snd p)%Q l' ->
    Forall2 (off (4 * u)) f g /\ List.Forall (fun q => Rabs (Q2R q) <= B) g).
  { intros l l' f g G -> ->. induction G as [|p p' l l' (G1 & G2) G IH]; simpl; [split; constructor|].
    destruct (sub_off _ _ _ _ G1 G2) as (S1 & S2). destruct IH. split; constructor; auto. }
  destruct (length xs =? length xs')%nat eqn:E; cbn [bind].
  - eexists. split; [reflexivity|]. eapply ONE; [|reflexivity|reflexivity].
    apply Nat.eqb_eq in E. revert xs' qs' F' E. induction F as [|x q xs qs H F IH]; intros xs' qs' F' E.
    + destruct F'; [constructor|discriminate].
    + destruct F' as [|x' q' xs' qs' H' F']; [discriminate|]. simpl. constructor; auto.
  - destruct F as [|x q xs qs H F].
    + destruct F' as [|x' q' xs' qs' H' F']; [discriminate E|]. destruct F'; cbn [bind].
      * eexists. split; [reflexivity|]. split; constructor.
      * reflexivity.
    + destruct F as [|x1 q1 xs qs H1 F]; cbn [bind].
      * eexists. split; [reflexivity|]. eapply ONE; [|reflexivity|reflexivity].
        clear E. induction F' as [|x' q' xs' qs' H' F' IH]; simpl; constructor; auto.
      * destruct F' as [|x' q' xs' qs' H' F']; [reflexivity|]. destruct F'; cbn [bind]; [|reflexivity].
        eexists. split; [reflexivity|]. eapply ONE; [|reflexivity|reflexivity].
        simpl. constructor; [split; auto|]. constructor; [split; auto|]. clear E. induction F as [|x2 q2 xs qs H2 F IH]; simpl; constructor; auto.
Qed.

(** The limit c y is off by at most 8 u. *)
Lemma limit_off c y q : 0 <= Q2R c <= 1 -> off (4 * u) y q -> Rabs (Q2R q) <= B ->
  off (8 * u) (fmul (rnd64 c) y) (c * q)%Q.
Proof.
  intros C (v & -> & D) Q. pose proof u_B. pose proof tiny_u. pose proof B_ge. pose proof B_le.
  destruct (rnd64_val c (Q2R c) eq_refl) as (c' & EC & VC).
  { apply big_B. rewrite Rabs_pos_eq; lra. }
  pose proof (rn_abs (Q2R c) 1 ltac:(rewrite Rabs_pos_eq; lra)) as DC. rewrite <- VC in DC.
  assert (V : Rabs (Q2R v) <= 11 / 10 * B). { apply Rabs_le_inv in D, Q. apply Rabs_le. lra. }
  set (dc := Q2R c' - Q2R c) in *. set (dv := Q2R v - Q2R q) in *.
  pose proof tiny_small. pose proof ulp1_pos.
  assert (P : Rabs (Q2R c' * Q2R v - Q2R c * Q2R q) <= 52 / 10 * u).
  { replace (Q2R c' * Q2R v - Q2R c * Q2R q) with (dc * Q2R v + Q2R c * dv) by (unfold dc, dv; ring).
    eapply Rle_trans; [apply Rabs_triang|]. rewrite !Rabs_mult. rewrite (Rabs_pos_eq (Q2R c)) by lra.
    assert (Rabs dc * Rabs (Q2R v) <= (1001 / 1000 * ulp1) * (11 / 10 * B)).
    { apply Rmult_le_compat; try apply Rabs_pos; lra. }
    assert (Q2R c * Rabs dv <= 1 * (4 * u)) by (apply Rmult_le_compat; try apply Rabs_pos; lra).
    replace (1001 / 1000 * ulp1 * (11 / 10 * B)) with (11011 / 10000 * u) in * by (unfold u; field). lra. }
  assert (M : Rabs (Q2R c' * Q2R v) <= 12 / 10 * B).
  { rewrite Rabs_mult. apply Rabs_le_inv in DC. assert (Rabs (Q2R c') <= 1002 / 1000). { apply Rabs_le. unfold dc in DC. lra. }
    apply Rle_trans with (1002 / 1000 * (11 / 10 * B)); [|lra]. apply Rmult_le_compat; try apply Rabs_pos; lra. }
  rewrite EC. destruct (fmul_val (FFin c') (FFin v) (Q2R c') (Q2R v)) as (w & E & W).
  - exists c'; auto.
  - exists v; auto.
  - apply big_B. lra.
  - exists w. split; auto. rewrite W, Q2R_mult. pose proof (rn_abs _ _ M) as N.
    replace (ulp1 * (12 / 10 * B)) with (12 / 10 * u) in N by (unfold u; ring).
    apply Rabs_le_inv in N, P. apply Rabs_le. lra.
Qed.

Lemma signal_error_u : Q2R (signal_error b) = 16 * u.
Proof.
  unfold signal_error. rewrite Q2R_div, !Q2R_inject_Z by (vm_compute; discriminate). fold B. unfold u, ulp1.
  change (2 ^ 53)%Z with (16 * 2 ^ 49)%Z. rewrite mult_IZR. field. apply IZR_neq. vm_compute. discriminate.
Qed.
End Bits.
