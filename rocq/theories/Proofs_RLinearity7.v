(** The linearity errors of a measurement given as image pairs. *)
From Coq Require Import List Bool Arith ZArith QArith Qabs Qreals Reals Lia Lra.
From Verif Require Import Base_Prelude Base_Num Base_Order Base_Sum Base_Float Spec_Num
  Model_Images Model_Loader Model_Data Model_Rounded Model_Results Model_RoundedIndex Model_RoundedLinearity
  Spec_Images Spec_Data Spec_Results Spec_Rounded Spec_RoundedIndex Spec_RoundedLinearity Proofs_Float Proofs_Rounded Proofs_Rounded5 Proofs_Results
  Proofs_RoundedIndex Proofs_RoundedIndex2 Proofs_RoundedIndex3 Proofs_RLinearity4 Proofs_RLinearity5 Proofs_RLinearity6.
Import ListNotations.
Open Scope Q_scope.
Set Bullet Behavior "Strict Subproofs".

Lemma measurement_accuracy order sums b h w pairs data fdata T F o fo n lo hi kappa j :
  (0 <= b <= 16)%Z -> sound_order order -> sound_sums sums -> every (fun p => pair_bits b h w (fst p) (snd p)) pairs ->
  table2 (table2 exact_entry) pairs data -> table2 (table2 (float_entry order)) pairs fdata ->
  get_temporal (h * w) data = Ok T -> get_temporal_f (h * w) fdata = Ok F ->
  exact_arrays T o -> fo_t fo = F /\ fo_sat fo = o_sat o ->
  clear_variances (variance_error b) (ftp_s2y F) (tp_s2y T) ->
  clear_limit (signal_error b) (5 # 100) o -> clear_limit (signal_error b) (95 # 100) o ->
  shaped o n -> tp_up T = map FFin (r_up (o_t o)) ->
  index_linearity_min o = Ok lo -> index_linearity_max o = Ok hi -> (lo <= hi)%nat -> (hi - lo < 200)%nat -> (j < 100)%nat ->
  (forall i, in_range lo hi i -> moderate (photons o i) /\ moderate (sig o i) /\ inject_Z (4 * 2 ^ b) <= qn j * sig o i) ->
  1 <= kappa -> levels_spread kappa (range_points o lo hi) -> linearity_bound kappa (S (hi - lo)) j <= 100 ->
  exists l a b, flinearity sums fo = Ok l /\ best_relative_line (photons o) (sig o) lo hi a b /\
    (forall i, in_range lo hi i -> sig o i / 2 <= a * photons o i + b ->
       exists d, nth_error (fl_dev l) i = Some d /\ within (linearity_bound kappa (S (hi - lo)) j) (rel_dev o a b i) d) /\
    ((forall i, in_range lo hi i -> sig o i / 2 <= a * photons o i + b) ->
     exists mn mx, LE_min o = Ok (Some mn) /\ LE_max o = Ok (Some mx) /\
       within (linearity_bound kappa (S (hi - lo)) j) mn (fl_min l) /\
       within (linearity_bound kappa (S (hi - lo)) j) mx (fl_max l)).
Proof.
  intros Hb O SO K E G ET EF OT FO CV C5 C95 SH EU E1 E2 L L200 J HM HK HS HB.
  destruct (points_same order b h w pairs data fdata T F o fo Hb O K E G ET EF OT FO CV) as (_ & _ & I1 & I2).
  destruct (all_near _ _ _ _ _ _ _ _ _ O K E G ET EF) as (_ & UP & UY & SY & UD & _).
  pose proof (signals b T F o fo Hb UY UD OT FO) as S. rewrite (signal_shaped o n SH) in S. destruct S as (Y & EY & OFF & _).
  assert (LY : length Y = n) by (rewrite (F2_length _ _ _ OFF), map_length, seq_length; reflexivity).
  apply (linearity_accuracy sums o fo n Y lo hi kappa j); auto.
  - destruct FO as (-> & _). replace (ftp_up F) with (map FFin (r_up (o_t o))) by congruence.
    generalize (r_up (o_t o)). induction l as [|x l IH]; cbn [map]; constructor; [exists x; split; reflexivity|exact IH].
  - rewrite I1 by exact C5. exact E1.
  - rewrite I2 by exact C95. exact E2.
  - intros i R. assert (LI : (i < n)%nat).
    { destruct (Proofs_Results3.linearity_bounds o n lo hi SH E1 E2). unfold in_range in R. lia. }
    pose proof (forall2_nth _ _ _ FNan 0 i OFF ltac:(lia)) as (v & EV & D). rewrite (nth_map_seq (sig o)) in D by exact LI.
    exists v. split; [exact EV|]. destruct (HM i R) as (_ & _ & H). apply Rle_Qle.
    rewrite Q2R_Qabs, Q2R_minus, Q2R_mult, Q2R_div, Q2R_qn, Q2R_inject_Z by discriminate.
    eapply Rle_trans; [exact D|]. apply Qle_Rle in H. rewrite Q2R_mult, Q2R_qn, Q2R_inject_Z, mult_IZR in H.
    pose proof ulp1_pos. apply (Rmult_le_compat_l ulp1) in H; [|lra]. unfold ulp1 in *. unfold Rdiv. lra.
  - intros i R. destruct (HM i R) as (A & B & _). split; assumption.
Qed.
