(** Proofs for C90. *)
From Coq Require Import List Bool Arith ZArith QArith Reals Qreals Rpower Lia Lra Lqa.
From Verif Require Import Base_Prelude Base_Num Base_Sum Base_Xreal Model_Images Model_Data Model_Results
  Spec_Results Spec_Ideal Proofs_Results Proofs_Fit Proofs_Results2 Proofs_Results3 Proofs_Results4.
Import ListNotations.
Open Scope Q_scope.

Section Ideal.
Variables (o : robj) (n p : nat) (eta K : Q).
Hypothesis H : linear_sensor o n p eta K.

Let EK : 0 < K * eta.
Proof. apply (Qmult_lt_0_compat K eta); [apply (ls_gain _ _ _ _ _ H)|apply (ls_eta _ _ _ _ _ H)]. Qed.

Lemma ideal_photons i : (i < n)%nat -> 0 < photons o i.
Proof.
  intros Hi. destruct i as [|i]; [apply (ls_light _ _ _ _ _ H)|].
  eapply Qlt_trans; [apply (ls_light _ _ _ _ _ H)|]. apply (ls_more _ _ _ _ _ H). lia.
Qed.

Lemma ideal_sig i : (i <= p)%nat -> sig o i == (K * eta) * photons o i.
Proof. intros Hi. rewrite (ls_signal _ _ _ _ _ H i Hi). ring. Qed.

Lemma ideal_sig_pos i : (i <= p)%nat -> 0 < sig o i.
Proof.
  intros Hi. rewrite (ideal_sig i Hi). apply Qmult_lt_0_compat; [exact EK|].
  apply ideal_photons. pose proof (ls_saturates _ _ _ _ _ H). lia.
Qed.

Lemma ideal_sig_le i c : (i <= p)%nat -> photons o i <= c * photons o p -> sig o i <= c * sig o p.
Proof.
  intros Hi L. rewrite (ideal_sig i Hi), (ideal_sig p (le_n _)).
  setoid_replace (c * (K * eta * photons o p)) with (K * eta * (c * photons o p)) by ring.
  apply Qmult_le_l; [exact EK|exact L].
Qed.
Lemma ideal_sig_ge i c : (i <= p)%nat -> c * photons o p <= photons o i -> c * sig o p <= sig o i.
Proof.
  intros Hi L. rewrite (ideal_sig i Hi), (ideal_sig p (le_n _)).
  setoid_replace (c * (K * eta * photons o p)) with (K * eta * (c * photons o p)) by ring.
  apply Qmult_le_l; [exact EK|exact L].
Qed.

Lemma ideal_s2y i : at_ (r_s2y (o_t o)) i == noise o i + at_ (r_s2ydark (o_t o)) i.
Proof. unfold noise. ring. Qed.

Lemma ideal_rises i j : (i < j <= p)%nat -> at_ (r_s2y (o_t o)) i < at_ (r_s2y (o_t o)) j.
Proof.
  intros Hij. pose proof (ls_saturates _ _ _ _ _ H) as S.
  rewrite (ideal_s2y i), (ideal_s2y j).
  rewrite (ls_noise _ _ _ _ _ H i), (ls_noise _ _ _ _ _ H j) by lia.
  rewrite (ideal_sig i), (ideal_sig j) by lia.
  assert (D := ls_dark _ _ _ _ _ H i j ltac:(lia)).
  assert (P := ls_more _ _ _ _ _ H i j ltac:(lia)).
  assert (L : K * (K * eta * photons o i) < K * (K * eta * photons o j)).
  { apply Qmult_lt_l; [apply (ls_gain _ _ _ _ _ H)|]. apply Qmult_lt_l; [exact EK|exact P]. }
  lra.
Qed.

Lemma ideal_peak : peak_at (r_s2y (o_t o)) p.
Proof.
  pose proof (ls_saturates _ _ _ _ _ H) as S.
  assert (Hn : length (r_s2y (o_t o)) = n) by (destruct (ls_shape _ _ _ _ _ H) as (_ & _ & _ & E & _); exact E).
  split; [lia|]. split; [|split].
  - apply Forall_forall. intros x Hx. apply (In_nth _ _ 0) in Hx. destruct Hx as (i & Li & <-).
    change (0 <= at_ (r_s2y (o_t o)) i).
    destruct (le_lt_dec i p) as [Hi|Hi].
    + rewrite (ideal_s2y i), (ls_noise _ _ _ _ _ H i Hi).
      assert (D := ls_dark _ _ _ _ _ H i i ltac:(lia)).
      assert (0 < K * sig o i) by (apply Qmult_lt_0_compat; [apply (ls_gain _ _ _ _ _ H)|apply ideal_sig_pos; exact Hi]).
      lra.
    + apply (ls_quiet _ _ _ _ _ H p i); lia.
  - intros i j Hij. apply ideal_rises. lia.
  - intros i j Hij Hj. apply (ls_quiet _ _ _ _ _ H i j); lia.
Qed.

Lemma ideal_index : fst (index_u_ysat o) = Ok (Z.of_nat p).
Proof.
  apply peak_found; [apply (ls_unforced _ _ _ _ _ H)|exact ideal_peak|].
  pose proof (ls_saturates _ _ _ _ _ H). lia.
Qed.

Lemma ideal_sat : sat_point o n p.
Proof.
  split; [pose proof (ls_saturates _ _ _ _ _ H); lia|].
  exists (Z.of_nat p). split; [exact ideal_index|left; reflexivity].
Qed.

Lemma beyond i c : c < 1 -> (p <= i < n)%nat -> ~ sig o i <= c * sig o p.
Proof.
  intros Hc Hi L. assert (C := ls_clipped _ _ _ _ _ H i Hi).
  assert (P := ideal_sig_pos p (le_n _)).
  assert (c * sig o p < 1 * sig o p) by (apply Qmult_lt_r; assumption).
  lra.
Qed.

(** The largest index of a decidable predicate that holds somewhere. *)
Lemma largest_exists (P : nat -> Prop) (dec : forall i, {P i} + {~ P i}) N i :
  (i < N)%nat -> P i -> exists m, largest N P m /\ (i <= m)%nat.
Proof.
  induction N as [|N IH]; [lia|]. intros Hi Pi.
  destruct (dec N) as [Y|F].
  - exists N. split; [|lia]. split; [lia|]. split; [exact Y|]. intros j Hj. lia.
  - destruct (Nat.eq_dec i N) as [->|E]; [contradiction|].
    destruct (IH ltac:(lia) Pi) as (m & (L & Pm & B) & Le). exists m. split; [|lia].
    split; [lia|]. split; [exact Pm|]. intros j Hj.
    destruct (Nat.eq_dec j N) as [->|E']; [exact F|]. apply B. lia.
Qed.
Lemma smallest_exists (P : nat -> Prop) (dec : forall i, {P i} + {~ P i}) N i :
  (i < N)%nat -> P i -> exists m, smallest N P m /\ (m <= i)%nat.
Proof.
  revert i. induction i as [i IH] using lt_wf_ind. intros Hi Pi.
  destruct (Exists_dec P (seq 0 i) dec) as [E|E].
  - apply Exists_exists in E. destruct E as (j & Hj & Pj). apply in_seq in Hj.
    destruct (IH j ltac:(lia) ltac:(lia) Pj) as (m & M & L). exists m. split; [exact M|lia].
  - exists i. split; [|lia]. split; [exact Hi|]. split; [exact Pi|].
    intros j Hj Pj. apply E. apply Exists_exists. exists j. split; [apply in_seq; lia|exact Pj].
Qed.

Lemma qle_dec2 (a b : Q) : {a <= b} + {~ a <= b}.
Proof. destruct (Qlt_le_dec b a) as [L|L]; [right; lra|left; exact L]. Qed.

Lemma ideal_sens : exists m, index_sensitivity_max o = Ok m /\ (m < p)%nat.
Proof.
  destruct (largest_exists (fun i => sig o i <= (7 # 10) * sig o p) (fun i => qle_dec2 _ _) n 0) as (m & M & _).
  - pose proof (ls_saturates _ _ _ _ _ H). lia.
  - apply ideal_sig_le; [lia|apply (ls_first _ _ _ _ _ H)].
  - exists m. split.
    + apply (sensitivity_max_iff o n p (ls_shape _ _ _ _ _ H) ideal_sat). exact M.
    + destruct (le_lt_dec p m) as [L|L]; [|exact L]. exfalso.
      destruct M as (Mn & Mp & _). apply (beyond m (7 # 10) ltac:(reflexivity) ltac:(lia) Mp).
Qed.

Lemma ideal_responsivity : exists r, responsivity o = Ok r /\ r == K * eta.
Proof.
  destruct ideal_sens as (m & M & L). pose proof (ls_saturates _ _ _ _ _ H) as S.
  destruct (responsivity_best o n m (ls_shape _ _ _ _ _ H) M) as (r & E & B).
  { exists 0%nat. split; [lia|]. pose proof (ls_light _ _ _ _ _ H). lra. }
  exists r. split; [exact E|]. apply (best_slope_exact _ _ _ _ _ B).
  intros i Hi. apply ideal_sig. lia.
Qed.

Lemma ideal_gain : exists k, gain o = Ok k /\ k == K.
Proof.
  destruct ideal_sens as (m & M & L). pose proof (ls_saturates _ _ _ _ _ H) as S.
  destruct (gain_best o n m (ls_shape _ _ _ _ _ H) M) as (k & E & B).
  { exists 0%nat. split; [lia|]. pose proof (ideal_sig_pos 0 ltac:(lia)). lra. }
  exists k. split; [exact E|]. apply (best_slope_exact _ _ _ _ _ B).
  intros i Hi. apply (ls_noise _ _ _ _ _ H). lia.
Qed.

Lemma ideal_range : exists lo hi, index_linearity_min o = Ok lo /\ index_linearity_max o = Ok hi /\
  (lo < hi < p)%nat.
Proof.
  pose proof (ls_saturates _ _ _ _ _ H) as S.
  destruct (ls_two _ _ _ _ _ H) as (i & j & Hij & Li & Lj).
  destruct (largest_exists (fun i => sig o i <= (95 # 100) * sig o p) (fun i => qle_dec2 _ _) n j) as (hi & Mh & Lh).
  { lia. } { apply ideal_sig_le; [lia|exact Lj]. }
  destruct (smallest_exists (fun i => (5 # 100) * sig o p <= sig o i) (fun i => qle_dec2 _ _) n i) as (lo & Ml & Ll).
  { lia. } { apply ideal_sig_ge; [lia|exact Li]. }
  exists lo, hi. split; [|split].
  - apply (linearity_min_iff o n p (ls_shape _ _ _ _ _ H) ideal_sat). exact Ml.
  - apply (linearity_max_iff o n p (ls_shape _ _ _ _ _ H) ideal_sat). exact Mh.
  - split; [lia|]. destruct (le_lt_dec p hi) as [L|L]; [|exact L]. exfalso.
    destruct Mh as (Mn & Mp & _). apply (beyond hi (95 # 100) ltac:(reflexivity) ltac:(lia) Mp).
Qed.

Lemma ideal_linearity : exists mn mx, LE_min o = Ok (Some mn) /\ LE_max o = Ok (Some mx) /\ mn == 0 /\ mx == 0.
Proof.
  pose proof (ls_saturates _ _ _ _ _ H) as S.
  destruct ideal_range as (lo & hi & Elo & Ehi & L).
  destruct (linearity_exact o n lo hi (K * eta) 0 (ls_shape _ _ _ _ _ H) Elo Ehi)
    as (l & a & b & mn & mx & _ & _ & _ & _ & A & B & C & D).
  - intros i Hi. unfold in_range in Hi. pose proof (ideal_sig_pos i ltac:(lia)). lra.
  - exists lo, hi. unfold in_range. split; [lia|]. split; [lia|].
    pose proof (ls_more _ _ _ _ _ H lo hi ltac:(lia)). lra.
  - intros i Hi. unfold in_range in Hi. rewrite (ideal_sig i) by lia. ring.
  - exists mn, mx. auto.
Qed.

Open Scope R_scope.
Lemma ideal_figures :
  fst (index_u_ysat o) = Ok (Z.of_nat p) /\
  (exists r, responsivity o = Ok r /\ (r == K * eta)%Q) /\
  (exists k, gain o = Ok k /\ (k == K)%Q) /\
  QE o = Ok (XR (100 * Q2R eta)) /\
  u_p_sat o = Ok (photons o p) /\
  u_e_sat o = Ok (XR (Q2R eta * Q2R (photons o p))) /\
  SNR_max o = Ok (XR (sqrt (Q2R eta * Q2R (photons o p)))) /\
  (exists mn mx, LE_min o = Ok (Some mn) /\ LE_max o = Ok (Some mx) /\ (mn == 0)%Q /\ (mx == 0)%Q) /\
  (exists s, sigma_y_dark o = Ok (XR s) /\ 0 < s /\
     u_e_min o = Ok (XR (s / Q2R K + 1 / 2)) /\
     u_p_min o = Ok (XR ((s / Q2R K + 1 / 2) / Q2R eta)) /\
     DR o = Ok (XR (Q2R eta * Q2R (photons o p) / (s / Q2R K + 1 / 2)))).
Proof.
  pose proof (ls_saturates _ _ _ _ _ H) as S.
  destruct ideal_responsivity as (r & Er & Vr). destruct ideal_gain as (k & Ek & Vk).
  assert (Up := u_p_sat_value o n p (ls_shape _ _ _ _ _ H) ideal_sat).
  destruct (sigma_y_dark_value o n (ls_shape _ _ _ _ _ H) ltac:(lia)) as (v & s & _ & Es & Ps & _).
  assert (GK := ls_gain _ _ _ _ _ H). assert (GE := ls_eta _ _ _ _ _ H).
  assert (GP := ideal_photons p ltac:(lia)).
  assert (Kk : (0 < k)%Q) by (rewrite Vk; exact GK).
  assert (Kr : (0 < r)%Q) by (rewrite Vr; exact EK).
  assert (RK : 0 < Q2R K) by (apply Qlt_Rlt in GK; rewrite RMicromega.Q2R_0 in GK; exact GK).
  assert (RE : 0 < Q2R eta) by (apply Qlt_Rlt in GE; rewrite RMicromega.Q2R_0 in GE; exact GE).
  assert (RP : 0 < Q2R (photons o p)) by (apply Qlt_Rlt in GP; rewrite RMicromega.Q2R_0 in GP; exact GP).
  assert (Ck : Q2R k = Q2R K) by (apply Qeq_eqR; exact Vk).
  assert (Cr : Q2R r = Q2R K * Q2R eta) by (rewrite <- Q2R_mult; apply Qeq_eqR; exact Vr).
  destruct (sensitivity_identities o k r s (photons o p) Ek Er ltac:(Lqa.lra) ltac:(Lqa.lra) Es Up)
    as (qe & upmin & uemin & uesat & invk & Eq & Epm & Eem & Ees & _ & I1 & I2 & I3 & I4 & _).
  rewrite Ck in *. rewrite Cr in I1.
  assert (Vq : qe = 100 * Q2R eta).
  { apply (Rmult_eq_reg_r (Q2R K)); [|Lra.lra]. rewrite I1. ring. }
  assert (Vs : uesat = Q2R eta * Q2R (photons o p)) by (rewrite I4, Vq; field).
  assert (Pm : 0 < s / Q2R K + 1 / 2).
  { assert (0 < s / Q2R K) by (apply Rdiv_lt_0_compat; assumption). Lra.lra. }
  assert (Vm : upmin = (s / Q2R K + 1 / 2) / Q2R eta).
  { rewrite <- I2, I3, Vq. field. Lra.lra. }
  assert (Pu : 0 < uesat) by (rewrite Vs; apply Rmult_lt_0_compat; assumption).
  destruct (snr_identities o uesat Ees Pu) as (m & _ & _ & _ & Em & _ & _ & _ & Pos & Sq & _).
  destruct (dr_identities o k r s (photons o p) Ek Er Kk Kr Es Ps Up GP)
    as (d & upm & uem & ues & Ed & Eu1 & _ & _ & P1 & _ & V1 & _).
  split; [exact ideal_index|].
  split; [exists r; split; assumption|].
  split; [exists k; split; assumption|].
  split; [rewrite Eq, Vq; reflexivity|].
  split; [exact Up|].
  split; [rewrite Ees, Vs; reflexivity|].
  split.
  { rewrite Em. f_equal. f_equal. rewrite <- Vs, <- Sq. symmetry. apply sqrt_square. Lra.lra. }
  split; [exact ideal_linearity|].
  exists s. split; [exact Es|]. split; [exact Ps|].
  split; [rewrite Eem, I2; reflexivity|].
  split; [rewrite Epm, Vm; reflexivity|].
  rewrite Ed, V1. f_equal. f_equal.
  assert (upm = upmin) as -> by (rewrite Epm in Eu1; inversion Eu1; reflexivity).
  rewrite Vm. field. split; Lra.lra.
Qed.
End Ideal.

Open Scope R_scope.
Lemma sigma_d_nonneg o s k d :
  sigma_y_dark o = Ok (XR s) -> gain o = Ok k -> 0 < Q2R k -> sigma_d o = Ok (XR d) -> 0 <= d.
Proof.
  intros E K P. unfold sigma_d. rewrite E, K. cbn [bind].
  unfold xsq, xq, xsub. cbn [xmul xneg xadd xsqrt].
  destruct (Rlt_dec _ _) as [L|L]; [intro F; inversion F|].
  rewrite xdiv_fin by Lra.lra. intro F. inversion F.
  apply Rmult_le_pos; [apply sqrt_pos|]. apply Rlt_le, Rinv_0_lt_compat, P.
Qed.
Close Scope R_scope.

Section Dark.
Variables (o : robj) (n p : nat) (eta K offset mu var : Q).
Hypothesis H : linear_sensor o n p eta K.
Hypothesis D : dark_sensor o n K offset mu var.
Open Scope R_scope.

Lemma ideal_dark :
  u_I_mean o = Ok (XR (10 ^ 9 * Q2R mu)) /\
  u_I_var o = Ok (XR (10 ^ 9 * Q2R mu)) /\
  exists d, sigma_d o = Ok (XR d) /\ 0 <= d /\ d * d = Q2R var.
Proof.
  pose proof (ls_saturates _ _ _ _ _ H) as S.
  assert (GK := ls_gain _ _ _ _ _ H).
  assert (RK : 0 < Q2R K) by (apply Qlt_Rlt in GK; rewrite RMicromega.Q2R_0 in GK; exact GK).
  destruct (ideal_gain o n p eta K H) as (k & Ek & Vk).
  assert (Nk : ~ (k == 0)%Q) by (rewrite Vk; Lqa.lra).
  assert (Ck : Q2R k = Q2R K) by (apply Qeq_eqR; exact Vk).
  assert (T := ds_times _ _ _ _ _ _ D).
  split; [|split].
  - destruct (proj2 (u_I_mean_value o n k (ls_shape _ _ _ _ _ H) Ek Nk) T) as (a & b & B & _ & E).
    destruct (best_line_exact _ _ _ _ _ (K * mu)%Q offset B) as (Va & _).
    { intros i Hi. rewrite (ds_mean _ _ _ _ _ _ D i) by lia. ring. }
    rewrite E. f_equal. f_equal. rewrite Ck, (Qeq_eqR _ _ Va), Q2R_mult. field. Lra.lra.
  - destruct (proj2 (u_I_var_value o n k (ls_shape _ _ _ _ _ H) Ek Nk) T) as (a & b & B & _ & E).
    destruct (best_line_exact _ _ _ _ _ (K * K * mu)%Q (K * K * var + (1 # 12))%Q B) as (Va & _).
    { intros i Hi. rewrite (ds_var _ _ _ _ _ _ D i) by lia. ring. }
    assert (Pa : (0 <= a)%Q).
    { rewrite Va. apply Qmult_le_0_compat; [|apply (ds_current _ _ _ _ _ _ D)].
      apply Qmult_le_0_compat; apply Qlt_le_weak; exact GK. }
    destruct (E Pa) as (_ & E2).
    rewrite E2. f_equal. f_equal. rewrite Ck, (Qeq_eqR _ _ Va), !Q2R_mult. field. Lra.lra.
  - destruct (sigma_y_dark_value o n (ls_shape _ _ _ _ _ H) ltac:(lia)) as (v & s & V & Es & Ps & Sq).
    destruct V as [(F & _)|(_ & a & B)]; [contradiction|].
    destruct (best_line_exact _ _ _ _ _ (K * K * mu)%Q (K * K * var + (1 # 12))%Q B) as (_ & Vb).
    { intros i Hi. rewrite (ds_var _ _ _ _ _ _ D i) by lia. ring. }
    assert (Fl := ds_floor _ _ _ _ _ _ D).
    apply Qle_Rle in Fl. rewrite <- (Qeq_eqR _ _ Vb) in Fl.
    assert (C24 : Q2R (24 # 100) = 24 / 100) by (unfold Q2R; simpl; Lra.lra).
    rewrite C24 in Fl. rewrite Rmax_right in Sq by exact Fl.
    destruct (sigma_d_value o s k Es ltac:(rewrite Sq; exact Fl) Ek Nk) as (d & Ed & Vd).
    assert (Dp : 0 <= d) by (eapply sigma_d_nonneg; [exact Es|exact Ek|rewrite Ck; exact RK|exact Ed]).
    exists d. split; [exact Ed|]. split; [exact Dp|].
    rewrite Sq, (Qeq_eqR _ _ Vb), Q2R_plus, !Q2R_mult, Ck in Vd.
    assert (C12 : Q2R (1 # 12) = 1 / 12) by (unfold Q2R; simpl; Lra.lra).
    rewrite C12 in Vd.
    apply (Rmult_eq_reg_l (Q2R K * Q2R K)); [Lra.lra|].
    apply Rgt_not_eq, Rmult_lt_0_compat; exact RK.
Qed.
End Dark.
