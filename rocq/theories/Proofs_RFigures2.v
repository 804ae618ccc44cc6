(** Proofs for C118: the derived figures. *)
From Coq Require Import QArith Qreals Reals ZArith Lia Lra Arith.
From Flocq Require Import Core.
From Verif Require Import Base_Prelude Base_Num Base_Xreal Model_Data Model_Results Model_RoundedFigures Spec_Results Spec_Figures
  Spec_RoundedFigures Proofs_Figures Proofs_Figures2 Proofs_RFigures.
Open Scope R_scope.
Set Bullet Behavior "Strict Subproofs".

Lemma unit_eq : / 2 ^ 53 = unit.
Proof. unfold unit. change (-53)%Z with (- (53))%Z. rewrite bpow_opp. f_equal. rewrite bpow_powerRZ. symmetry. exact (pow_powerRZ 2 53). Qed.
Lemma pow_100 : 2 ^ 100 = bpow radix2 100.
Proof. rewrite bpow_powerRZ. exact (pow_powerRZ 2 100). Qed.
Lemma ordinary_size x : ordinary x -> size 100 x.
Proof. unfold ordinary, size. rewrite pow_100, <- bpow_opp. exact (fun H => H). Qed.
Lemma right_rel m a A : (m <= 1000)%nat -> right_to m a A -> rel (S m) a A.
Proof. intros M H. unfold right_to in H. rewrite unit_eq in H. apply rel_of; assumption. Qed.
Lemma rel_right k a A : (k <= 1000)%nat -> rel k a A -> right_to (S k) a A.
Proof. intros M H. unfold right_to. rewrite unit_eq. apply rel_to; assumption. Qed.
Lemma near_shows k e f v y g c : f = Some v -> near k e v y -> g = Ok (XR y) -> (k <= 1000)%nat -> c = S k -> shows c f g.
Proof. intros F (H & _) G K ->. exists v, y. split; [exact F|]. split; [exact G|apply rel_right; assumption]. Qed.

Lemma near_const e c : size e c -> near 0 e c c.
Proof. intros H. split; [apply rel_refl|exact H]. Qed.
Lemma size_100 : size 7 100.
Proof. unfold size. rewrite Rabs_pos_eq by lra. cbn. lra. Qed.
Lemma size_1 : size 0 1.
Proof. unfold size. rewrite Rabs_R1. cbn. lra. Qed.
Lemma size_half : size 1 (1 / 2).
Proof. unfold size. rewrite Rabs_pos_eq by lra. cbn. lra. Qed.
Lemma size_giga : size 30 (10 ^ 9).
Proof. unfold size. rewrite Rabs_pos_eq by (apply pow_le; lra). cbn. lra. Qed.

Lemma reports_exact f t d : reports f t d -> d = 0 -> f = Ok (XR t).
Proof.
  intros H0 ->. destruct H0 as (y & -> & H). do 2 f_equal. apply Rminus_diag_uniq. destruct (Req_dec (y - t) 0) as [Z|N]; [exact Z|].
  apply Rabs_pos_lt in N. lra.
Qed.
Lemma quotient_exact A B : quotient_error A 0 B 0 = 0.
Proof. unfold quotient_error, Rdiv. ring. Qed.

(** The lower limit of the dark variance. *)
Lemma clamp_rel m s s0 : (m <= 900)%nat -> right_to m s s0 ->
  exists c, fl (24 / 100) = Some c /\ rel (m + 3) (if Rlt_dec s c then c else s) (Rmax (24 / 100) s0).
Proof.
  intros M H. unfold right_to in H. rewrite unit_eq in H. pose proof unit_small as U.
  destruct (fl_near 0 3 (24 / 100) (24 / 100)) as (c & Ec & Nc).
  - apply near_const. unfold size. rewrite Rabs_pos_eq by lra. cbn. lra.
  - lia.
  - lia.
  - exists c. split; [exact Ec|]. destruct Nc as ((d & -> & D) & _).
    destruct (few m ltac:(lia)) as (I & MU & _).
    assert (D1 : 1 - unit <= d <= 1 + 2 * unit).
    { cbn [pow] in D. rewrite Rmult_1_r in D. split; [lra|]. apply Rle_trans with (/ (1 - unit)); [lra|].
      apply (Rmult_le_reg_r (1 - unit)); [lra|]. rewrite Rinv_l by lra. nra. }
    replace (m + 3)%nat with (S (m + 2)) by lia. apply rel_of; [lia|]. rewrite plus_INR. change (INR 2) with (1 + 1).
    set (w := INR m * unit) in *. assert (W0 : 0 <= w) by (apply Rmult_le_pos; lra).
    replace ((INR m + (1 + 1)) * unit) with (w + 2 * unit) by (unfold w; ring).
    assert (S1 : s0 - w * Rabs s0 <= s <= s0 + w * Rabs s0) by (revert H; unfold Rabs at 1; destruct (Rcase_abs _); lra).
    assert (P : 24 / 100 <= Rmax (24 / 100) s0) by apply Rmax_l. rewrite (Rabs_pos_eq (Rmax _ _)) by lra.
    unfold Rmax in *. destruct (Rle_dec (24 / 100) s0) as [L|L].
    + rewrite (Rabs_pos_eq s0) in S1 by lra. destruct (Rlt_dec s (24 / 100 * d)) as [Q|Q]; apply Rabs_le; nra.
    + destruct (Rlt_dec s (24 / 100 * d)) as [Q|Q]; apply Rabs_le; [nra|].
      destruct (Rle_lt_dec 0 s0) as [Z|Z].
      * rewrite (Rabs_pos_eq s0) in S1 by lra. nra.
      * rewrite (Rabs_left s0) in S1 by lra. nra.
Qed.

Section Figures.
Variables (o : robj) (pw : R -> R) (r k s p : Q) (s0 R0 K S X : R) (m : nat).
Hypothesis M : (m <= 100)%nat.
Hypothesis ER : responsivity o = Ok r.
Hypothesis EK : gain o = Ok k.
Hypothesis ES : dark_variance o = Ok s.
Hypothesis ES0 : Q2R s = Rmax (24 / 100) s0.
Hypothesis EP : u_p_sat o = Ok p.
Hypothesis Pr : 0 < Q2R r.
Hypothesis Pk : 0 < Q2R k.
Hypothesis Pp : 0 < Q2R p.
Hypothesis Or : ordinary (Q2R r).
Hypothesis Ok_ : ordinary (Q2R k).
Hypothesis Os : ordinary (Q2R s).
Hypothesis Op : ordinary (Q2R p).
Hypothesis NR : right_to m R0 (Q2R r).
Hypothesis NK : right_to m K (Q2R k).
Hypothesis NS : right_to m S s0.
Hypothesis NX : right_to m X (Q2R p).
Hypothesis PW : good_square pw.

Let nr : near (m + 1) 100 R0 (Q2R r).
Proof. split; [|apply ordinary_size, Or]. rewrite Nat.add_1_r. apply right_rel; [lia|exact NR]. Qed.
Let nk : near (m + 1) 100 K (Q2R k).
Proof. split; [|apply ordinary_size, Ok_]. rewrite Nat.add_1_r. apply right_rel; [lia|exact NK]. Qed.
Let nx : near (m + 1) 100 X (Q2R p).
Proof. split; [|apply ordinary_size, Op]. rewrite Nat.add_1_r. apply right_rel; [lia|exact NX]. Qed.
Let s24 : 24 / 100 <= Q2R s.
Proof. rewrite ES0. apply Rmax_l. Qed.

Let exact_ : derived_right o (Q2R r / Q2R k) (Q2R k) (Q2R s) (Q2R p) 0 0 0.
Proof.
  assert (E : Q2R k * (Q2R r / Q2R k) = Q2R r) by (field; lra).
  apply (derived_near o _ _ _ _ 0 0 0 r k s p); try assumption; try reflexivity; try rewrite E; try lra;
    rewrite Rminus_diag_eq, Rabs_R0 by reflexivity; lra.
Qed.
Let QEx : QE o = Ok (XR (100 * Q2R r / Q2R k)).
Proof.
  rewrite (reports_exact _ _ _ (de_efficiency _ _ _ _ _ _ _ _ exact_)) by (rewrite quotient_exact; ring). do 2 f_equal. field. lra.
Qed.
Let zero_div a : 0 / a = 0.
Proof. unfold Rdiv. ring. Qed.

Lemma efficiency : exists v, r_QE R0 K = Some v /\ near (2 * m + 4) 207 v (100 * Q2R r / Q2R k).
Proof.
  unfold r_QE. destruct (mul_near _ _ _ _ _ _ _ _ (near_const _ _ size_100) nr) as (a & -> & Na); [lia|lia|]. cbn [obind].
  destruct (div_near _ _ _ _ _ _ _ _ Na nk) as (v & -> & Nv); [lia|lia|]. exists v. split; [reflexivity|].
  replace (2 * m + 4)%nat with (Datatypes.S (Datatypes.S (0 + (m + 1)) + (m + 1))) by lia. exact Nv.
Qed.
Lemma noise_d : exists v, r_sigma_y_dark S = Some v /\ near (m + 4) 100 v (sqrt (Q2R s)).
Proof.
  unfold r_sigma_y_dark. destruct (clamp_rel m S s0 ltac:(lia) NS) as (c & -> & C). cbn [obind]. rewrite <- ES0 in C.
  destruct (sqrt_near_f (m + 3) 100 (if Rlt_dec S c then c else S) (Q2R s)) as (v & -> & Nv); [lra| |lia|lia|].
  - split; [exact C|apply ordinary_size, Os].
  - exists v. split; [reflexivity|]. replace (m + 4)%nat with (Datatypes.S (m + 3)) by lia. exact Nv.
Qed.
Let spos : 0 < sqrt (Q2R s).
Proof. apply sqrt_lt_R0. lra. Qed.
Let least_eq : 100 / (100 * Q2R r / Q2R k) * (sqrt (Q2R s) / Q2R k + 1 / 2) = (sqrt (Q2R s) + Q2R k / 2) / Q2R r.
Proof. field. lra. Qed.
Lemma least : exists v, r_u_p_min R0 K S = Some v /\ near (4 * m + 13) 415 v ((sqrt (Q2R s) + Q2R k / 2) / Q2R r).
Proof.
  unfold r_u_p_min. destruct efficiency as (q & -> & Nq). cbn [obind].
  destruct (div_near _ _ _ _ _ _ _ _ (near_const _ _ size_100) Nq) as (a & -> & Na); [lia|lia|]. cbn [obind].
  destruct noise_d as (d & -> & Nd). cbn [obind].
  destruct (div_near _ _ _ _ _ _ _ _ Nd nk) as (b & -> & Nb); [lia|lia|]. cbn [obind].
  destruct (add_near _ _ _ _ b (sqrt (Q2R s) / Q2R k) (1 / 2) (1 / 2) ltac:(apply Rdiv_lt_0_compat; assumption) ltac:(lra) Nb (near_const _ _ size_half)) as (c & -> & Nc);
    [lia|lia|lia|lia|]. cbn [obind].
  destruct (mul_near _ _ _ _ _ _ _ _ Na Nc) as (v & -> & Nv); [lia|lia|]. exists v. split; [reflexivity|].
  rewrite least_eq in Nv.
  replace (4 * m + 13)%nat with (Datatypes.S (Datatypes.S (0 + (2 * m + 4)) + Datatypes.S (Nat.max (Datatypes.S (m + 4 + (m + 1))) 0))) by lia.
  replace 415%Z with (7 + 207 + (1 + Z.max (100 + 100) 1))%Z by reflexivity. exact Nv.
Qed.
Lemma full : exists v, r_u_e_sat R0 K X = Some v /\ near (3 * m + 7) 314 v (Q2R p * (Q2R r / Q2R k)).
Proof.
  unfold r_u_e_sat. destruct efficiency as (q & -> & Nq). cbn [obind].
  destruct (mul_near _ _ _ _ _ _ _ _ Nq nx) as (a & -> & Na); [lia|lia|]. cbn [obind].
  destruct (div_near _ _ _ _ _ _ _ _ Na (near_const _ _ size_100)) as (v & -> & Nv); [lia|lia|]. exists v. split; [reflexivity|].
  replace (Q2R p * (Q2R r / Q2R k)) with (100 * Q2R r / Q2R k * Q2R p / 100) by (field; lra).
  replace (3 * m + 7)%nat with (Datatypes.S (Datatypes.S (2 * m + 4 + (m + 1)) + 0)) by lia. exact Nv.
Qed.
Let fpos : 0 < Q2R p * (Q2R r / Q2R k).
Proof. apply Rmult_lt_0_compat; [exact Pp|apply Rdiv_lt_0_compat; assumption]. Qed.
Lemma ratio : exists v, r_SNR_max R0 K X = Some v /\ near (3 * m + 8) 314 v (sqrt (Q2R p * (Q2R r / Q2R k))).
Proof.
  unfold r_SNR_max. destruct full as (u & -> & Nu). cbn [obind].
  destruct (sqrt_near_f _ _ _ _ fpos Nu) as (v & -> & Nv); [lia|lia|]. exists v. split; [reflexivity|].
  replace (3 * m + 8)%nat with (Datatypes.S (3 * m + 7)) by lia. exact Nv.
Qed.

Lemma electrons : exists v, r_sigma_d pw K S = Some v /\ near (5 * m + 29) 200 v (sqrt (Q2R s - 1 / 12) / Q2R k).
Proof.
  unfold r_sigma_d. destruct noise_d as (d & -> & Nd). cbn [obind].
  destruct (fl_near 0 4 (1 / 12) (1 / 12)) as (q & -> & Nq); [|lia|lia|].
  { apply near_const. unfold size. rewrite Rabs_pos_eq by lra. cbn. lra. }
  cbn [obind]. pose proof unit_small as U. destruct Nd as (Rd & Sd). destruct Nq as (Rq & _).
  assert (OD : ordinary d).
  { destruct (rel_bounds (m + 4) _ _ ltac:(lia) Rd) as (L & H). rewrite (Rabs_pos_eq (sqrt _)) in L, H by lra.
    assert (sqrt (1 / 16) <= sqrt (Q2R s)) by (apply sqrt_le_1_alt; lra).
    replace (1 / 16) with (1 / 4 * (1 / 4)) in H0 by field. rewrite sqrt_square in H0 by lra.
    destruct Os as (_ & O2). rewrite Rabs_pos_eq in O2 by lra. split.
    - apply Rle_trans with (1 / 8); [|lra]. replace (1 / 8) with (/ 8) by field. apply Rinv_le_contravar; [lra|].
      replace 8 with (2 ^ 3) by ring. apply Rle_pow; [lra|lia].
    - apply Rle_trans with (2 * sqrt (Q2R s)); [exact H|].
      apply Rle_trans with (2 * sqrt (2 ^ 100)); [apply Rmult_le_compat_l; [lra|apply sqrt_le_1_alt, O2]|].
      replace (2 ^ 100) with (2 ^ 50 * 2 ^ 50) at 1 by (rewrite <- pow_add; reflexivity).
      rewrite sqrt_square by (apply pow_le; lra). change (2 * 2 ^ 50) with (2 ^ 51). apply Rle_pow; [lra|lia]. }
  assert (R2 : rel (2 * m + 11) (pw d) (Q2R s)).
  { assert (H := right_rel 2 _ _ ltac:(lia) (PW d OD)). destruct H as (f & -> & F).
    assert (H2 := rel_mul _ _ _ _ _ _ Rd Rd). rewrite sqrt_sqrt in H2 by lra. destruct H2 as (g & -> & G).
    replace (2 * m + 11)%nat with ((m + 4 + (m + 4)) + 3)%nat by lia.
    rewrite Rmult_assoc. exists (g * f). split; [reflexivity|].
    pose proof (pow_low_pos (m + 4 + (m + 4))). pose proof (pow_low_pos 3). rewrite pow_add, Rinv_mult.
    split; apply Rmult_le_compat; lra. }
  assert (N1 : near (4 * m + 25) 100 (pw d - q) (Q2R s - 1 / 12)).
  { split.
    - replace (4 * m + 25)%nat with (Datatypes.S (2 * (2 * m + 12))) by lia. apply rel_of; [lia|].
      assert (E1 := rel_to (2 * m + 11) _ _ ltac:(lia) R2). assert (E2 := rel_to 1 _ _ ltac:(lia) Rq).
      rewrite (Rabs_pos_eq (Q2R s)) in E1 by lra. rewrite (Rabs_pos_eq (1 / 12)) in E2 by lra.
      rewrite (Rabs_pos_eq (Q2R s - 1 / 12)) by lra.
      replace (Datatypes.S (2 * m + 11)) with (2 * m + 12)%nat in E1 by lia.
      rewrite mult_INR. change (INR 2) with 2 in *. 
      assert (I : 12 <= INR (2 * m + 12)) by (replace 12 with (INR 12) by (rewrite INR_IZR_INZ; reflexivity); apply le_INR; lia).
      set (j := INR (2 * m + 12)) in *. clearbody j.
      replace (pw d - q - (Q2R s - 1 / 12)) with ((pw d - Q2R s) - (q - 1 / 12)) by ring.
      eapply Rle_trans; [apply Rabs_triang|]. rewrite Rabs_Ropp.
      apply Rle_trans with (j * unit * Q2R s + 2 * unit * (1 / 12)); [apply Rplus_le_compat; assumption|].
      replace (j * unit * Q2R s + 2 * unit * (1 / 12)) with (unit * (j * Q2R s + 1 / 6)) by field.
      replace (2 * j * unit * (Q2R s - 1 / 12)) with (unit * (2 * j * (Q2R s - 1 / 12))) by ring.
      apply Rmult_le_compat_l; [lra|]. nra.
    - assert (H := ordinary_size _ Os). destruct H as (H1 & H2). unfold size. rewrite Rabs_pos_eq in * by lra. split.
      + apply Rle_trans with (bpow radix2 (-3)); [apply bpow_le; lia|]. cbn. lra.
      + apply Rle_trans with (Q2R s); [lra|]. exact H2. }
  unfold rsub. destruct (fl_near _ _ _ _ N1) as (a & -> & Na); [lia|lia|]. cbn [obind].
  destruct (sqrt_near_f _ _ _ (Q2R s - 1 / 12) ltac:(lra) Na) as (b & -> & Nb); [lia|lia|]. cbn [obind].
  destruct (div_near _ _ _ _ _ _ _ _ Nb nk) as (v & -> & Nv); [lia|lia|]. exists v. split; [reflexivity|].
  replace (5 * m + 29)%nat with (Datatypes.S (Datatypes.S (Datatypes.S (4 * m + 25)) + (m + 1))) by lia. exact Nv.
Qed.

Lemma figures_rounded : figures_kept o pw R0 K S X m.
Proof.
  destruct exact_ as [X1 X2 X3 X4 X5 X6 X7 X8 X9 X10]. constructor.
  - destruct (div_near _ _ _ _ _ _ _ _ (near_const _ _ size_1) nk) as (v & E & Nv); [lia|lia|].
    eapply near_shows; [exact E|exact Nv| |lia|lia]. apply (reports_exact _ _ _ X1 (quotient_exact _ _)).
  - destruct efficiency as (v & E & Nv). eapply near_shows; [exact E|exact Nv|exact QEx|lia|lia].
  - destruct noise_d as (v & E & Nv). eapply near_shows; [exact E|exact Nv| |lia|lia]. exact (reports_exact _ _ _ X3 (zero_div _)).
  - destruct electrons as (v & E & Nv). eapply near_shows; [exact E|exact Nv| |lia|lia].
    refine (reports_exact _ _ _ X4 _). rewrite zero_div. apply quotient_exact.
  - destruct least as (v & E & Nv). eapply near_shows; [exact E|exact Nv| |lia|lia].
    replace (Q2R k * (Q2R r / Q2R k)) with (Q2R r) in X5 by (field; lra).
    refine (reports_exact _ _ _ X5 _). rewrite !zero_div, Rplus_0_r. apply quotient_exact.
  - unfold r_u_e_min. destruct efficiency as (q & Eq & Nq). destruct least as (u & Eu & Nu).
    destruct (mul_near _ _ _ _ _ _ _ _ Nq Nu) as (a & Ea & Na); [lia|lia|].
    destruct (div_near _ _ _ _ _ _ _ _ Na (near_const _ _ size_100)) as (v & Ev & Nv); [lia|lia|].
    eapply near_shows; [rewrite Eq; cbn [obind]; rewrite Eu; cbn [obind]; rewrite Ea; exact Ev|exact Nv| |lia|lia].
    rewrite (reports_exact _ _ _ X6) by (rewrite zero_div; apply quotient_exact). do 2 f_equal. field. lra.
  - destruct full as (v & E & Nv). eapply near_shows; [exact E|exact Nv| |lia|lia].
    rewrite (reports_exact _ _ _ X8) by (rewrite quotient_exact; ring). do 2 f_equal. ring.
  - destruct ratio as (v & E & Nv). eapply near_shows; [exact E|exact Nv| |lia|lia].
    rewrite (reports_exact _ _ _ X9) by (rewrite quotient_exact; unfold Rdiv; ring). do 3 f_equal. ring.
  - unfold r_inverse_SNR_max. destruct ratio as (u & Eu & Nu). rewrite Eu. cbn [obind].
    destruct (div_near _ _ _ _ _ _ _ _ (near_const _ _ size_100) Nu) as (v & Ev & Nv); [lia|lia|].
    eapply near_shows; [exact Ev|exact Nv| |lia|lia]. unfold inverse_SNR_max.
    rewrite (reports_exact _ _ _ X9) by (rewrite quotient_exact; unfold Rdiv; ring). cbn [bind]. unfold xq.
    rewrite xdiv_fin.
    + do 2 f_equal. rewrite (Q2R_c 100 1). replace (Q2R r / Q2R k * Q2R p) with (Q2R p * (Q2R r / Q2R k)) by ring. field.
      apply Rgt_not_eq, sqrt_lt_R0, fpos.
    + apply Rgt_not_eq, sqrt_lt_R0. rewrite Rmult_comm. exact fpos.
  - unfold r_DR. destruct least as (u & Eu & Nu). rewrite Eu. cbn [obind].
    destruct (div_near _ _ _ _ _ _ _ _ nx Nu) as (v & Ev & Nv); [lia|lia|].
    eapply near_shows; [exact Ev|exact Nv| |lia|lia].
    rewrite (reports_exact _ _ _ X10) by (rewrite zero_div, Rmult_0_r, zero_div, Rplus_0_r; apply quotient_exact).
    do 2 f_equal. field. split; lra.
Qed.
End Figures.
