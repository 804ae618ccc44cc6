(** Light known approximately; the files of a generated data set. *)
From Coq Require Import Ascii String List Bool Arith ZArith QArith Qreals Reals Lia Lra Permutation Sorting.Sorted.
From Verif Require Import Base_Prelude Base_Str Base_Num Base_Order Base_Float Base_Sum Base_SumR Base_Xreal Model_Path Model_Parser Model_Images
  Model_Loader Model_Data Model_Results Model_Emva Model_Camera Model_Points Model_Dataset Model_Generated
  Spec_Parser Spec_Images Spec_Data Spec_Results Spec_Emva Spec_Camera Spec_Dataset Spec_Points Spec_Generated
  Spec_Chance Spec_Linear Spec_Any Spec_Near Spec_Whole Spec_RandomRun
  Proofs_Parser Proofs_Parser2 Proofs_Camera2 Proofs_Dataset Proofs_Dataset2 Proofs_Dataset3 Proofs_Emva Proofs_Emva3 Proofs_Emva4 Proofs_Emva5
  Proofs_Near Proofs_Near2 Proofs_Near3 Proofs_Near4 Proofs_Figures3 Proofs_Whole Proofs_Any3 Proofs_Any4.
Import ListNotations.
Open Scope R_scope.
Set Bullet Behavior "Strict Subproofs".
Local Arguments feq : simpl never.

(** ** Light known up to s *)
Lemma abs_inv a b : Rabs a <= b -> - b <= a <= b.
Proof. unfold Rabs. destruct (Rcase_abs a); lra. Qed.
Definition moved (T : truth) (x : nat -> R) (p : nat) (eta K : R) : truth :=
  mkTruth (fun i => if (i <=? p)%nat then tr_dark_mean T i + K * (eta * x i)
                    else tr_dark_mean T i + Rmax (tr_mean T i - tr_dark_mean T i) (K * (eta * x p)))
    (tr_var T) (tr_dark_mean T) (tr_dark_var T).

Section Slack.
Variables (T : truth) (x : nat -> R) (n p : nat) (eta K q s e : R).
Hypothesis NL : near_law T x p eta K q s.
Hypothesis s0 : 0 <= s.
Hypothesis e0 : 0 <= e.
Hypothesis CL : clear_points T n p (e + 2 * s).

Lemma moved_near i : (i < n)%nat -> Rabs (tr_mean T i - tr_mean (moved T x p eta K) i) <= s.
Proof.
  intros Hi. cbn [moved tr_mean]. destruct (Nat.leb_spec i p) as [H|H].
  - pose proof (na_signal _ _ _ _ _ _ _ NL i H) as A. replace (tr_mean T i - _) with (tr_mean T i - tr_dark_mean T i - K * (eta * x i)) by ring.
    exact A.
  - pose proof (na_signal _ _ _ _ _ _ _ NL p (Nat.le_refl p)) as A. apply abs_inv in A.
    pose proof (cl_clipped _ _ _ _ CL i ltac:(lia)) as B. apply Rabs_le.
    unfold Rmax. destruct (Rle_dec _ _); lra.
Qed.
Lemma moved_law : linear_law (moved T x p eta K) x p eta K (q + K * s).
Proof.
  pose proof (na_eta _ _ _ _ _ _ _ NL) as E. pose proof (na_gain _ _ _ _ _ _ _ NL) as G. constructor; auto.
  - intros i Hi. cbn [moved tr_mean tr_dark_mean]. rewrite (proj2 (Nat.leb_le i p) Hi). ring.
  - intros i Hi. pose proof (na_noise _ _ _ _ _ _ _ NL i Hi) as A. pose proof (na_signal _ _ _ _ _ _ _ NL i Hi) as B.
    cbn [moved tr_mean tr_dark_mean tr_var tr_dark_var]. rewrite (proj2 (Nat.leb_le i p) Hi).
    replace (tr_var T i - tr_dark_var T i - K * (tr_dark_mean T i + K * (eta * x i) - tr_dark_mean T i))
      with ((tr_var T i - tr_dark_var T i - K * (tr_mean T i - tr_dark_mean T i)) +
            K * (tr_mean T i - tr_dark_mean T i - K * (eta * x i))) by ring.
    eapply Rle_trans; [apply Rabs_triang|]. apply Rplus_le_compat; [exact A|].
    rewrite Rabs_mult, (Rabs_pos_eq K) by lra. apply Rmult_le_compat_l; lra.
Qed.
Lemma moved_sig i : (i <= p)%nat -> tr_mean (moved T x p eta K) i - tr_dark_mean (moved T x p eta K) i = K * (eta * x i).
Proof. intro H. cbn [moved tr_mean tr_dark_mean]. rewrite (proj2 (Nat.leb_le i p) H). ring. Qed.
Lemma moved_clear : clear_points (moved T x p eta K) n p (e + s).
Proof.
  pose proof (na_eta _ _ _ _ _ _ _ NL) as E. pose proof (na_gain _ _ _ _ _ _ _ NL) as G.
  assert (EK : 0 < K * eta) by (apply Rmult_lt_0_compat; lra).
  assert (S : forall i, (i <= p)%nat -> - s <= tr_mean T i - tr_dark_mean T i - K * (eta * x i) <= s).
  { intros i Hi. apply abs_inv, (na_signal _ _ _ _ _ _ _ NL i Hi). }
  destruct CL as [C1 C2 C3 C4 C5 C6 C7 C8 C9].
  pose proof (S 0%nat ltac:(lia)) as S0. pose proof (S p (Nat.le_refl p)) as Sp.
  constructor.
  - exact C1.
  - lra.
  - intros i Hi. rewrite !moved_sig by lia. pose proof (na_order _ _ _ _ _ _ _ NL i ltac:(lia)) as O.
    rewrite <- !Rmult_assoc. apply Rmult_le_compat_l; lra.
  - intros i Hi. cbn [moved tr_var]. pose proof (C4 i Hi). lra.
  - intros i Hi Hn. cbn [moved tr_var]. destruct (C5 i Hi Hn) as [H|H]; [left; lra|right; exact H].
  - rewrite moved_sig by lia. lra.
  - rewrite !moved_sig by lia. lra.
  - intros i Hi. rewrite (moved_sig p) by lia. cbn [moved tr_mean tr_dark_mean].
    destruct (Nat.leb_spec i p) as [H|H].
    + replace i with p by lia. lra.
    + unfold Rmax. destruct (Rle_dec _ _); lra.
  - rewrite moved_sig by lia. lra.
Qed.
Lemma moved_within o : measured_within o T n e -> measured_within o (moved T x p eta K) n (e + s).
Proof.
  intros [A B D F]. constructor; intros i Hi.
  - pose proof (A i Hi) as G. pose proof (moved_near i Hi) as G'.
    replace (Q2R (at_ (r_uy (o_t o)) i) - tr_mean (moved T x p eta K) i)
      with ((Q2R (at_ (r_uy (o_t o)) i) - tr_mean T i) + (tr_mean T i - tr_mean (moved T x p eta K) i)) by ring.
    eapply Rle_trans; [apply Rabs_triang|]. lra.
  - cbn [moved tr_var]. pose proof (B i Hi). lra.
  - cbn [moved tr_dark_mean]. pose proof (D i Hi). lra.
  - cbn [moved tr_dark_var]. pose proof (F i Hi). lra.
Qed.
End Slack.

(** Data of which only the truth is replaced by the moved one. *)
Lemma slack_right W (C : chance W) O B D n h w T x V M p eta K q s e : measurement C O B D n h w T x V M ->
  near_law T x p eta K q s -> 0 <= s -> 0 <= e -> clear_points T n p (e + 2 * s) -> (2 <= h * w)%nat ->
  forall o, measured_within (O o) T n e -> right_within (O o) p eta K (q + K * s) (e + s).
Proof.
  intros ME NL s0 e0 CL HN o MW. pose proof (cl_points _ _ _ _ CL) as PN.
  apply (stable_figures (O o) (moved T x p eta K) n p eta K (q + K * s) (e + s)).
  - apply (law_ext _ x); [|eapply moved_law; eassumption]. intros i Hi. symmetry. apply (me_light _ _ _ _ _ _ _ _ _ _ _ ME). lia.
  - eapply moved_clear; eassumption.
  - eapply moved_within; eassumption.
  - apply (me_shape _ _ _ _ _ _ _ _ _ _ _ ME).
  - apply (me_unforced _ _ _ _ _ _ _ _ _ _ _ ME).
  - apply Forall_forall. intros v Hv. apply (In_nth _ _ 0%Q) in Hv. destruct Hv as (i & Hi & <-).
    destruct (me_shape _ _ _ _ _ _ _ _ _ _ _ ME o) as (_ & _ & _ & EL & _). rewrite EL in Hi.
    destruct (me_computed _ _ _ _ _ _ _ _ _ _ _ ME o i Hi) as (CB & _).
    destruct (me_bright _ _ _ _ _ _ _ _ _ _ _ ME i Hi) as (OK & mu & s2 & NP & _).
    apply (computed_nonneg h w (B i o) (at_ (r_uy (o_t (O o))) i)); [apply OK| |lia|exact CB].
    apply (rs_length _ _ _ _ _ _ _ _ (np_series _ _ _ _ _ _ _ _ NP)).
  - intros i Hi. cbn [moved tr_var]. apply (me_clipped _ _ _ _ _ _ _ _ _ _ _ ME o i Hi).
Qed.
Lemma slack_unlikely W (C : chance W) O B D n h w T x V M p eta K q s e : measurement C O B D n h w T x V M ->
  near_law T x p eta K q s -> 0 <= s -> 0 < e -> clear_points T n p (e + 2 * s) -> (2 <= h * w)%nat ->
  unlikely C (fun o => ~ right_within (O o) p eta K (q + K * s) (e + s))
    (INR n / INR (h * w) * ((V + 2 * M) / (e * e) + 4 * V / e)).
Proof.
  intros ME NL s0 e0 CL HN. eapply unlikely_mono; [|apply Rle_refl|eapply within_unlikely; eassumption].
  intros o NR MW. apply NR. eapply slack_right; try eassumption. lra.
Qed.

(** The simulated camera. *)
Lemma simulated_near W (C : chance W) O B D n h w T x V M p eta K s (a d : nat -> setting) :
  measurement C O B D n h w T x V M -> (2 <= h * w)%nat -> (p < n)%nat -> 0 < eta -> 0 < K ->
  (forall i, (i <= p)%nat -> simulated C (a i) (B i) 2 h w /\ simulated C (d i) (D i) 2 h w /\
     same_but_light (a i) (d i) /\ st_K (a i) = K /\
     K * Rabs (pixel_meanR h w (fun r c => st_light (a i) r c - st_light (d i) r c) - eta * x i) <= s) ->
  (forall i, (i <= p)%nat -> x 0%nat <= x i) ->
  near_law T x p eta K (1 / 4) s.
Proof.
  intros ME HN Hp E0 K0 SI OR.
  assert (N2 : 2 <= INR (h * w)) by (change 2 with (INR 2); apply le_INR; exact HN).
  assert (NI : 1 - 1 / INR (h * w) > 0).
  { apply Rmult_lt_reg_r with (INR (h * w)); [lra|]. rewrite Rmult_0_l.
    replace ((1 - 1 / INR (h * w)) * INR (h * w)) with (INR (h * w) - 1) by (field; lra). lra. }
  assert (X : forall i, (i <= p)%nat ->
    Rabs (tr_mean T i - tr_dark_mean T i - K * (eta * x i)) <= s /\
    Rabs ((tr_var T i - tr_dark_var T i) - K * (tr_mean T i - tr_dark_mean T i)) <= 1 / 4).
  { intros i Hi. destruct (SI i Hi) as (SA & SD & SB & EK & EX).
    assert (Hi' : (i < n)%nat) by lia.
    destruct (me_bright _ _ _ _ _ _ _ _ _ _ _ ME i Hi') as (OK & mu & s2 & NP & -> & ->).
    destruct (me_dark _ _ _ _ _ _ _ _ _ _ _ ME i Hi') as (OK' & mu' & s2' & NP' & -> & ->).
    assert (HT : forall o, temporal_data_of (B i o) (the_data (B i o))).
    { intros o. destruct (me_computed _ _ _ _ _ _ _ _ _ _ _ ME o i Hi') as ((t & Ht & _) & _). apply (the_data_of _ t Ht). }
    assert (HT' : forall o, temporal_data_of (D i o) (the_data (D i o))).
    { intros o. destruct (me_computed _ _ _ _ _ _ _ _ _ _ _ ME o i Hi') as (_ & (t & Ht & _)). apply (the_data_of _ t Ht). }
    destruct (temporal_any_obj W C (B i) h w _ _ _ _ (np_series _ _ _ _ _ _ _ _ NP) ltac:(lia) OK HT) as (A1 & A2).
    destruct (temporal_any_obj W C (D i) h w _ _ _ _ (np_series _ _ _ _ _ _ _ _ NP') ltac:(lia) OK' HT') as (A3 & A4).
    rewrite (proj1 (zero_drift 2 ltac:(lia))), Rplus_0_r in A1.
    rewrite (proj1 (zero_drift 2 ltac:(lia))), Rplus_0_r in A3.
    destruct (sim_transfer W W C C (a i) (d i) (B i) (D i) h w _ _ SA SD SB ltac:(lia) OK OK' HT HT' _ _ _ _ A1 A2 A3 A4) as (M1 & M2).
    rewrite EK in M1, M2. split.
    { rewrite M1. rewrite <- Rmult_minus_distr_l, Rabs_mult, (Rabs_pos_eq K) by lra. exact EX. }
    fold (both s2) in M2. fold (both s2') in M2.
    set (g := 1 - 1 / INR (h * w)) in *.
    set (v := pixel_meanR h w (both s2)). set (v' := pixel_meanR h w (both s2')).
    set (dm := pixel_meanR h w mu - pixel_meanR h w mu') in *.
    assert (EQ : Rabs (g * v - g * v' - g * K * dm) = g * Rabs (v - v' - K * dm)).
    { rewrite <- (Rabs_pos_eq g) at 4 by lra. rewrite <- Rabs_mult. f_equal. ring. }
    apply Rmult_le_reg_l with g; [lra|]. rewrite <- EQ. fold v in M2. fold v' in M2. lra. }
  constructor; auto; intros i Hi; apply X; exact Hi.
Qed.
