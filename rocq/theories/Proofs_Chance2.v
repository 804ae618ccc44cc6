(** Proofs for C91, C92, continued: the expected values of the measured figures. *)
From Coq Require Import List Bool Arith ZArith QArith Lia Lqa Setoid Morphisms.
From Verif Require Import Base_Prelude Base_Sum Model_Images Model_Loader Model_Data Model_Results
  Spec_Images Spec_Data Spec_Results Spec_Chance Proofs_Data Proofs_Data2 Proofs_Chance.
Import ListNotations.
Open Scope Q_scope.

Lemma stack_mean_avg h w imgs : (0 < length imgs)%nat -> (0 < h * w)%nat ->
  stack_mean h w imgs == pixel_mean h w (avg_pixel imgs).
Proof.
  intros HL Hn. assert (N := qn_neq0 _ HL). assert (Nh := qn_neq0 _ Hn).
  unfold pixel_mean.
  rewrite (sumq2_ext h w (avg_pixel imgs) (fun i j => inject_Z (exact_sum (history imgs i j)) / qn (length imgs)))
    by (intros; apply avg_pixel_eq).
  rewrite sumq2_div, stack_sum. unfold stack_mean. rewrite (qn_mult (length imgs)).
  field. split; assumption.
Qed.

Lemma spatial_variance_flat h w f : (0 < w)%nat ->
  spatial_variance h w f ==
  sumq (h * w) (fun k => (f (k / w)%nat (k mod w)%nat - sumq (h * w) (fun k => f (k / w)%nat (k mod w)%nat) / qn (h * w)) *
    (f (k / w)%nat (k mod w)%nat - sumq (h * w) (fun k => f (k / w)%nat (k mod w)%nat) / qn (h * w))) / qn (h * w - 1).
Proof.
  intros W. unfold spatial_variance, pixel_mean. apply Qdiv_comp; [|reflexivity].
  assert (E := sumq2_flat h w f W).
  rewrite (sumq2_flat h w (fun r c => (f r c - sumq2 h w f / qn (h * w)) * (f r c - sumq2 h w f / qn (h * w))) W).
  apply sumq_ext. intros k Hk. rewrite E. reflexivity.
Qed.

Section Series.
Variables (P : law) (L h w : nat) (mu s2 : nat -> nat -> Q) (drift : nat -> Q).
Hypothesis NY : noisy P L h w mu s2 drift.
Let HP := ny_law _ _ _ _ _ _ _ NY.

(** ** C91 *)
Lemma temporal_expected (T : list image -> tdata) : L = 2%nat ->
  (forall s, possible P s -> forall A B, s = [A; B] -> pair_ok h w A B) ->
  (forall s, possible P s -> temporal_data_of s (T s)) -> (0 < h * w)%nat ->
  expected P (fun s => td_mean (h * w) (T s)) == pixel_mean h w mu + mean_n 2 drift /\
  expected P (fun s => td_s2 (h * w) (T s)) == (1 - 1 / qn (h * w)) * pixel_mean h w s2.
Proof.
  intros E2 OK HT Hn. assert (N := qn_neq0 _ Hn).
  assert (W : (0 < w)%nat) by (destruct w; lia).
  assert (Pair : forall s, possible P s -> exists A B, s = [A; B]).
  { intros s Hs. pose proof (ny_length _ _ _ _ _ _ _ NY s Hs) as Len. rewrite E2 in Len.
    destruct s as [|A [|B [|C s]]]; try discriminate Len. exists A, B. reflexivity. }
  assert (Val : forall s, possible P s ->
     td_mean (h * w) (T s) == pixel_mean h w (fun r c => (pixel 0 r c s + pixel 1 r c s) / 2) /\
     td_s2 (h * w) (T s) ==
     sumq (h * w) (fun k => (pixel 0 (k / w) (k mod w) s - pixel 1 (k / w) (k mod w) s
         - sumq (h * w) (fun k => pixel 0 (k / w) (k mod w) s - pixel 1 (k / w) (k mod w) s) / qn (h * w)) *
        (pixel 0 (k / w) (k mod w) s - pixel 1 (k / w) (k mod w) s
         - sumq (h * w) (fun k => pixel 0 (k / w) (k mod w) s - pixel 1 (k / w) (k mod w) s) / qn (h * w)))
       / (2 * qn (h * w))).
  { intros s Hs. destruct (Pair s Hs) as (A & B & ->).
    assert (PO := OK _ Hs A B eq_refl).
    destruct (pair_estimators h w A B PO) as (r & Er & Em & Ev).
    destruct (HT _ Hs) as (r' & Er' & ->). rewrite Er in Er'. inversion Er'. subst r'.
    destruct PO as (_ & _ & A1 & A2 & B1 & B2 & _).
    split.
    - rewrite Em. unfold stack_mean, pixel_mean, pixel. cbn [map lsumq length nth].
      rewrite sumq2_div, sumq2_plus, (qn_mult 2). change (qn 2) with 2. field. exact N.
    - rewrite Ev. unfold pair_variance.
      assert (GA := grey_mean_sum h w A A1 A2). assert (GB := grey_mean_sum h w B B1 B2).
      set (SA := sumq2 h w (fun r0 c => inject_Z (px A r0 c))) in *.
      set (SB := sumq2 h w (fun r0 c => inject_Z (px B r0 c))) in *.
      assert (SM : sumq (h * w) (fun k => pixel 0 (k / w) (k mod w) [A; B] - pixel 1 (k / w) (k mod w) [A; B])
                   == SA - SB).
      { rewrite sumq_minus. unfold pixel. cbn [nth]. unfold SA, SB.
        rewrite (sumq2_flat h w (fun r0 c => inject_Z (px A r0 c)) W).
        rewrite (sumq2_flat h w (fun r0 c => inject_Z (px B r0 c)) W). reflexivity. }
      rewrite (sumq2_ext h w _ (fun r c => (inject_Z (px A r c) - inject_Z (px B r c) - (SA - SB) / qn (h * w)) *
         (inject_Z (px A r c) - inject_Z (px B r c) - (SA - SB) / qn (h * w))))
        by (intros; rewrite GA, GB; field; exact N).
      rewrite (sumq2_flat h w _ W).
      match goal with |- 1 / ?d * ?x == _ => transitivity (x / d) end; [field; exact N|].
      apply Qdiv_comp; [|reflexivity]. apply sumq_ext. intros k Hk. rewrite SM.
      unfold pixel. cbn [nth]. reflexivity. }
  split.
  - rewrite (exp_ext P _ (fun s => pixel_mean h w (fun r c => (pixel 0 r c s + pixel 1 r c s) / 2)))
      by (intros s Hs; apply (Val s Hs)).
    unfold pixel_mean.
    rewrite exp_div, (exp_sum2 P HP h w (fun r c s => (pixel 0 r c s + pixel 1 r c s) / 2)).
    rewrite (sumq2_ext h w _ (fun r c => mu r c + mean_n 2 drift)).
    + rewrite sumq2_plus, sumq2_const. field. exact N.
    + intros r c Hr Hc. rewrite (exp_div P 2 (fun s => pixel 0 r c s + pixel 1 r c s)).
      rewrite (exp_plus P (pixel 0 r c) (pixel 1 r c)).
      rewrite !(ny_mean _ _ _ _ _ _ _ NY) by lia. unfold mean_n. cbn [sumq]. change (qn 2) with 2. field.
  - rewrite (exp_ext P _ _ (fun s Hs => proj2 (Val s Hs))).
    rewrite exp_div.
    rewrite (exp_centred P HP (h * w) _ _ _ Hn (uncor_diff P L h w mu s2 drift NY E2)).
    rewrite (sumq_ext (h * w) _ (fun _ => 0)).
    2:{ intros k Hk. rewrite sumq_const. field. exact N. }
    rewrite sumq_0, sumq_scal, <- (sumq2_flat h w s2 W). unfold pixel_mean. field. exact N.
Qed.

(** ** C92 *)
Hypothesis L2 : (2 <= L)%nat.
Hypothesis HW : (2 <= h * w)%nat.
Hypothesis DOC : forall s, possible P s -> documented h w s.
Variable S : list image -> sdata.
Hypothesis HS : forall s, possible P s -> spatial_data_of h w s (S s).

Let L0 : (0 < L)%nat. Proof. lia. Qed.
Let W0 : (0 < w)%nat. Proof. destruct w; lia. Qed.
Let H0 : (0 < h)%nat. Proof. destruct h; lia. Qed.

Lemma measured s : possible P s ->
  sd_L (S s) = L /\ sd_M (S s) = h /\ sd_N (S s) = w /\
  sd_avg_mean (S s) == pixel_mean h w (fun r c => avg_of L r c s) /\
  exists var_mean avg_var cav rav,
    sd_var_mean (S s) = Some var_mean /\ sd_avg_var (S s) = Some avg_var /\
    sd_avg_var_cav (S s) = Some cav /\ sd_avg_var_rav (S s) = Some rav /\
    var_mean == pixel_mean h w (fun r c => unbiased_var (map inject_Z (history s r c))) /\
    avg_var == spatial_variance h w (fun r c => avg_of L r c s) /\
    cav == pop_var w (fun c => sumq h (fun r => avg_of L r c s) / qn h) - var_mean / (qn L * qn h) /\
    rav == pop_var h (fun r => sumq w (fun c => avg_of L r c s) / qn w) - var_mean / (qn L * qn w).
Proof.
  intros Hs. assert (Len := ny_length _ _ _ _ _ _ _ NY s Hs).
  destruct (spatial_statistics h w s (DOC s Hs) ltac:(lia) HW)
    as (r & d & Er & Ed & EL & EM & EN & Am & vm & av & ca & ra & E1 & E2 & E3 & E4 & V1 & V2 & V3 & V4).
  destruct (HS s Hs) as (r' & Er' & Ed'). rewrite Er in Er'. inversion Er'. subst r'.
  rewrite Ed in Ed'. injection Ed' as EqS. subst d. clear Er'.
  assert (AV := fun r c => avg_is P L h w mu s2 drift NY s r c Hs).
  assert (SM : stack_mean h w s == pixel_mean h w (fun r c => avg_of L r c s)).
  { rewrite stack_mean_avg by lia. unfold pixel_mean. apply Qdiv_comp; [|reflexivity].
    apply sumq2_ext. intros. apply AV. }
  split; [rewrite EL; exact Len|]. split; [assumption|]. split; [assumption|].
  split; [rewrite Am; exact SM|].
  exists vm, av, ca, ra. repeat (split; [assumption|]).
  assert (PV : forall n f g, (forall i, (i < n)%nat -> f i == g i) -> pop_var n f == pop_var n g).
  { intros n f g Hfg. unfold pop_var. apply Qdiv_comp; [|reflexivity]. apply sumq_ext. intros i Hi.
    rewrite (Hfg i Hi), (sumq_ext n f g Hfg). reflexivity. }
  split; [|split].
  - rewrite V2. unfold spatial_variance. apply Qdiv_comp; [|reflexivity].
    apply sumq2_ext. intros. rewrite AV, SM. reflexivity.
  - rewrite V3, Len. apply Qplus_comp; [|reflexivity]. apply PV. intros c Hc.
    unfold col_mean. apply Qdiv_comp; [|reflexivity]. apply sumq_ext. intros. apply AV.
  - rewrite V4, Len. apply Qplus_comp; [|reflexivity]. apply PV. intros r0 Hc.
    unfold row_mean. apply Qdiv_comp; [|reflexivity]. apply sumq_ext. intros. apply AV.
Qed.

Definition dvar : Q := var_n L drift.

Lemma expected_mean : expected P (fun s => sd_avg_mean (S s)) == pixel_mean h w mu + mean_n L drift.
Proof.
  assert (N : ~ qn (h * w) == 0) by (apply qn_neq0; lia).
  rewrite (exp_ext P _ _ (fun s Hs => proj1 (proj2 (proj2 (proj2 (measured s Hs)))))).
  unfold pixel_mean. rewrite exp_div, (exp_sum2 P HP h w (fun r c => avg_of L r c)).
  destruct (uncor_avg P L h w mu s2 drift NY L0) as (A & _ & _).
  rewrite (sumq2_ext h w _ (fun r c => mu r c + mean_n L drift)) by (intros; apply A; assumption).
  rewrite sumq2_plus, sumq2_const. field. exact N.
Qed.

Lemma expected_noise : expected P (fun s => number (sd_var_mean (S s))) == pixel_mean h w s2 + dvar.
Proof.
  assert (N : ~ qn (h * w) == 0) by (apply qn_neq0; lia).
  rewrite (exp_ext P _ (fun s => pixel_mean h w (fun r c => unbiased_var (map inject_Z (history s r c))))).
  2:{ intros s Hs. destruct (measured s Hs) as (_ & _ & _ & _ & vm & av & ca & ra & E & _ & _ & _ & V & _).
      rewrite E. exact V. }
  unfold pixel_mean. rewrite exp_div, (exp_sum2 P HP h w (fun r c s => unbiased_var (map inject_Z (history s r c)))).
  rewrite (sumq2_ext h w _ (fun r c => s2 r c + dvar)).
  - rewrite sumq2_plus, sumq2_const. field. exact N.
  - intros r c Hr Hc. apply (exp_pixel_var P L h w mu s2 drift NY L0 r c L2 Hr Hc).
Qed.

Lemma expected_avg_var : expected P (fun s => number (sd_avg_var (S s))) ==
  spatial_variance h w mu + pixel_mean h w s2 / qn L.
Proof.
  assert (N : ~ qn (h * w) == 0) by (apply qn_neq0; lia).
  assert (N1 : ~ qn (h * w - 1) == 0) by (apply qn_neq0; lia).
  assert (NL : ~ qn L == 0) by (apply qn_neq0; lia).
  assert (Q1 : qn (h * w) == qn (h * w - 1) + 1)
    by (rewrite <- qn_S; replace (Datatypes.S (h * w - 1)) with (h * w)%nat by lia; reflexivity).
  rewrite (exp_ext P _ (fun s => sumq (h * w) (fun k => (avg_of L (k / w) (k mod w) s
       - sumq (h * w) (fun k => avg_of L (k / w) (k mod w) s) / qn (h * w)) *
      (avg_of L (k / w) (k mod w) s - sumq (h * w) (fun k => avg_of L (k / w) (k mod w) s) / qn (h * w)))
      / qn (h * w - 1))).
  2:{ intros s Hs. destruct (measured s Hs) as (_ & _ & _ & _ & vm & av & ca & ra & _ & E & _ & _ & _ & V & _).
      rewrite E. cbn [number]. rewrite V.
      apply (spatial_variance_flat h w (fun r c => avg_of L r c s) W0). }
  rewrite exp_div.
  rewrite (exp_centred P HP (h * w) _ _ _ ltac:(lia) (uncor_pixels P L h w mu s2 drift NY L0)).
  rewrite (spatial_variance_flat h w mu W0). unfold pixel_mean. rewrite (sumq2_flat h w s2 W0).
  rewrite sumq_div.
  set (SS := sumq (h * w) (fun k => s2 (k / w)%nat (k mod w)%nat)).
  assert (SM : sumq (h * w) (fun k => mu (k / w)%nat (k mod w)%nat + sumq L drift / qn L) ==
    sumq (h * w) (fun k => mu (k / w)%nat (k mod w)%nat) + qn (h * w) * (sumq L drift / qn L))
    by (rewrite sumq_plus, sumq_const; reflexivity).
  rewrite (sumq_ext (h * w) _ (fun k =>
     (mu (k / w)%nat (k mod w)%nat - sumq (h * w) (fun k => mu (k / w)%nat (k mod w)%nat) / qn (h * w)) *
     (mu (k / w)%nat (k mod w)%nat - sumq (h * w) (fun k => mu (k / w)%nat (k mod w)%nat) / qn (h * w)))).
  2:{ intros k Hk. rewrite SM. field. split; assumption. }
  set (T := sumq (h * w) _). clearbody T SS. clear SM.
  rewrite Q1 in N. rewrite Q1. field. repeat split; assumption.
Qed.

Lemma expected_total : expected P (fun s => number (sd_avg_var (S s)) - number (sd_var_mean (S s)) / qn L) ==
  spatial_variance h w mu - dvar / qn L.
Proof.
  assert (NL : ~ qn L == 0) by (apply qn_neq0; lia).
  rewrite (exp_minus P (fun s => number (sd_avg_var (S s))) (fun s => number (sd_var_mean (S s)) / qn L)).
  rewrite exp_div, expected_avg_var, expected_noise. field. exact NL.
Qed.

(** The population variance of the means of n groups of k pixels. *)
Lemma pop_var_shift n f k : (0 < n)%nat -> pop_var n (fun i => f i + k) == pop_var n f.
Proof.
  intros Hn. assert (N := qn_neq0 n Hn). unfold pop_var. apply Qdiv_comp; [|reflexivity].
  apply sumq_ext. intros i Hi.
  assert (E : sumq n (fun i => f i + k) / qn n == sumq n f / qn n + k)
    by (rewrite sumq_plus, sumq_const; field; exact N).
  rewrite E. ring.
Qed.
Lemma pop_var_ext n f g : (forall i, (i < n)%nat -> f i == g i) -> pop_var n f == pop_var n g.
Proof.
  intros Hfg. unfold pop_var. apply Qdiv_comp; [|reflexivity]. apply sumq_ext. intros i Hi.
  rewrite (Hfg i Hi), (sumq_ext n f g Hfg). reflexivity.
Qed.

Lemma expected_cav : expected P (fun s => number (sd_avg_var_cav (S s))) ==
  pop_var w (col_mean h mu) - pixel_mean h w s2 / (qn L * qn (h * w)) - dvar / (qn L * qn h).
Proof.
  assert (NL : ~ qn L == 0) by (apply qn_neq0; lia).
  assert (Nh : ~ qn h == 0) by (apply qn_neq0; lia). assert (Nw : ~ qn w == 0) by (apply qn_neq0; lia).
  rewrite (exp_ext P _ (fun s => pop_var w (fun c => sumq h (fun r => avg_of L r c s) / qn h)
      - number (sd_var_mean (S s)) / (qn L * qn h))).
  2:{ intros s Hs. destruct (measured s Hs) as (_ & _ & _ & _ & vm & av & ca & ra & Ev & _ & E & _ & _ & _ & V & _).
      rewrite E, Ev. exact V. }
  rewrite (exp_minus P (fun s => pop_var w (fun c => sumq h (fun r => avg_of L r c s) / qn h))
     (fun s => number (sd_var_mean (S s)) / (qn L * qn h))).
  rewrite exp_div, expected_noise. unfold pop_var at 1. rewrite exp_div.
  rewrite (exp_centred P HP w _ _ _ W0 (uncor_cols P L h w mu s2 drift NY L0 H0)).
  assert (PV : sumq w (fun i => (sumq h (fun r => mu r i + sumq L drift / qn L) / qn h -
      sumq w (fun c => sumq h (fun r => mu r c + sumq L drift / qn L) / qn h) / qn w) *
      (sumq h (fun r => mu r i + sumq L drift / qn L) / qn h -
      sumq w (fun c => sumq h (fun r => mu r c + sumq L drift / qn L) / qn h) / qn w)) / qn w
     == pop_var w (col_mean h mu)).
  { rewrite <- (pop_var_shift w (col_mean h mu) (sumq L drift / qn L) W0).
    change (pop_var w (fun i => sumq h (fun r => mu r i + sumq L drift / qn L) / qn h) ==
      pop_var w (fun i => col_mean h mu i + sumq L drift / qn L)).
    apply pop_var_ext. intros c Hc. unfold col_mean. rewrite sumq_plus, sumq_const. field. split; assumption. }
  assert (SV : sumq w (fun c => sumq h (fun r => s2 r c / qn L) / (qn h * qn h)) ==
     sumq2 h w s2 / (qn L * (qn h * qn h))).
  { rewrite sumq_div. rewrite (sumq_ext w _ (fun c => sumq h (fun r => s2 r c) / qn L)) by (intros; apply sumq_div).
    rewrite sumq_div. unfold sumq2. rewrite (sumq_swap h w). field. split; assumption. }
  rewrite SV, <- PV. unfold pixel_mean. rewrite qn_mult.
  set (T := sumq w _). set (V := sumq2 h w s2). clearbody T V. clear PV SV.
  field. repeat split; assumption.
Qed.

Lemma expected_rav : expected P (fun s => number (sd_avg_var_rav (S s))) ==
  pop_var h (row_mean w mu) - pixel_mean h w s2 / (qn L * qn (h * w)) - dvar / (qn L * qn w).
Proof.
  assert (NL : ~ qn L == 0) by (apply qn_neq0; lia).
  assert (Nh : ~ qn h == 0) by (apply qn_neq0; lia). assert (Nw : ~ qn w == 0) by (apply qn_neq0; lia).
  rewrite (exp_ext P _ (fun s => pop_var h (fun r => sumq w (fun c => avg_of L r c s) / qn w)
      - number (sd_var_mean (S s)) / (qn L * qn w))).
  2:{ intros s Hs. destruct (measured s Hs) as (_ & _ & _ & _ & vm & av & ca & ra & Ev & _ & _ & E & _ & _ & _ & V).
      rewrite E, Ev. exact V. }
  rewrite (exp_minus P (fun s => pop_var h (fun r => sumq w (fun c => avg_of L r c s) / qn w))
     (fun s => number (sd_var_mean (S s)) / (qn L * qn w))).
  rewrite exp_div, expected_noise. unfold pop_var at 1. rewrite exp_div.
  rewrite (exp_centred P HP h _ _ _ H0 (uncor_rows P L h w mu s2 drift NY L0 W0)).
  assert (PV : sumq h (fun i => (sumq w (fun c => mu i c + sumq L drift / qn L) / qn w -
      sumq h (fun r => sumq w (fun c => mu r c + sumq L drift / qn L) / qn w) / qn h) *
      (sumq w (fun c => mu i c + sumq L drift / qn L) / qn w -
      sumq h (fun r => sumq w (fun c => mu r c + sumq L drift / qn L) / qn w) / qn h)) / qn h
     == pop_var h (row_mean w mu)).
  { rewrite <- (pop_var_shift h (row_mean w mu) (sumq L drift / qn L) H0).
    change (pop_var h (fun i => sumq w (fun c => mu i c + sumq L drift / qn L) / qn w) ==
      pop_var h (fun i => row_mean w mu i + sumq L drift / qn L)).
    apply pop_var_ext. intros c Hc. unfold row_mean.
    change (sumq w (fun c0 => mu c c0)) with (sumq w (mu c)).
    rewrite (sumq_plus w (mu c) (fun _ => sumq L drift / qn L)), sumq_const. field. split; assumption. }
  assert (SV : sumq h (fun r => sumq w (fun c => s2 r c / qn L) / (qn w * qn w)) ==
     sumq2 h w s2 / (qn L * (qn w * qn w))).
  { rewrite sumq_div. rewrite (sumq_ext h _ (fun r => sumq w (fun c => s2 r c) / qn L)) by (intros; apply sumq_div).
    rewrite sumq_div. unfold sumq2. field. split; assumption. }
  rewrite SV, <- PV. unfold pixel_mean. rewrite qn_mult.
  set (T := sumq h _). set (V := sumq2 h w s2). clearbody T V. clear PV SV.
  field. repeat split; assumption.
Qed.
End Series.
