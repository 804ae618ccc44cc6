(** Proofs for C117: the reported linearity errors. *)
From Coq Require Import List Bool Arith ZArith QArith Qreals Reals Lia Lra.
From Verif Require Import Base_Prelude Base_Num Base_Order Base_Sum Base_SumR Model_Images Model_Data
  Model_Results Spec_Results Spec_Linear Spec_Near Spec_Straight Proofs_Results Proofs_Results3
  Proofs_Near Proofs_Figures Proofs_Straight.
Import ListNotations.
Open Scope R_scope.
Set Bullet Behavior "Strict Subproofs".

Lemma Q2R_zero x : (x == 0)%Q <-> Q2R x = 0.
Proof.
  split; intros H.
  - rewrite (Qeq_eqR _ _ H). unfold Q2R. simpl. field.
  - apply eqR_Qeq. rewrite H. unfold Q2R. simpl. field.
Qed.

Lemma all_some_none {A} (l : list (option A)) : In None l -> all_some l = None.
Proof.
  induction l as [|[x|] l IH]; intros I; [destruct I| |reflexivity].
  destruct I as [I|I]; [discriminate|]. cbn [all_some]. rewrite (IH I). reflexivity.
Qed.

Lemma rel_dev_R o a b i : ~ (a * photons o i + b == 0)%Q ->
  Q2R (rel_dev o a b i) = 100 * (Q2R (sig o i) - (Q2R a * Q2R (photons o i) + Q2R b)) / (Q2R a * Q2R (photons o i) + Q2R b).
Proof.
  intros N. unfold rel_dev. rewrite Q2R_div by exact N. rewrite Q2R_mult, Q2R_minus, Q2R_plus, Q2R_mult.
  replace (Q2R 100) with 100 by (unfold Q2R; simpl; field). reflexivity.
Qed.

Section Range.
Variables (o : robj) (n lo hi : nat).
Hypothesis SH : shaped o n.
Hypothesis E1 : index_linearity_min o = Ok lo.
Hypothesis E2 : index_linearity_max o = Ok hi.
Hypothesis NZ : forall i, in_range lo hi i -> ~ (sig o i == 0)%Q.
Hypothesis TW : exists i j, in_range lo hi i /\ in_range lo hi j /\ ~ (photons o i == photons o j)%Q.

Let LH : (lo <= hi)%nat.
Proof. destruct TW as (i & _ & Hi & _). unfold in_range in Hi. lia. Qed.
Let NZR : forall i, (i <= hi - lo)%nat -> Q2R (sig o (lo + i)) <> 0.
Proof. intros i Hi Z. apply (NZ (lo + i)%nat); [unfold in_range; lia|apply Q2R_zero, Z]. Qed.
Let shift i : in_range lo hi i -> exists j, (j <= hi - lo)%nat /\ i = (lo + j)%nat.
Proof. intros (A & B). exists (i - lo)%nat. split; lia. Qed.

(** When an error is reported at all, the line is nowhere 0. *)
Lemma reported_line : exists a b, best_relative_line (photons o) (sig o) lo hi a b /\
  ((exists mn, LE_min o = Ok (Some mn)) -> forall i, in_range lo hi i -> ~ (a * photons o i + b == 0)%Q) /\
  ((forall i, in_range lo hi i -> ~ (a * photons o i + b == 0)%Q) ->
   exists mn mx, LE_min o = Ok (Some mn) /\ LE_max o = Ok (Some mx) /\
       (forall i, in_range lo hi i -> mn <= rel_dev o a b i <= mx)%Q /\
       (exists i, in_range lo hi i /\ mn = rel_dev o a b i) /\
       (exists i, in_range lo hi i /\ mx = rel_dev o a b i)).
Proof.
  destruct (linearity_fit o n lo hi SH E1 E2 NZ TW) as (l & a & b & EL & EF & B & ED & X).
  exists a, b. split; [exact B|]. split.
  - intros (mn & M) i Hi Z.
    unfold LE_min in M. rewrite EL in M. cbn [bind] in M.
    assert (MN : lin_min l = Some mn) by congruence. clear M.
    destruct (linearity_bounds o n lo hi SH E1 E2) as (L1 & L2).
    unfold linearity in EL. rewrite (signal_shaped o n SH), E1, E2 in EL. cbn [bind] in EL.
    apply bind_ok in EL. destruct EL as (P & _ & EL).
    apply bind_ok in EL. destruct EL as (P2 & _ & EL).
    apply bind_ok in EL. destruct EL as (v & Ev & EL).
    apply bind_ok in EL. destruct EL as (w & Ew & EL).
    injection EL as EL. subst l. cbn [lin_dev lin_min lin_fit] in *. subst v.
    rewrite ED in Ev. rewrite slice_map, slice_seq in Ev by lia.
    unfold np_extreme in Ev. rewrite all_some_none in Ev.
    + destruct (map _ _); discriminate.
    + apply in_map_iff. exists i. split; [|apply in_seq; unfold in_range in Hi; lia].
      unfold deviation, qdiv_o. cbn [fst snd]. apply Qeq_bool_iff in Z. rewrite Z. reflexivity.
  - intros NL. destruct (X NL) as (mn & mx & M1 & M2 & R). exists mn, mx.
    split; [unfold LE_min; rewrite EL; cbn [bind]; rewrite M1; reflexivity|].
    split; [unfold LE_max; rewrite EL; cbn [bind]; rewrite M2; reflexivity|exact R].
Qed.

Let LR a b : (forall i, in_range lo hi i -> ~ (a * photons o i + b == 0)%Q) ->
  forall i, (i <= hi - lo)%nat -> Q2R a * Q2R (photons o (lo + i)) + Q2R b <> 0.
Proof.
  intros NL i Hi Z. apply (NL (lo + i)%nat); [unfold in_range; lia|]. apply Q2R_zero. rewrite Q2R_plus, Q2R_mult. exact Z.
Qed.

Lemma sides a b mn mx : best_relative_line (photons o) (sig o) lo hi a b ->
  (forall i, in_range lo hi i -> ~ (a * photons o i + b == 0)%Q) ->
  (forall i, in_range lo hi i -> mn <= rel_dev o a b i <= mx)%Q -> Q2R mn <= 0 <= Q2R mx.
Proof.
  intros B NL R.
  destruct (both_sides (photons o) (sig o) lo hi a b B NZR (LR a b NL)) as (S1 & S2).
  assert (G : forall i, (i <= hi - lo)%nat -> Q2R mn <= 100 * ((Q2R (sig o (lo + i)) - (Q2R a * Q2R (photons o (lo + i)) + Q2R b))
    / (Q2R a * Q2R (photons o (lo + i)) + Q2R b)) <= Q2R mx).
  { intros i Hi. assert (I : in_range lo hi (lo + i)) by (unfold in_range; lia).
    assert (E := rel_dev_R o a b _ (NL _ I)). destruct (R _ I) as (R1 & R2). apply Qle_Rle in R1, R2. rewrite E in R1, R2.
    unfold Rdiv in *. rewrite Rmult_assoc in R1, R2. split; assumption. }
  split.
  - destruct (Rle_lt_dec (Q2R mn) 0) as [L|L]; [exact L|exfalso]. apply S1. intros i Hi. destruct (G i Hi). lra.
  - destruct (Rle_lt_dec 0 (Q2R mx)) as [L|L]; [exact L|exfalso]. apply S2. intros i Hi. destruct (G i Hi). lra.
Qed.

Lemma error_sides mn mx : LE_min o = Ok (Some mn) -> LE_max o = Ok (Some mx) -> Q2R mn <= 0 <= Q2R mx.
Proof.
  intros M1 M2. destruct reported_line as (a & b & B & NL & X).
  assert (N := NL (ex_intro _ mn M1)). destruct (X N) as (mn' & mx' & M1' & M2' & R & _).
  assert (mn' = mn) as -> by congruence. assert (mx' = mx) as -> by congruence.
  apply (sides a b mn mx B N R).
Qed.

Lemma error_line c e d N : (S (hi - lo) <= N)%nat -> 0 <= d -> sqrt (INR N) * d < 1 ->
  (forall i, in_range lo hi i -> Rabs (Q2R (sig o i) - (c * Q2R (photons o i) + e)) <= d * Rabs (Q2R (sig o i))) ->
  straight_within o (low_error N d) (high_error N d).
Proof.
  intros LN D0 S1 C. destruct reported_line as (a & b & B & _ & X).
  set (s := sqrt (INR N) * d) in *.
  assert (SM : sqrt (INR (S (hi - lo))) * d <= s).
  { apply Rmult_le_compat_r; [exact D0|]. apply sqrt_le_1_alt, le_INR, LN. }
  assert (G : forall i, (i <= hi - lo)%nat ->
    Q2R a * Q2R (photons o (lo + i)) + Q2R b <> 0 /\
    - (100 * s / (1 + s)) <= 100 * (Q2R (sig o (lo + i)) - (Q2R a * Q2R (photons o (lo + i)) + Q2R b))
      / (Q2R a * Q2R (photons o (lo + i)) + Q2R b) <= 100 * s / (1 - s)).
  { intros i Hi. apply (best_deviation (photons o) (sig o) lo hi a b NZR s i Hi).
    - eapply Rle_trans; [|exact SM].
      apply (best_part (photons o) (sig o) lo hi a b B NZR c e d i); [|exact Hi|exact D0].
      intros j Hj. apply C. unfold in_range. lia.
    - exact S1. }
  assert (NL : forall i, in_range lo hi i -> ~ (a * photons o i + b == 0)%Q).
  { intros i Hi Z. destruct (shift i Hi) as (j & Hj & ->). destruct (G j Hj) as (N0 & _). apply N0.
    apply Q2R_zero in Z. rewrite Q2R_plus, Q2R_mult in Z. exact Z. }
  destruct (X NL) as (mn & mx & M1 & M2 & R & (i & Hi & V1) & (j & Hj & V2)).
  exists mn, mx. split; [exact M1|]. split; [exact M2|].
  destruct (sides a b mn mx B NL R) as (P1 & P2).
  assert (D : forall i, in_range lo hi i -> - (100 * s / (1 + s)) <= Q2R (rel_dev o a b i) <= 100 * s / (1 - s)).
  { intros k Hk. rewrite rel_dev_R by (apply NL, Hk). destruct (shift k Hk) as (k' & Hk' & ->). apply (G k' Hk'). }
  unfold low_error, high_error. fold s. split; split; try assumption.
  - rewrite V1. apply (D i Hi).
  - rewrite V2. apply (D j Hj).
Qed.
End Range.
