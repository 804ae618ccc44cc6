(** Least squares in R: the normal equations give the unique minimiser. *)
From Coq Require Import List Arith ZArith QArith Reals Qreals Lia Lra.
From Verif Require Import Base_Prelude Base_Sum Spec_Results.
Import ListNotations.
Open Scope R_scope.

Notation sumr f m := (sum_f_R0 f m).

Lemma sumr_ext f g m : (forall i, (i <= m)%nat -> f i = g i) -> sumr f m = sumr g m.
Proof. apply sum_eq. Qed.

Lemma sumr_sq_nonneg f m : 0 <= sumr (fun i => f i * f i) m.
Proof. apply cond_pos_sum. intro. nra. Qed.

Lemma sumr_sq_zero f m :
  sumr (fun i => f i * f i) m = 0 -> forall i, (i <= m)%nat -> f i = 0.
Proof.
  induction m; simpl; intros H i Hi.
  - replace i with 0%nat by lia. nra.
  - assert (N := sumr_sq_nonneg f m).
    assert (A : sumr (fun i => f i * f i) m = 0) by nra.
    destruct (Nat.eq_dec i (S m)) as [->|D]; [nra|]. apply IHm; auto. lia.
Qed.

(** Two columns u, v and target y. *)
Section LS2.
  Variables (u v y : nat -> R) (m : nat).
  Let Suu := sumr (fun i => u i * u i) m.
  Let Suv := sumr (fun i => u i * v i) m.
  Let Svv := sumr (fun i => v i * v i) m.
  Let Suy := sumr (fun i => u i * y i) m.
  Let Svy := sumr (fun i => v i * y i) m.
  Let Syy := sumr (fun i => y i * y i) m.

  Definition sse2 (a b : R) : R := sumr (fun i => sq (y i - (a * u i + b * v i))) m.

  Lemma sse2_expand a b :
    sse2 a b = Syy - 2 * a * Suy - 2 * b * Svy + a * a * Suu + 2 * a * b * Suv + b * b * Svv.
  Proof.
    unfold sse2, Syy, Suy, Svy, Suu, Suv, Svv, sq.
    induction m; simpl; [ring|]. rewrite IHn. ring.
  Qed.

  Lemma form_expand a b :
    sumr (fun i => (a * u i + b * v i) * (a * u i + b * v i)) m
    = a * a * Suu + 2 * a * b * Suv + b * b * Svv.
  Proof.
    unfold Suu, Suv, Svv. induction m; simpl; [ring|]. rewrite IHn. ring.
  Qed.

  Hypothesis indep : exists i j, (i <= m)%nat /\ (j <= m)%nat /\ u i * v j - u j * v i <> 0.

  Lemma form_pos a b :
    a <> 0 \/ b <> 0 -> 0 < a * a * Suu + 2 * a * b * Suv + b * b * Svv.
  Proof.
    intro H. rewrite <- form_expand.
    destruct (Rle_lt_or_eq_dec 0 _ (sumr_sq_nonneg (fun i => a * u i + b * v i) m)) as [G|G]; auto.
    exfalso. symmetry in G.
    assert (Z := sumr_sq_zero (fun i => a * u i + b * v i) m G).
    destruct indep as (i & j & Hi & Hj & N).
    assert (A := Z i Hi). assert (B := Z j Hj). simpl in A, B.
    assert (E1 : a * (u i * v j - u j * v i) = 0).
    { replace (a * (u i * v j - u j * v i))
        with (v j * (a * u i + b * v i) - v i * (a * u j + b * v j)) by ring.
      rewrite A, B. ring. }
    assert (E2 : b * (u i * v j - u j * v i) = 0).
    { replace (b * (u i * v j - u j * v i))
        with (u i * (a * u j + b * v j) - u j * (a * u i + b * v i)) by ring.
      rewrite A, B. ring. }
    apply Rmult_integral in E1, E2. destruct H as [H|H]; tauto.
  Qed.

  Lemma det_pos : 0 < Suu * Svv - Suv * Suv.
  Proof.
    assert (P : 0 < Suu).
    { assert (H := form_pos 1 0 ltac:(left; lra)). lra. }
    assert (H := form_pos (- Suv) Suu ltac:(right; lra)).
    assert (E : - Suv * - Suv * Suu + 2 * - Suv * Suu * Suv + Suu * Suu * Svv
                = Suu * (Suu * Svv - Suv * Suv)) by ring.
    rewrite E in H. apply Rmult_lt_reg_l with Suu; auto. lra.
  Qed.

  Lemma normal_best a b :
    a * Suu + b * Suv = Suy -> a * Suv + b * Svv = Svy ->
    forall a' b', a' <> a \/ b' <> b -> sse2 a b < sse2 a' b'.
  Proof.
    intros E1 E2 a' b' H. rewrite !sse2_expand.
    assert (F := form_pos (a' - a) (b' - b)).
    assert (0 < (a' - a) * (a' - a) * Suu + 2 * (a' - a) * (b' - b) * Suv
              + (b' - b) * (b' - b) * Svv) by (apply F; destruct H; [left|right]; lra).
    rewrite <- E1, <- E2. nra.
  Qed.

  Lemma normal_unique a b a' b' :
    a * Suu + b * Suv = Suy -> a * Suv + b * Svv = Svy ->
    a' * Suu + b' * Suv = Suy -> a' * Suv + b' * Svv = Svy -> a' = a /\ b' = b.
  Proof.
    intros E1 E2 F1 F2. assert (D := det_pos).
    assert (G1 : (a' - a) * (Suu * Svv - Suv * Suv) = 0).
    { replace ((a' - a) * (Suu * Svv - Suv * Suv))
        with (Svv * ((a' * Suu + b' * Suv) - (a * Suu + b * Suv))
              - Suv * ((a' * Suv + b' * Svv) - (a * Suv + b * Svv))) by ring.
      rewrite E1, E2, F1, F2. ring. }
    assert (G2 : (b' - b) * (Suu * Svv - Suv * Suv) = 0).
    { replace ((b' - b) * (Suu * Svv - Suv * Suv))
        with (Suu * ((a' * Suv + b' * Svv) - (a * Suv + b * Svv))
              - Suv * ((a' * Suu + b' * Suv) - (a * Suu + b * Suv))) by ring.
      rewrite E1, E2, F1, F2. ring. }
    apply Rmult_integral in G1, G2. split; destruct G1, G2; lra.
  Qed.
End LS2.

(** One column. *)
Section LS1.
  Variables (u y : nat -> R) (m : nat).
  Let Suu := sumr (fun i => u i * u i) m.
  Let Suy := sumr (fun i => u i * y i) m.

  Lemma slope_best a :
    (exists i, (i <= m)%nat /\ u i <> 0) -> a * Suu = Suy ->
    forall a', a' <> a ->
      sumr (fun i => sq (y i - a * u i)) m < sumr (fun i => sq (y i - a' * u i)) m.
  Proof.
    intros (i & Hi & N) E a' H.
    assert (X : forall c, sumr (fun i => sq (y i - c * u i)) m
                = sumr (fun i => y i * y i) m - 2 * c * Suy + c * c * Suu).
    { intro c. unfold Suy, Suu, sq. clear. induction m; simpl; [ring|]. rewrite IHn. ring. }
    assert (P : 0 < Suu).
    { destruct (Rle_lt_or_eq_dec 0 _ (sumr_sq_nonneg u m)) as [G|G]; auto.
      exfalso. apply N. apply (sumr_sq_zero u m); auto. }
    rewrite !X, <- E.
    assert (0 < (a' - a) * (a' - a) * Suu); [|nra].
    apply Rmult_lt_0_compat; auto. assert (a' - a <> 0) by lra. nra.
  Qed.
End LS1.

(** ** From lists of rationals *)
Lemma Q2R_0' : Q2R 0 = 0.
Proof. unfold Q2R; simpl; field. Qed.
Lemma Q2R_1' : Q2R 1 = 1.
Proof. unfold Q2R; simpl; field. Qed.

Lemma Q2R_lsumq {A} (f : A -> Q) (l : list A) (d : A) :
  l <> [] -> Q2R (lsumq (map f l)) = sumr (fun i => Q2R (f (nth i l d))) (length l - 1).
Proof.
  intro NE. destruct l as [|a l]; [contradiction|]. clear NE.
  simpl length. replace (S (length l) - 1)%nat with (length l) by lia.
  revert a. induction l as [|b l IH]; intro a.
  - simpl. rewrite Q2R_plus, Q2R_0'. ring.
  - cbn [map lsumq]. rewrite Q2R_plus. specialize (IH b). cbn [map lsumq] in IH. rewrite IH.
    cbn [length]. rewrite (decomp_sum (fun i => Q2R (f (nth i (a :: b :: l) d))) (S (length l))) by lia.
    simpl. reflexivity.
Qed.

Lemma Q2R_neq0 q : ~ (q == 0)%Q <-> Q2R q <> 0.
Proof.
  split; intros H E; apply H.
  - apply eqR_Qeq. rewrite E. symmetry. apply Q2R_0'.
  - rewrite (Qeq_eqR _ _ E). apply Q2R_0'.
Qed.

Lemma sumr_const1 m : sumr (fun _ => 1) m = INR (S m).
Proof. rewrite sum_cte. ring. Qed.

Lemma Q2R_qn n : Q2R (qn n) = INR n.
Proof. unfold qn, Q2R. simpl. rewrite <- INR_IZR_INZ. field. Qed.
