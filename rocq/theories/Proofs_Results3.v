(** Proofs for C31: linearity. *)
From Coq Require Import List Bool Arith ZArith QArith Reals Qreals Lia Lra.
From Verif Require Import Base_Prelude Base_Sum Base_Xreal Model_Images Model_Data Model_Results Spec_Results
  Proofs_Results Proofs_Fit Proofs_Results2.
Import ListNotations.
Open Scope R_scope.

Lemma Q2R_div' a b : ~ (b == 0)%Q -> Q2R (a / b) = Q2R a / Q2R b.
Proof. apply Q2R_div. Qed.

Section RelativeFit.
  Variables (X Y : nat -> Q) (lo hi : nat) (P : list (Q * Q)) (Ys : list Q).
  Let m := (hi - lo)%nat.
  Hypothesis (LP : length P = S m) (LY : length Ys = S m).
  Hypothesis (NP : forall i, (i <= m)%nat -> nth i P dq = (X (lo + i)%nat, Y (lo + i)%nat)).
  Hypothesis (NY : forall i, (i <= m)%nat -> nth i Ys 0%Q = Y (lo + i)%nat).
  Hypothesis (NZ : forall i, (i <= m)%nat -> ~ (Y (lo + i)%nat == 0)%Q).
  Hypothesis (D : exists i j, (i <= m)%nat /\ (j <= m)%nat /\ ~ (X (lo + i)%nat == X (lo + j)%nat)%Q).

  Let u i := Q2R (X (lo + i)%nat) / Q2R (Y (lo + i)%nat).
  Let v i := 1 / Q2R (Y (lo + i)%nat).

  Lemma Ynz i : (i <= m)%nat -> Q2R (Y (lo + i)%nat) <> 0.
  Proof. intro H. apply Q2R_neq0. apply NZ. auto. Qed.

  Lemma uv_indep : exists i j, (i <= m)%nat /\ (j <= m)%nat /\ u i * v j - u j * v i <> 0.
  Proof.
    destruct D as (i & j & Hi & Hj & N). exists i, j. repeat split; auto. unfold u, v.
    assert (A := Ynz i Hi). assert (B := Ynz j Hj). intro E. apply N. apply eqR_Qeq.
    assert (F : (Q2R (X (lo + i)%nat) - Q2R (X (lo + j)%nat))
                / (Q2R (Y (lo + i)%nat) * Q2R (Y (lo + j)%nat)) = 0).
    { rewrite <- E. field. auto. }
    apply (Rmult_eq_compat_r (Q2R (Y (lo + i)%nat) * Q2R (Y (lo + j)%nat))) in F.
    rewrite Rmult_0_l in F. unfold Rdiv in F. rewrite Rmult_assoc, Rinv_l in F.
    - lra.
    - apply Rmult_integral_contrapositive. auto.
  Qed.

  Lemma sum_pairs (f : Q * Q -> Q) (g : nat -> R) :
    (forall i, (i <= m)%nat -> Q2R (f (X (lo + i)%nat, Y (lo + i)%nat)) = g i) ->
    Q2R (lsumq (map f P)) = sumr g m.
  Proof.
    intro H. rewrite (Q2R_lsumq f P dq) by (intro E; rewrite E in LP; discriminate).
    replace (length P - 1)%nat with m by lia. apply sumr_ext. intros i Hi. rewrite NP by auto. auto.
  Qed.

  Lemma sum_ys (f : Q -> Q) (g : nat -> R) :
    (forall i, (i <= m)%nat -> Q2R (f (Y (lo + i)%nat)) = g i) ->
    Q2R (lsumq (map f Ys)) = sumr g m.
  Proof.
    intro H. rewrite (Q2R_lsumq f Ys 0%Q) by (intro E; rewrite E in LY; discriminate).
    replace (length Ys - 1)%nat with m by lia. apply sumr_ext. intros i Hi. rewrite NY by auto. auto.
  Qed.

  Lemma relative_fit_best :
    exists a b, relative_fit P Ys = Some (a, b) /\ best_relative_line X Y lo hi a b.
  Proof.
    unfold relative_fit.
    assert (E0 : existsb (fun y => Qeq_bool y 0) Ys = false).
    { destruct (existsb (fun y => Qeq_bool y 0) Ys) eqn:E; auto.
      apply existsb_exists in E. destruct E as (y & I & E). apply Qeq_bool_eq in E.
      destruct (In_nth _ _ 0%Q I) as (i & Hi & Q). exfalso. apply (NZ i); [lia|].
      rewrite <- NY by lia. rewrite Q. auto. }
    rewrite E0.
    set (xy := lsumq (map (fun p => fst p / snd p)%Q P)).
    set (xy2 := lsumq (map (fun p => fst p / (snd p * snd p))%Q P)).
    set (x2y2 := lsumq (map (fun p => fst p / snd p * (fst p / snd p))%Q P)).
    set (y1 := lsumq (map (fun y => 1 / y)%Q Ys)).
    set (y2 := lsumq (map (fun y => 1 / (y * y))%Q Ys)).
    assert (YY : forall i, (i <= m)%nat -> ~ (Y (lo + i)%nat * Y (lo + i)%nat == 0)%Q).
    { intros i Hi. apply Q2R_neq0. rewrite Q2R_mult.
      apply Rmult_integral_contrapositive. split; apply Ynz; auto. }
    assert (Exy : Q2R xy = sumr (fun i => u i * 1) m).
    { apply sum_pairs. intros i Hi. simpl. rewrite Q2R_div by auto. unfold u. ring. }
    assert (Exy2 : Q2R xy2 = sumr (fun i => u i * v i) m).
    { apply sum_pairs. intros i Hi. simpl. rewrite Q2R_div by auto. rewrite Q2R_mult.
      unfold u, v. field. apply Ynz; auto. }
    assert (Ex2 : Q2R x2y2 = sumr (fun i => u i * u i) m).
    { apply sum_pairs. intros i Hi. simpl. rewrite Q2R_mult, Q2R_div by auto. reflexivity. }
    assert (Ey1 : Q2R y1 = sumr (fun i => v i * 1) m).
    { apply sum_ys. intros i Hi. rewrite Q2R_div by auto. rewrite Q2R_1'. unfold v. ring. }
    assert (Ey2 : Q2R y2 = sumr (fun i => v i * v i) m).
    { apply sum_ys. intros i Hi. rewrite Q2R_div by auto. rewrite Q2R_1', Q2R_mult. unfold v.
      field. apply Ynz; auto. }
    assert (Det := det_pos u v (fun _ => 1) m uv_indep). simpl in Det.
    rewrite <- Ex2, <- Exy2, <- Ey2 in Det.
    assert (Pos := form_pos u v (fun _ => 1) m uv_indep 1 0 ltac:(left; lra)). simpl in Pos.
    rewrite <- Ex2, <- Exy2, <- Ey2 in Pos.
    set (den := (xy2 * xy2 - x2y2 * y2)%Q).
    assert (Eden : Q2R den = Q2R xy2 * Q2R xy2 - Q2R x2y2 * Q2R y2)
      by (unfold den; rewrite Q2R_minus, !Q2R_mult; reflexivity).
    assert (Nden : ~ (den == 0)%Q) by (apply Q2R_neq0; lra).
    assert (Nx : ~ (x2y2 == 0)%Q) by (apply Q2R_neq0; lra).
    unfold qdiv_o.
    assert (F1 : Qeq_bool den 0 = false) by (apply Qeq_bool_false; auto). rewrite F1.
    assert (F2 : Qeq_bool x2y2 0 = false) by (apply Qeq_bool_false; auto). rewrite F2.
    set (b := ((xy * xy2 - x2y2 * y1) / den)%Q). set (a := ((xy - b * xy2) / x2y2)%Q).
    exists a, b. split; [reflexivity|].
    assert (Eb : Q2R b = (Q2R xy * Q2R xy2 - Q2R x2y2 * Q2R y1) / Q2R den)
      by (unfold b; rewrite Q2R_div by auto; rewrite Q2R_minus, !Q2R_mult; reflexivity).
    assert (Ea : Q2R a = (Q2R xy - Q2R b * Q2R xy2) / Q2R x2y2)
      by (unfold a; rewrite Q2R_div by auto; rewrite Q2R_minus, !Q2R_mult; reflexivity).
    assert (S : forall c d, sse_relative X Y lo hi c d = sse2 u v (fun _ => 1) m c d).
    { intros c d. unfold sse_relative, sse2. fold m. apply sumr_ext. intros i Hi. f_equal.
      unfold u, v. field. apply Ynz; auto. }
    intros a' b' N. rewrite !S.
    apply (normal_best u v (fun _ => 1) m uv_indep); auto.
    - rewrite <- Ex2, <- Exy2, <- Exy. rewrite Ea. field. lra.
    - rewrite <- Ey2, <- Exy2, <- Ey1. rewrite Ea, Eb, Eden. field. split; lra.
  Qed.

  Lemma best_relative_exact a b c d :
    best_relative_line X Y lo hi a b ->
    (forall i, (i <= m)%nat -> (Y (lo + i)%nat == c * X (lo + i)%nat + d)%Q) ->
    (a == c)%Q /\ (b == d)%Q.
  Proof.
    intros B H.
    assert (DD : Q2R c = Q2R a /\ Q2R d = Q2R b \/ (Q2R c <> Q2R a \/ Q2R d <> Q2R b)).
    { destruct (Req_dec (Q2R c) (Q2R a)); destruct (Req_dec (Q2R d) (Q2R b)); tauto. }
    destruct DD as [(E1 & E2)|E].
    - split; apply eqR_Qeq; auto.
    - exfalso. specialize (B _ _ E).
      assert (Z : sse_relative X Y lo hi (Q2R c) (Q2R d) = 0).
      { unfold sse_relative. apply sum_eq_R0. intros i Hi. unfold sq.
        rewrite (Qeq_eqR _ _ (H i Hi)), Q2R_plus, Q2R_mult. unfold Rdiv. ring. }
      rewrite Z in B. assert (0 <= sse_relative X Y lo hi (Q2R a) (Q2R b)); [|lra].
      unfold sse_relative, sq.
      apply (sumr_sq_nonneg (fun i => (Q2R (Y (lo + i)%nat) - (Q2R a * Q2R (X (lo + i)%nat) + Q2R b))
        / Q2R (Y (lo + i)%nat))).
  Qed.
End RelativeFit.

(** ** The extremes *)
Open Scope Q_scope.
Lemma fold_min_q l : forall x,
  let r := fold_left Qmin_b l x in
  (r = x \/ In r l) /\ r <= x /\ forall y, In y l -> r <= y.
Proof.
  induction l as [|a l IH]; intro x; simpl.
  - split; [auto|]. split; [apply Qle_refl|tauto].
  - destruct (IH (Qmin_b x a)) as (A & B & C).
    assert (M : (Qmin_b x a = x \/ Qmin_b x a = a) /\ Qmin_b x a <= x /\ Qmin_b x a <= a).
    { unfold Qmin_b. destruct (Qle_bool x a) eqn:E.
      - apply Qle_bool_iff in E. split; [auto|]. split; [apply Qle_refl|auto].
      - apply Qle_bool_false in E. split; [auto|]. split; [apply Qlt_le_weak; auto|apply Qle_refl]. }
    destruct M as (M1 & M2 & M3). split; [|split].
    + destruct A as [A|A]; auto. rewrite A. destruct M1 as [->| ->]; auto.
    + eapply Qle_trans; eauto.
    + intros y [<-|H]; auto. eapply Qle_trans; eauto.
Qed.

Lemma fold_max_q l : forall x,
  let r := fold_left Qmax_b l x in
  (r = x \/ In r l) /\ x <= r /\ forall y, In y l -> y <= r.
Proof.
  induction l as [|a l IH]; intro x; simpl.
  - split; [auto|]. split; [apply Qle_refl|tauto].
  - destruct (IH (Qmax_b x a)) as (A & B & C).
    assert (M : (Qmax_b x a = x \/ Qmax_b x a = a) /\ x <= Qmax_b x a /\ a <= Qmax_b x a).
    { unfold Qmax_b. destruct (Qle_bool x a) eqn:E.
      - apply Qle_bool_iff in E. split; [auto|]. split; [auto|apply Qle_refl].
      - apply Qle_bool_false in E. split; [auto|]. split; [apply Qle_refl|apply Qlt_le_weak; auto]. }
    destruct M as (M1 & M2 & M3). split; [|split].
    + destruct A as [A|A]; auto. rewrite A. destruct M1 as [->| ->]; auto.
    + eapply Qle_trans; eauto.
    + intros y [<-|H]; auto. eapply Qle_trans; eauto.
Qed.

Lemma all_some_map {A} (l : list A) : all_some (map Some l) = Some l.
Proof. induction l; simpl; auto. rewrite IHl. reflexivity. Qed.

Lemma np_min_spec l :
  l <> [] -> exists r, np_extreme Qmin_b (map Some l) = Ok (Some r) /\ In r l /\ forall y, In y l -> r <= y.
Proof.
  destruct l as [|x l]; [contradiction|]. intros _. unfold np_extreme. rewrite all_some_map. cbn [map].
  destruct (fold_min_q l x) as (A & B & C). eexists. split; [reflexivity|]. split.
  - destruct A as [A|A]; [left; auto|right; auto].
  - intros y [<-|H]; auto.
Qed.

Lemma np_max_spec l :
  l <> [] -> exists r, np_extreme Qmax_b (map Some l) = Ok (Some r) /\ In r l /\ forall y, In y l -> y <= r.
Proof.
  destruct l as [|x l]; [contradiction|]. intros _. unfold np_extreme. rewrite all_some_map. cbn [map].
  destruct (fold_max_q l x) as (A & B & C). eexists. split; [reflexivity|]. split.
  - destruct A as [A|A]; [left; auto|right; auto].
  - intros y [<-|H]; auto.
Qed.

Lemma np_extreme_ok f l : l <> [] -> exists r, np_extreme f l = Ok r.
Proof.
  destruct l as [|x l]; [contradiction|]. intros _. unfold np_extreme.
  destruct (all_some (x :: l)) as [[|? ?]|]; eauto.
Qed.

Lemma combine_seq (a : list Q) (f : nat -> Q) n :
  length a = n ->
  combine a (map f (seq 0 n)) = map (fun i => (at_ a i, f i)) (seq 0 n).
Proof.
  revert f n. induction a as [|x a IH]; intros f [|n] H; try discriminate; auto.
  simpl. f_equal. rewrite <- seq_shift, !map_map. simpl in H.
  rewrite (IH (fun i => f (S i)) n) by lia. reflexivity.
Qed.

Lemma slice_map {A B} (f : A -> B) lo hi l : slice lo hi (map f l) = map f (slice lo hi l).
Proof. unfold slice. rewrite skipn_map, firstn_map. reflexivity. Qed.

Lemma skipn_seq k : forall a n, skipn k (seq a n) = seq (a + k) (n - k).
Proof.
  induction k; intros a n; simpl.
  - rewrite Nat.add_0_r, Nat.sub_0_r. reflexivity.
  - destruct n; simpl; auto. rewrite IHk. f_equal. lia.
Qed.

Lemma firstn_seq k : forall a n, firstn k (seq a n) = seq a (Nat.min k n).
Proof. induction k; intros a [|n]; simpl; auto. rewrite IHk. reflexivity. Qed.

Lemma slice_seq lo hi n : (hi <= n)%nat -> slice lo hi (seq 0 n) = seq lo (hi - lo).
Proof.
  intro H. unfold slice. rewrite skipn_seq, firstn_seq. f_equal. lia.
Qed.

Lemma linearity_bounds o n lo hi :
  shaped o n -> index_linearity_min o = Ok lo -> index_linearity_max o = Ok hi ->
  (lo < n)%nat /\ (hi < n)%nat.
Proof.
  intros SH H1 H2. unfold index_linearity_min in H1. unfold index_linearity_max in H2.
  rewrite (signal_shaped o n SH) in H1, H2. cbn [bind] in *.
  apply bind_ok in H1. destruct H1 as (z & _ & H1). apply bind_ok in H1. destruct H1 as (y & _ & H1).
  apply bind_ok in H2. destruct H2 as (z' & _ & H2). apply bind_ok in H2. destruct H2 as (y' & _ & H2).
  rewrite argwhere_seq in *. apply min_index_iff in H1. apply max_index_iff in H2.
  destruct H1 as (H1 & _), H2 as (H2 & _).
  apply filter_In in H1. apply filter_In in H2. rewrite in_seq in *. lia.
Qed.

Lemma linearity_fit o n lo hi :
  shaped o n -> index_linearity_min o = Ok lo -> index_linearity_max o = Ok hi ->
  (forall i, in_range lo hi i -> ~ sig o i == 0) ->
  (exists i j, in_range lo hi i /\ in_range lo hi j /\ ~ photons o i == photons o j) ->
  exists l a b, linearity o = Ok l /\ lin_fit l = Some (a, b) /\
    best_relative_line (photons o) (sig o) lo hi a b /\
    lin_dev l = map (fun i => deviation (a, b) (photons o i) (sig o i)) (seq 0 n) /\
    ((forall i, in_range lo hi i -> ~ a * photons o i + b == 0) ->
     exists mn mx, lin_min l = Some mn /\ lin_max l = Some mx /\
       (forall i, in_range lo hi i -> mn <= rel_dev o a b i <= mx) /\
       (exists i, in_range lo hi i /\ mn = rel_dev o a b i) /\
       (exists i, in_range lo hi i /\ mx = rel_dev o a b i)).
Proof.
  intros SH E1 E2 NZ (i0 & j0 & Hi & Hj & N).
  destruct (linearity_bounds o n lo hi SH E1 E2) as (L1 & L2).
  unfold in_range in *.
  assert (HU : length (r_up (o_t o)) = n) by (destruct SH as (_ & HU & _); auto).
  assert (HL : length (map (sig o) (seq 0 n)) = n) by (rewrite map_length, seq_length; auto).
  set (Ys := slice lo (hi + 1) (map (sig o) (seq 0 n))).
  set (P := combine (slice lo (hi + 1) (r_up (o_t o))) Ys).
  assert (LY : length Ys = S (hi - lo)) by (unfold Ys; rewrite slice_length; lia).
  assert (LX : length (slice lo (hi + 1) (r_up (o_t o))) = S (hi - lo)) by (rewrite slice_length; lia).
  destruct (relative_fit_best (photons o) (sig o) lo hi P Ys) as (a & b & F & B); auto.
  - unfold P. rewrite combine_length. lia.
  - intros i H. unfold P. rewrite combine_nth by congruence. unfold Ys.
    rewrite !slice_nth by lia. rewrite nth_map_seq by lia. reflexivity.
  - intros i H. unfold Ys. rewrite slice_nth by lia. apply nth_map_seq. lia.
  - intros i H. apply NZ. lia.
  - exists (i0 - lo)%nat, (j0 - lo)%nat. repeat split; try lia.
    replace (lo + (i0 - lo))%nat with i0 by lia. replace (lo + (j0 - lo))%nat with j0 by lia. auto.
  - unfold linearity. rewrite (signal_shaped o n SH), E1, E2. cbn [bind].
    fold Ys. rewrite np_pairs_eq by congruence. fold P. cbn [bind]. rewrite F.
    rewrite np_pairs_eq by congruence. cbn [bind].
    rewrite (combine_seq _ _ n HU), map_map. cbn [fst snd].
    set (dev := map (fun x => deviation (a, b) (at_ (r_up (o_t o)) x) (sig o x)) (seq 0 n)).
    assert (SD : slice lo (hi + 1) dev
      = map (fun x => deviation (a, b) (at_ (r_up (o_t o)) x) (sig o x)) (seq lo (S (hi - lo)))).
    { unfold dev. rewrite slice_map, slice_seq by lia. f_equal. f_equal. lia. }
    rewrite SD.
    destruct (np_extreme_ok Qmin_b
      (map (fun x => deviation (a, b) (at_ (r_up (o_t o)) x) (sig o x)) (seq lo (S (hi - lo)))))
      as (mn & Emn); [discriminate|].
    destruct (np_extreme_ok Qmax_b
      (map (fun x => deviation (a, b) (at_ (r_up (o_t o)) x) (sig o x)) (seq lo (S (hi - lo)))))
      as (mx & Emx); [discriminate|].
    rewrite Emn, Emx. cbn [bind].
    eexists. exists a, b. split; [reflexivity|]. cbn [lin_fit lin_dev lin_min lin_max].
    split; [reflexivity|]. split; auto. split; [reflexivity|].
    intro NL.
    assert (G : map (fun x => deviation (a, b) (at_ (r_up (o_t o)) x) (sig o x)) (seq lo (S (hi - lo)))
                = map Some (map (rel_dev o a b) (seq lo (S (hi - lo))))).
    { rewrite map_map. apply map_ext_in. intros i I. apply in_seq in I.
      unfold deviation, qdiv_o. cbn [fst snd]. fold (photons o i).
      assert (Z : Qeq_bool (a * photons o i + b) 0 = false).
      { apply Qeq_bool_false. apply NL. lia. }
      rewrite Z. reflexivity. }
    rewrite G in Emn, Emx.
    destruct (np_min_spec (map (rel_dev o a b) (seq lo (S (hi - lo))))) as (r1 & A1 & A2 & A3); [discriminate|].
    destruct (np_max_spec (map (rel_dev o a b) (seq lo (S (hi - lo))))) as (r2 & B1 & B2 & B3); [discriminate|].
    rewrite A1 in Emn. rewrite B1 in Emx. injection Emn as <-. injection Emx as <-.
    exists r1, r2. split; [reflexivity|]. split; [reflexivity|]. split; [|split].
    + intros i H. split; [apply A3|apply B3]; apply in_map; apply in_seq; lia.
    + apply in_map_iff in A2. destruct A2 as (i & A2 & I). apply in_seq in I. exists i. split; [lia|auto].
    + apply in_map_iff in B2. destruct B2 as (i & B2 & I). apply in_seq in I. exists i. split; [lia|auto].
Qed.

Lemma linearity_figures o n lo hi :
  shaped o n -> index_linearity_min o = Ok lo -> index_linearity_max o = Ok hi ->
  (forall i, in_range lo hi i -> ~ sig o i == 0) ->
  (exists i j, in_range lo hi i /\ in_range lo hi j /\ ~ photons o i == photons o j) ->
  exists l a b, linearity o = Ok l /\ lin_fit l = Some (a, b) /\
    best_relative_line (photons o) (sig o) lo hi a b /\
    length (lin_dev l) = n /\
    (forall i, (i < n)%nat -> ~ a * photons o i + b == 0 ->
       nth_error (lin_dev l) i = Some (Some (rel_dev o a b i))) /\
    ((forall i, in_range lo hi i -> ~ a * photons o i + b == 0) ->
     exists mn mx, LE_min o = Ok (Some mn) /\ LE_max o = Ok (Some mx) /\
       (forall i, in_range lo hi i -> mn <= rel_dev o a b i <= mx) /\
       (exists i, in_range lo hi i /\ mn = rel_dev o a b i) /\
       (exists i, in_range lo hi i /\ mx = rel_dev o a b i)).
Proof.
  intros SH E1 E2 NZ D.
  destruct (linearity_fit o n lo hi SH E1 E2 NZ D) as (l & a & b & EL & EF & B & ED & X).
  exists l, a, b. split; auto. split; auto. split; auto. split; [|split].
  - rewrite ED, map_length, seq_length. reflexivity.
  - intros i Hi N. rewrite ED.
    rewrite nth_error_nth' with (d := None) by (rewrite map_length, seq_length; auto).
    rewrite nth_map_seq by auto. f_equal. unfold deviation, qdiv_o. cbn [fst snd].
    assert (F : Qeq_bool (a * photons o i + b) 0 = false) by (apply Qeq_bool_false; auto).
    rewrite F. reflexivity.
  - intro NL. destruct (X NL) as (mn & mx & M1 & M2 & R). exists mn, mx. split; [|split; auto].
    + unfold LE_min. rewrite EL. simpl. rewrite M1. reflexivity.
    + unfold LE_max. rewrite EL. simpl. rewrite M2. reflexivity.
Qed.

Lemma linearity_exact o n lo hi c d :
  shaped o n -> index_linearity_min o = Ok lo -> index_linearity_max o = Ok hi ->
  (forall i, in_range lo hi i -> ~ sig o i == 0) ->
  (exists i j, in_range lo hi i /\ in_range lo hi j /\ ~ photons o i == photons o j) ->
  (forall i, in_range lo hi i -> sig o i == c * photons o i + d) ->
  exists l a b mn mx, linearity o = Ok l /\ lin_fit l = Some (a, b) /\ a == c /\ b == d /\
    LE_min o = Ok (Some mn) /\ LE_max o = Ok (Some mx) /\ mn == 0 /\ mx == 0.
Proof.
  intros SH E1 E2 NZ D EX.
  destruct (linearity_fit o n lo hi SH E1 E2 NZ D) as (l & a & b & EL & EF & B & _ & X).
  assert (LH : (lo <= hi)%nat) by (destruct D as (i & _ & Hi & _); unfold in_range in Hi; lia).
  destruct (best_relative_exact (photons o) (sig o) lo hi a b c d B) as (Ea & Eb).
  { intros i Hi. apply EX. unfold in_range. lia. }
  destruct X as (mn & mx & M1 & M2 & _ & (i & Hi & V1) & (j & Hj & V2)).
  { intros i Hi. rewrite Ea, Eb, <- EX by auto. apply NZ. auto. }
  assert (Z : forall i, in_range lo hi i -> rel_dev o a b i == 0).
  { intros k Hk. unfold rel_dev. rewrite Ea, Eb, <- EX by auto. field. apply NZ. auto. }
  exists l, a, b, mn, mx. repeat split; auto.
  - unfold LE_min. rewrite EL. simpl. rewrite M1. reflexivity.
  - unfold LE_max. rewrite EL. simpl. rewrite M2. reflexivity.
  - rewrite V1. auto.
  - rewrite V2. auto.
Qed.
