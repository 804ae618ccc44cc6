(** Rounding errors of sums, means and variances of float64 arrays. *)
From Coq Require Import List Bool Arith ZArith QArith Qabs Qreals Reals Lia Lra Permutation.
From Flocq Require Import Core Relative.
From Verif Require Import Base_Prelude Base_Num Base_Order Base_Sum Base_Float Spec_Num Proofs_Round
  Proofs_Num Proofs_Float Model_Images Model_Loader Model_Data Model_Hist Model_Rounded
  Model_RoundedSpatial Spec_RoundedSpatial Proofs_Hist2 Proofs_Rounded Proofs_Rounded2.
Import ListNotations.
Open Scope R_scope.

Fixpoint lsumR (l : list R) : R := match l with [] => 0 | x :: l' => x + lsumR l' end.

Lemma lsumR_app a b : lsumR (a ++ b) = lsumR a + lsumR b.
Proof. induction a as [|x a IH]; simpl; [lra|]. rewrite IH. ring. Qed.
Lemma lsumR_perm a b : Permutation a b -> lsumR a = lsumR b.
Proof. induction 1; simpl; lra. Qed.
Lemma lsumR_near {A} (l : list A) f g e : (forall a, In a l -> Rabs (f a - g a) <= e) ->
  Rabs (lsumR (map f l) - lsumR (map g l)) <= INR (length l) * e.
Proof.
  induction l as [|a l IH]; intro H.
  - simpl. rewrite Rminus_0_r, Rabs_R0. lra.
  - cbn [map lsumR length]. rewrite S_INR.
    replace (f a + lsumR (map f l) - (g a + lsumR (map g l)))
      with ((f a - g a) + (lsumR (map f l) - lsumR (map g l))) by ring.
    eapply Rle_trans; [apply Rabs_triang|].
    pose proof (H a (or_introl eq_refl)). pose proof (IH (fun b Hb => H b (or_intror Hb))). lra.
Qed.
Lemma lsumR_bound {A} (l : list A) f X : (forall a, In a l -> Rabs (f a) <= X) ->
  Rabs (lsumR (map f l)) <= INR (length l) * X.
Proof.
  intro H. pose proof (lsumR_near l f (fun _ => 0) X) as B. cbv beta in B.
  assert (Z : lsumR (map (fun _ : A => 0) l) = 0).
  { clear. induction l; simpl; lra. }
  rewrite Z, Rminus_0_r in B. apply B. intros a Ha. rewrite Rminus_0_r. auto.
Qed.

(** A finite float at most [e] away from [r]. *)
Definition near (e : R) (x : pyfloat) (r : R) : Prop := exists v, fval x v /\ Rabs (v - r) <= e.

Lemma near_le e e' x r : e <= e' -> near e x r -> near e' x r.
Proof. intros H (v & V & E). exists v. split; auto. lra. Qed.
Lemma near_eq e x r r' : r = r' -> near e x r -> near e x r'.
Proof. now intros ->. Qed.

Definition top : R := IZR (2 ^ 200).
Lemma top_big : top * IZR (2 ^ 200) <= big.
Proof.
  unfold top, big. rewrite <- mult_IZR, <- Z.pow_add_r by lia. apply IZR_le.
  apply Z.pow_le_mono_r; lia.
Qed.
Lemma top_pos : 1000 <= top.
Proof. unfold top. apply IZR_le. apply Z.le_trans with (2 ^ 10)%Z; [lia|apply Z.pow_le_mono_r; lia]. Qed.
Lemma le_big x : Rabs x <= top * 10 -> Rabs x <= big.
Proof.
  intros H. eapply Rle_trans; [exact H|]. eapply Rle_trans; [|apply top_big].
  pose proof top_pos. apply Rmult_le_compat_l; [lra|]. apply IZR_le.
  apply Z.le_trans with (2 ^ 10)%Z; [lia|apply Z.pow_le_mono_r; lia].
Qed.

Section Sum.
Variables (xs : list pyfloat) (f : nat -> R) (X : R).
Hypothesis X1 : 1 <= X.
Hypothesis Xt : IZR (2 ^ 40) * X <= top.

Let u := ulp1.
Let fsum (t : stree) : R := lsumR (map f (leaves t)).
Let cnt (t : stree) : R := INR (length (leaves t)).

Lemma cnt_pos t : 1 <= cnt t.
Proof.
  unfold cnt. induction t as [i|a IHa b IHb]; [simpl; lra|].
  cbn [leaves]. rewrite app_length, plus_INR. lra.
Qed.

Lemma run_err t :
  (forall i, In i (leaves t) -> fval (nth i xs (FFin 0)) (f i) /\ Rabs (f i) <= X) ->
  2 * u * INR (chain t) <= 1 / 2 -> cnt t <= IZR (2 ^ 40) ->
  near (cnt t * X * (2 * u * INR (chain t))) (run xs t) (fsum t).
Proof.
  pose proof ulp1_pos as U. fold u in U. pose proof tiny_small as T. fold u in T.
  induction t as [i|a IHa b IHb]; intros H D C.
  - cbn [run]. exists (f i). split; [apply H; left; auto|]. unfold fsum, cnt.
    cbn [leaves map lsumR chain length INR]. rewrite Rplus_0_r. unfold Rminus. rewrite Rplus_opp_r, Rabs_R0. lra.
  - cbn [run]. cbn [chain] in D. rewrite S_INR in D.
    set (d := INR (Nat.max (chain a) (chain b))) in *.
    assert (Da : INR (chain a) <= d) by (apply le_INR; lia).
    assert (Db : INR (chain b) <= d) by (apply le_INR; lia).
    assert (Pa : 1 <= cnt a) by apply cnt_pos. assert (Pb : 1 <= cnt b) by apply cnt_pos.
    assert (Cs : cnt (SNode a b) = cnt a + cnt b).
    { unfold cnt. cbn [leaves]. rewrite app_length, plus_INR. reflexivity. }
    rewrite Cs in *.
    assert (Sa : forall i, In i (leaves a) -> In i (leaves (SNode a b))) by (intros; cbn [leaves]; apply in_or_app; auto).
    assert (Sb : forall i, In i (leaves b) -> In i (leaves (SNode a b))) by (intros; cbn [leaves]; apply in_or_app; auto).
    destruct IHa as (va & Va & Ea); [intros; apply H; auto|nra|lra|].
    destruct IHb as (vb & Vb & Eb); [intros; apply H; auto|nra|lra|].
    assert (Fa : Rabs (fsum a) <= cnt a * X).
    { unfold fsum, cnt. apply lsumR_bound. intros i Hi. apply H. auto. }
    assert (Fb : Rabs (fsum b) <= cnt b * X).
    { unfold fsum, cnt. apply lsumR_bound. intros i Hi. apply H. auto. }
    assert (Fs : fsum (SNode a b) = fsum a + fsum b).
    { unfold fsum. cbn [leaves]. rewrite map_app, lsumR_app. reflexivity. }
    rewrite Fs. set (k := cnt a + cnt b) in *.
    assert (kX : 0 <= k * X) by (unfold k; nra).
    assert (Ea' : Rabs (va - fsum a) <= cnt a * X * (2 * u * d)).
    { eapply Rle_trans; [exact Ea|]. apply Rmult_le_compat_l; nra. }
    assert (Eb' : Rabs (vb - fsum b) <= cnt b * X * (2 * u * d)).
    { eapply Rle_trans; [exact Eb|]. apply Rmult_le_compat_l; nra. }
    assert (Es : Rabs ((va + vb) - (fsum a + fsum b)) <= k * X * (2 * u * d)).
    { replace ((va + vb) - (fsum a + fsum b)) with ((va - fsum a) + (vb - fsum b)) by ring.
      eapply Rle_trans; [apply Rabs_triang|]. unfold k. lra. }
    assert (Half : k * X * (2 * u * d) <= k * X * (1 / 2)) by (apply Rmult_le_compat_l; nra).
    assert (Av : Rabs (va + vb) <= 15 / 10 * (k * X)).
    { pose proof (Rabs_triang ((va + vb) - (fsum a + fsum b)) (fsum a + fsum b)) as Q.
      replace ((va + vb) - (fsum a + fsum b) + (fsum a + fsum b)) with (va + vb) in Q by ring.
      pose proof (Rabs_triang (fsum a) (fsum b)). unfold k in *. lra. }
    exists (rn (va + vb)). split.
    + apply fadd_val; auto. apply le_big.
      assert (k * X <= top).
      { eapply Rle_trans; [|exact Xt]. apply Rmult_le_compat_r; lra. }
      pose proof top_pos. lra.
    + pose proof (rn_abs _ _ Av) as Er. fold u in Er.
      replace (rn (va + vb) - (fsum a + fsum b))
        with ((rn (va + vb) - (va + vb)) + ((va + vb) - (fsum a + fsum b))) by ring.
      eapply Rle_trans; [apply Rabs_triang|]. cbn [chain]. rewrite S_INR. fold d.
      assert (tiny <= u * (k * X) / 1000).
      { assert (1 <= k * X) by (unfold k; nra). nra. }
      nra.
Qed.
End Sum.

Lemma map_nth_seq {A} (l : list A) d : map (fun i => nth i l d) (seq 0 (length l)) = l.
Proof.
  apply nth_ext with (d := d) (d' := d); [rewrite map_length, seq_length; auto|].
  intros n Hn. rewrite map_length, seq_length in Hn.
  rewrite (nth_indep _ d (nth 0 l d)) by (rewrite map_length, seq_length; auto).
  rewrite (map_nth (fun i => nth i l d)), seq_nth by auto. reflexivity.
Qed.

Lemma leaves_some t : leaves t <> [].
Proof.
  induction t as [i|a IHa b IHb]; cbn [leaves]; [discriminate|].
  intro H. apply app_eq_nil in H. apply IHa, H.
Qed.

(** The sum over a list of items, with the error of the items. *)
Section Items.
Context {A : Type}.
Variables (l : list A) (F : A -> pyfloat) (E : A -> R) (X e : R) (t : stree) (d : R).
Hypothesis HF : forall a, In a l -> near e (F a) (E a).
Hypothesis HE : forall a, In a l -> Rabs (E a) <= X.
Hypothesis X1 : 1 <= X.
Hypothesis Xt : IZR (2 ^ 45) * X <= top.
Hypothesis He : 0 <= e <= X / 10.
Hypothesis Ht : adds_all (length l) t.
Hypothesis Hd : INR (chain t) <= d.
Hypothesis Ud : ulp1 * d <= 1 / 1000.
Hypothesis Hl : INR (length l) <= IZR (2 ^ 40).

Lemma in_leaves i : In i (leaves t) <-> (i < length l)%nat.
Proof.
  split; intro H.
  - eapply Permutation_in in H; [|exact Ht]. apply in_seq in H. lia.
  - apply Permutation_sym in Ht. eapply Permutation_in; [exact Ht|]. apply in_seq. lia.
Qed.

Lemma items_sum : near (INR (length l) * (e + 22 / 10 * (X * (ulp1 * d)))) (run (map F l) t) (lsumR (map E l)).
Proof.
  destruct l as [|a0 l0] eqn:El.
  { exfalso. assert (H : leaves t = []).
    { unfold adds_all in Ht. apply Permutation_nil. apply Permutation_sym. exact Ht. }
    exact (leaves_some t H). }
  rewrite <- El in *. clear El l0.
  (* the value of each item *)
  assert (V : exists g : nat -> R, forall i, (i < length l)%nat ->
    fval (nth i (map F l) (FFin 0)) (g i) /\ Rabs (g i - E (nth i l a0)) <= e).
  { assert (Q : forall n, (n <= length l)%nat -> exists g : nat -> R, forall i, (i < n)%nat ->
      fval (nth i (map F l) (FFin 0)) (g i) /\ Rabs (g i - E (nth i l a0)) <= e).
    { induction n as [|n IH]; intro Hn; [exists (fun _ => 0); lia|].
      destruct IH as (g & G); [lia|].
      destruct (HF (nth n l a0)) as (v & Vv & Ev); [apply nth_In; lia|].
      exists (fun i => if Nat.eq_dec i n then v else g i). intros i Hi.
      destruct (Nat.eq_dec i n) as [->|].
      - split; auto. rewrite (nth_indep _ (FFin 0) (F a0)) by (rewrite map_length; lia). rewrite map_nth. auto.
      - apply G. lia. }
    apply Q. lia. }
  destruct V as (g & G).
  pose proof ulp1_pos as U.
  assert (Gb : forall i, In i (leaves t) -> fval (nth i (map F l) (FFin 0)) (g i) /\ Rabs (g i) <= 11 / 10 * X).
  { intros i Hi. apply in_leaves in Hi. destruct (G i Hi) as (Gv & Ge). split; auto.
    pose proof (HE (nth i l a0) ltac:(apply nth_In; auto)).
    pose proof (Rabs_triang (g i - E (nth i l a0)) (E (nth i l a0))) as Q.
    replace (g i - E (nth i l a0) + E (nth i l a0)) with (g i) in Q by ring. lra. }
  assert (Lt : length (leaves t) = length l).
  { unfold adds_all in Ht. apply Permutation_length in Ht. rewrite seq_length in Ht. auto. }
  destruct (run_err (map F l) g (11 / 10 * X)) with (t := t) as (v & Vv & Ev).
  - lra.
  - eapply Rle_trans; [|exact Xt]. replace (IZR (2 ^ 45)) with (32 * IZR (2 ^ 40)).
    + pose proof (IZR_lt 0 (2 ^ 40) ltac:(lia)). nra.
    + rewrite <- mult_IZR. f_equal.
  - exact Gb.
  - nra.
  - rewrite Lt. exact Hl.
  - exists v. split; auto. rewrite Lt in Ev.
    assert (P : lsumR (map g (leaves t)) = lsumR (map g (seq 0 (length l)))).
    { apply lsumR_perm. apply Permutation_map. exact Ht. }
    rewrite P in Ev.
    assert (Q : lsumR (map E l) = lsumR (map (fun i => E (nth i l a0)) (seq 0 (length l)))).
    { rewrite <- (map_map (fun i => nth i l a0) E), map_nth_seq. reflexivity. }
    rewrite Q.
    pose proof (lsumR_near (seq 0 (length l)) g (fun i => E (nth i l a0)) e) as N. cbv beta in N.
    rewrite seq_length in N.
    assert (N' : Rabs (lsumR (map g (seq 0 (length l))) - lsumR (map (fun i => E (nth i l a0)) (seq 0 (length l))))
                 <= INR (length l) * e).
    { apply N. intros i Hi. apply in_seq in Hi. apply G. lia. }
    set (s1 := lsumR (map g (seq 0 (length l)))) in *.
    set (s2 := lsumR (map (fun i => E (nth i l a0)) (seq 0 (length l)))) in *.
    replace (v - s2) with ((v - s1) + (s1 - s2)) by ring.
    eapply Rle_trans; [apply Rabs_triang|].
    assert (Ld : 0 <= INR (length l)) by apply pos_INR.
    assert (INR (length l) * (11 / 10 * X) * (2 * ulp1 * INR (chain t)) <= INR (length l) * (22 / 10 * (X * (ulp1 * d)))).
    { replace (INR (length l) * (11 / 10 * X) * (2 * ulp1 * INR (chain t)))
        with (INR (length l) * (22 / 10 * (X * (ulp1 * INR (chain t))))) by field.
      apply Rmult_le_compat_l; auto. apply Rmult_le_compat_l; [lra|]. apply Rmult_le_compat_l; [lra|].
      apply Rmult_le_compat_l; lra. }
    lra.
Qed.

(** ... divided by [k], where the number of items is at most [c * k]. *)
Lemma items_div (k : nat) (c : R) : (0 < k)%nat -> (Z.of_nat k < 2 ^ 53)%Z -> 1 <= c <= 2 ->
  INR (length l) <= c * INR k ->
  near (c * (e + 22 / 10 * (X * (ulp1 * d))) + 12 / 10 * (c * (X * ulp1)))
    (fdiv (run (map F l) t) (f_int (Z.of_nat k))) (lsumR (map E l) / INR k).
Proof.
  intros K0 K1 Hc Hk. destruct items_sum as (v & V & Ev).
  pose proof ulp1_pos as U. pose proof tiny_small as T.
  assert (Kp : 1 <= INR k) by (change 1 with (INR 1); apply le_INR; lia).
  pose proof (lsumR_bound l E X HE) as B. set (s := lsumR (map E l)) in *. set (n := INR (length l)) in *.
  assert (n0 : 0 <= n) by apply pos_INR.
  set (w := e + 22 / 10 * (X * (ulp1 * d))) in *.
  assert (d0 : 0 <= d) by (pose proof (pos_INR (chain t)); lra).
  assert (Sm : 0 <= X * (ulp1 * d) <= X / 1000).
  { split; [apply Rmult_le_pos; [lra|apply Rmult_le_pos; lra]|]. unfold Rdiv. apply Rmult_le_compat_l; lra. }
  assert (w0 : 0 <= w <= X * 11 / 100) by (unfold w; lra).
  assert (Ik : 0 < / INR k) by (apply Rinv_0_lt_compat; lra).
  assert (nk : n * / INR k <= c).
  { apply Rmult_le_reg_r with (INR k); [lra|]. rewrite Rmult_assoc, Rinv_l by lra. lra. }
  assert (nk0 : 0 <= n * / INR k) by (apply Rmult_le_pos; lra).
  assert (E1 : Rabs (v / INR k - s / INR k) <= c * w).
  { replace (v / INR k - s / INR k) with ((v - s) * / INR k) by (unfold Rdiv; ring).
    rewrite Rabs_mult, (Rabs_pos_eq (/ INR k)) by lra.
    apply Rle_trans with (n * w * / INR k); [apply Rmult_le_compat_r; lra|].
    replace (n * w * / INR k) with (n * / INR k * w) by ring. apply Rmult_le_compat_r; lra. }
  assert (S1 : Rabs (s / INR k) <= c * X).
  { unfold Rdiv. rewrite Rabs_mult, (Rabs_pos_eq (/ INR k)) by lra.
    apply Rle_trans with (n * X * / INR k); [apply Rmult_le_compat_r; lra|].
    replace (n * X * / INR k) with (n * / INR k * X) by ring. apply Rmult_le_compat_r; lra. }
  assert (V1 : Rabs (v / INR k) <= 1111 / 1000 * (c * X)).
  { pose proof (Rabs_triang (v / INR k - s / INR k) (s / INR k)) as Q.
    replace (v / INR k - s / INR k + s / INR k) with (v / INR k) in Q by ring. nra. }
  exists (rn (v / INR k)). split.
  - rewrite INR_IZR_INZ in *. apply fdiv_val; auto.
    + apply f_int_val_exact. lia.
    + lra.
    + apply le_big. eapply Rle_trans; [exact V1|].
      assert (X <= top).
      { eapply Rle_trans; [|exact Xt]. assert (1 <= IZR (2 ^ 45)) by (apply IZR_le; lia). nra. }
      pose proof top_pos. nra.
  - pose proof (rn_abs _ _ V1) as Er.
    replace (rn (v / INR k) - s / INR k) with ((rn (v / INR k) - v / INR k) + (v / INR k - s / INR k)) by ring.
    eapply Rle_trans; [apply Rabs_triang|].
    assert (ulp1 * 1 <= ulp1 * (c * X)) by (apply Rmult_le_compat_l; nra).
    nra.
Qed.
End Items.
