(** The range of the exact spatial figures. *)
From Coq Require Import List Bool Arith ZArith QArith Qabs Lia Lqa.
From Verif Require Import Base_Prelude Base_Num Base_Order Base_Sum Model_Images Model_Loader
  Model_Data Model_Rounded Model_RoundedSpatial Spec_Images Spec_Data Spec_Rounded Spec_RoundedSpatial Spec_RoundedLines
  Proofs_Images Proofs_Rounded4.
Import ListNotations.
Open Scope Q_scope.

Lemma qn_pos n : (0 < n)%nat -> 0 < qn n.
Proof. intro H. unfold qn. change 0 with (inject_Z 0). rewrite <- Zlt_Qlt. lia. Qed.
Lemma qn_le n m : (n <= m)%nat -> qn n <= qn m.
Proof. intro H. unfold qn. rewrite <- Zle_Qle. lia. Qed.
Lemma sumq_const n x : sumq n (fun _ => x) == qn n * x.
Proof.
  induction n as [|n IH]; [reflexivity|]. cbn [sumq]. rewrite IH. unfold qn. rewrite Nat2Z.inj_succ, <- Z.add_1_r, inject_Z_plus. ring.
Qed.
Lemma sumq_range n f X : (forall i, (i < n)%nat -> 0 <= f i <= X) -> 0 <= sumq n f <= qn n * X.
Proof.
  intro H. split; [apply sumq_nonneg; intros i Hi; apply H, Hi|].
  rewrite <- sumq_const. apply sumq_le. intros i Hi. apply H, Hi.
Qed.
Lemma quot_range s n X : (0 < n)%nat -> 0 <= s <= qn n * X -> 0 <= s / qn n <= X.
Proof.
  intros N (H1 & H2). apply qn_pos in N. split.
  - apply Qle_shift_div_l; [exact N|]. lra.
  - apply Qle_shift_div_r; [exact N|]. rewrite Qmult_comm. exact H2.
Qed.
Lemma sumq_mean n f X : (0 < n)%nat -> (forall i, (i < n)%nat -> 0 <= f i <= X) -> 0 <= sumq n f / qn n <= X.
Proof. intros N H. apply quot_range; [exact N|]. apply sumq_range, H. Qed.
Lemma sumq2_range h w f X : (forall r c, (r < h)%nat -> (c < w)%nat -> 0 <= f r c <= X) -> 0 <= sumq2 h w f <= qn (h * w) * X.
Proof.
  intro H. unfold sumq2.
  assert (E : qn (h * w) * X == qn h * (qn w * X)) by (unfold qn; rewrite Nat2Z.inj_mul, inject_Z_mult; ring).
  rewrite E. apply sumq_range. intros r Hr. apply sumq_range. intros c Hc. apply H; assumption.
Qed.
Lemma sq_range x y B : 0 <= x <= B -> 0 <= y <= B -> 0 <= (x - y) * (x - y) <= B * B.
Proof.
  intros H1 H2. set (d := x - y). assert (D : - B <= d <= B) by (unfold d; lra).
  assert (P : 0 <= (B - d) * (B + d)) by (apply Qmult_le_0_compat; lra). clearbody d. split.
  - destruct (Qlt_le_dec d 0); [|apply Qmult_le_0_compat; assumption].
    setoid_replace (d * d) with ((- d) * (- d)) by ring. apply Qmult_le_0_compat; lra.
  - setoid_replace ((B - d) * (B + d)) with (B * B - d * d) in P by ring. lra.
Qed.

(** Sums over a list. *)
Lemma lsumq_range l X : Forall (fun x => 0 <= x <= X) l -> 0 <= lsumq l <= qn (length l) * X.
Proof.
  induction 1 as [|x l H F IH]; [cbn; unfold qn; cbn [Z.of_nat]; change (inject_Z 0) with 0; lra|].
  cbn [lsumq length]. unfold qn in *. rewrite Nat2Z.inj_succ, <- Z.add_1_r, inject_Z_plus.
  change (inject_Z 1) with 1. lra.
Qed.
Lemma mean_list_range l X : (0 < length l)%nat -> Forall (fun x => 0 <= x <= X) l -> 0 <= mean l <= X.
Proof. intros N F. apply quot_range; [exact N|]. apply lsumq_range, F. Qed.

Section Stack.
Variables (b : Z) (h w : nat) (imgs : list image).
Hypothesis HS : stack_bits b h w imgs.
Let B : Q := inject_Z (2 ^ b).

Lemma size_pos : (0 < h)%nat /\ (0 < w)%nat.
Proof. destruct HS as (_ & _ & _ & _ & H & _). nia. Qed.
Lemma images_two : (2 <= length imgs)%nat.
Proof. destruct HS as (H & _). lia. Qed.
Lemma B_pos : 0 < B.
Proof.
  destruct HS as (_ & _ & _ & H & _). unfold B. change 0 with (inject_Z 0). rewrite <- Zlt_Qlt. apply Z.pow_pos_nonneg; lia.
Qed.
Lemma BB_pos : 0 <= B * B.
Proof. pose proof B_pos. apply Qmult_le_0_compat; lra. Qed.
Lemma grey_range r c : (r < h)%nat -> (c < w)%nat -> Forall (fun x => 0 <= x <= B) (map inject_Z (history imgs r c)).
Proof.
  intros Hr Hc. destruct HS as (_ & _ & Hb & _). pose proof (history_bits b h w imgs r c Hb Hr Hc) as F.
  apply Forall_forall. intros x Hx. apply in_map_iff in Hx. destruct Hx as (z & <- & Hz).
  rewrite Forall_forall in F. specialize (F z Hz). unfold B. change 0 with (inject_Z 0). rewrite <- !Zle_Qle. lia.
Qed.
Lemma grey_length r c : length (map inject_Z (history imgs r c)) = length imgs.
Proof. rewrite map_length. apply history_length. Qed.
Lemma avg_range r c : (r < h)%nat -> (c < w)%nat -> 0 <= avg_pixel imgs r c <= B.
Proof.
  intros Hr Hc. apply mean_list_range; [rewrite grey_length; pose proof images_two; lia|]. apply grey_range; assumption.
Qed.
Lemma pixel_var_range r c : (r < h)%nat -> (c < w)%nat -> 0 <= unbiased_var (map inject_Z (history imgs r c)) <= 2 * (B * B).
Proof.
  intros Hr Hc. unfold unbiased_var. rewrite grey_length. pose proof images_two as L2.
  set (l := map inject_Z (history imgs r c)). pose proof (grey_range r c Hr Hc) as G. fold l in G.
  assert (M : 0 <= mean l <= B) by (apply mean_list_range; [unfold l; rewrite grey_length; lia|exact G]).
  apply quot_range; [lia|].
  assert (S : 0 <= lsumq (map (fun y => (y - mean l) * (y - mean l)) l) <= qn (length imgs) * (B * B)).
  { replace (length imgs) with (length (map (fun y => (y - mean l) * (y - mean l)) l)) by (rewrite map_length; apply grey_length).
    apply lsumq_range. apply Forall_forall. intros x Hx. apply in_map_iff in Hx. destruct Hx as (y & <- & Hy).
    rewrite Forall_forall in G. apply sq_range; [apply G, Hy|exact M]. }
  assert (Q : qn (length imgs) <= qn (length imgs - 1) * 2).
  { unfold qn. change 2 with (inject_Z 2). rewrite <- inject_Z_mult, <- Zle_Qle. lia. }
  pose proof BB_pos as BB. pose proof (Qmult_le_compat_r _ _ (B * B) Q BB) as Z. destruct S as (S1 & S2). split; [exact S1|]. eapply Qle_trans; [exact S2|]. eapply Qle_trans; [exact Z|]. apply Qle_lteq. right. ring.
Qed.
Lemma temporal_range : 0 <= temporal_noise h w imgs <= 2 * (B * B).
Proof.
  unfold temporal_noise, pixel_mean. destruct size_pos. apply quot_range; [nia|]. apply sumq2_range. apply pixel_var_range.
Qed.
Lemma stack_mean_range : 0 <= stack_mean h w imgs <= B.
Proof.
  unfold stack_mean. destruct size_pos. pose proof images_two. apply quot_range; [nia|].
  assert (E : qn (length imgs * (h * w)) * B == qn (length imgs) * (qn (h * w) * B)) by (unfold qn; rewrite Nat2Z.inj_mul, inject_Z_mult; ring).
  rewrite E. rewrite <- (map_length (fun im => sumq2 h w (fun r c => inject_Z (px im r c))) imgs). apply lsumq_range.
  apply Forall_forall. intros x Hx. apply in_map_iff in Hx. destruct Hx as (im & <- & Him). apply sumq2_range. intros r c Hr Hc.
  destruct HS as (_ & _ & Hb & _). unfold bits in Hb. rewrite Forall_forall in Hb. specialize (Hb im Him r c Hr Hc).
  unfold B. change 0 with (inject_Z 0). rewrite <- !Zle_Qle. lia.
Qed.
Lemma spatial_range : 0 <= spatial_noise h w imgs <= 2 * (B * B).
Proof.
  unfold spatial_noise. destruct HS as (_ & _ & _ & _ & H & _). apply quot_range; [lia|].
  assert (S : 0 <= sumq2 h w (fun r c => (avg_pixel imgs r c - stack_mean h w imgs) * (avg_pixel imgs r c - stack_mean h w imgs))
    <= qn (h * w) * (B * B)).
  { apply sumq2_range. intros r c Hr Hc. apply sq_range; [apply avg_range; assumption|apply stack_mean_range]. }
  assert (Q : qn (h * w) <= qn (h * w - 1) * 2).
  { unfold qn. change 2 with (inject_Z 2). rewrite <- inject_Z_mult, <- Zle_Qle. lia. }
  pose proof BB_pos as BB. pose proof (Qmult_le_compat_r _ _ (B * B) Q BB) as Z. destruct S as (S1 & S2). split; [exact S1|]. eapply Qle_trans; [exact S2|]. eapply Qle_trans; [exact Z|]. apply Qle_lteq. right. ring.
Qed.
Lemma pop_range n f : (0 < n)%nat -> (forall i, (i < n)%nat -> 0 <= f i <= B) -> 0 <= pop_var n f <= B * B.
Proof.
  intros N H. unfold pop_var. apply sumq_mean; [exact N|]. intros i Hi. apply sq_range; [apply H, Hi|]. apply sumq_mean; assumption.
Qed.
Lemma share_range n : (0 < n)%nat -> 0 <= temporal_noise h w imgs / (qn (length imgs) * qn n) <= B * B.
Proof.
  intros N. pose proof images_two as L2. pose proof temporal_range as T.
  assert (E : qn (length imgs) * qn n == qn (length imgs * n)) by (unfold qn; rewrite Nat2Z.inj_mul, inject_Z_mult; reflexivity).
  rewrite E. apply quot_range; [nia|]. assert (Q : 2 <= qn (length imgs * n)) by (change 2 with (qn 2); apply qn_le; nia).
  pose proof BB_pos as BB. pose proof (Qmult_le_compat_r _ _ (B * B) Q BB). split; [apply T|]. lra.
Qed.
Lemma column_range : - (B * B) <= column_noise h w imgs <= B * B.
Proof.
  destruct size_pos as (H1 & H2). unfold column_noise. pose proof (share_range h H1) as S.
  assert (P : 0 <= pop_var w (col_mean h (avg_pixel imgs)) <= B * B).
  { apply pop_range; [exact H2|]. intros c Hc. apply sumq_mean; [exact H1|]. intros r Hr. apply avg_range; assumption. }
  lra.
Qed.
Lemma row_range : - (B * B) <= row_noise h w imgs <= B * B.
Proof.
  destruct size_pos as (H1 & H2). unfold row_noise. pose proof (share_range w H2) as S.
  assert (P : 0 <= pop_var h (row_mean w (avg_pixel imgs)) <= B * B).
  { apply pop_range; [exact H1|]. intros r Hr. apply sumq_mean; [exact H2|]. intros c Hc. apply avg_range; assumption. }
  lra.
Qed.
End Stack.
