(** A generated data set with random deliveries: a camera of any number of pixels. *)
From Coq Require Import Ascii String List Bool Arith ZArith QArith Qreals Reals Lia Lra Permutation Sorting.Sorted FunctionalExtensionality.
From Verif Require Import Base_Prelude Base_Str Base_Num Base_Order Base_Float Base_Sum Base_SumR Base_Xreal Model_Path Model_Parser Model_Images
  Model_Loader Model_Data Model_Results Model_Emva Model_Camera Model_Points Model_Dataset Model_Generated
  Spec_Parser Spec_Images Spec_Data Spec_Results Spec_Camera Spec_Dataset Spec_Points Spec_Generated
  Spec_Chance Spec_Linear Spec_Any Spec_Near Spec_Emva Spec_Whole Spec_RandomRun
  Proofs_Str Proofs_Parser Proofs_Parser2 Proofs_Camera Proofs_Camera2 Proofs_Dataset Proofs_Dataset2 Proofs_Dataset3 Proofs_Emva Proofs_Emva3 Proofs_Emva4 Proofs_Emva5
  Proofs_Near2 Proofs_Near3 Proofs_Near4 Proofs_Figures3 Proofs_Whole Proofs_Run Proofs_Run2 Proofs_Run3.
Import ListNotations.
Set Bullet Behavior "Strict Subproofs".
Local Arguments feq : simpl never.

(** ** Images that agree on their pixels *)
Definition agree (h w : nat) (A B : image) : Prop :=
  ih A = ih B /\ iw A = iw B /\ forall r c, (r < h)%nat -> (c < w)%nat -> px A r c = px B r c.

Section Agree.
Context {W : Type} (C : chance W) (S S' : W -> list image) (h w : nat).
Hypothesis AG : forall o, Forall2 (agree h w) (S o) (S' o).

Lemma grey_agree l r c : (r < h)%nat -> (c < w)%nat -> (fun o => grey l r c (S' o)) = (fun o => grey l r c (S o)).
Proof.
  intros Hr Hc. apply functional_extensionality. intro o. unfold grey. f_equal.
  generalize (AG o). generalize (S o) (S' o). clear - Hr Hc. intros s s' F. revert l.
  induction F as [|A B s s' (_ & _ & E) F IH]; intros [|l]; cbn [nth]; auto. symmetry. auto.
Qed.
Lemma change_agree r c : (r < h)%nat -> (c < w)%nat -> (fun o => change r c (S' o)) = (fun o => change r c (S o)).
Proof.
  intros Hr Hc. unfold change. pose proof (grey_agree 0 r c Hr Hc) as A. pose proof (grey_agree 1 r c Hr Hc) as B.
  apply functional_extensionality. intro o.
  rewrite (equal_f A o : grey 0 r c (S' o) = _), (equal_f B o : grey 1 r c (S' o) = _). reflexivity.
Qed.
Lemma length_agree o : length (S' o) = length (S o).
Proof. generalize (AG o). generalize (S o) (S' o). clear. induction 1; cbn [length]; auto. Qed.

Local Open Scope R_scope.
Lemma grey2_agree l r c l' r' c' : (r < h)%nat -> (c < w)%nat -> (r' < h)%nat -> (c' < w)%nat ->
  (fun o => grey l r c (S' o) * grey l' r' c' (S' o)) = (fun o => grey l r c (S o) * grey l' r' c' (S o)).
Proof.
  intros. apply functional_extensionality. intro o.
  rewrite (equal_f (grey_agree l r c ltac:(assumption) ltac:(assumption)) o : grey l r c (S' o) = _).
  rewrite (equal_f (grey_agree l' r' c' ltac:(assumption) ltac:(assumption)) o : grey l' r' c' (S' o) = _). reflexivity.
Qed.
Lemma change2_agree r c : (r < h)%nat -> (c < w)%nat ->
  (fun o => change r c (S' o) * change r c (S' o)) = (fun o => change r c (S o) * change r c (S o)).
Proof.
  intros. apply functional_extensionality. intro o.
  rewrite (equal_f (change_agree r c ltac:(assumption) ltac:(assumption)) o : change r c (S' o) = _). reflexivity.
Qed.
Lemma change4_agree r c r' c' : (r < h)%nat -> (c < w)%nat -> (r' < h)%nat -> (c' < w)%nat ->
  (fun o => change r c (S' o) * change r c (S' o) * (change r' c' (S' o) * change r' c' (S' o))) =
  (fun o => change r c (S o) * change r c (S o) * (change r' c' (S o) * change r' c' (S o))).
Proof.
  intros. apply functional_extensionality. intro o.
  rewrite (equal_f (change_agree r c ltac:(assumption) ltac:(assumption)) o : change r c (S' o) = _).
  rewrite (equal_f (change_agree r' c' ltac:(assumption) ltac:(assumption)) o : change r' c' (S' o) = _). reflexivity.
Qed.

Lemma series_agree L mu drift s2 : random_series C S L h w mu drift s2 -> random_series C S' L h w mu drift s2.
Proof.
  intros [A1 A2 A3 A4 A5 A6]. constructor.
  - intro o. rewrite length_agree. apply A1.
  - intros. rewrite grey_agree by assumption. apply A2; assumption.
  - intros. rewrite grey2_agree by assumption. apply A3; assumption.
  - intros. rewrite grey_agree by assumption. apply A4; assumption.
  - intros. rewrite grey_agree by assumption. apply A5; assumption.
  - intros. rewrite !grey_agree by assumption. apply A6; assumption.
Qed.
Lemma noisy_agree mu s2 V M : noisy_pair C S h w mu s2 V M -> noisy_pair C S' h w mu s2 V M.
Proof.
  intros [A1 A2 A3 A4 A5 A6]. constructor.
  - apply series_agree, A1.
  - exact A2.
  - intros. rewrite change2_agree by assumption. apply A3; assumption.
  - intros. rewrite change4_agree by assumption. apply A4; assumption.
  - intros. rewrite change4_agree by assumption. apply A5; assumption.
  - intros. rewrite !change2_agree by assumption. apply A6; assumption.
Qed.
Lemma true_agree V M m v : true_pair C S h w V M m v -> true_pair C S' h w V M m v.
Proof.
  intros (OK & mu & s2 & NP & E1 & E2). split; [|exists mu, s2; split; [apply noisy_agree, NP|auto]].
  intros o A B E. pose proof (AG o) as F. rewrite E in F.
  inversion F as [|A' B1 l l' (G1 & G2 & G3) F1 E3]; subst. inversion F1 as [|B' B2 l1 l2 (H1 & H2 & H3) F2 E4]; subst.
  inversion F2; subst. symmetry in E3. pose proof (OK o _ _ E3) as (P1 & P2 & P3 & P4 & P5 & P6 & P7).
  split; [auto|]. split; [auto|]. split; [congruence|]. split; [congruence|]. split; [congruence|]. split; [congruence|].
  inversion P7 as [|? ? Q1 P8]; subst. inversion P8 as [|? ? Q2 _]; subst.
  constructor; [|constructor; [|constructor]]; intros r c Hr Hc; rewrite <- ?G3, <- ?H3 by assumption; auto.
Qed.
Lemma simulated_agree s L : simulated C s S L h w -> simulated C s S' L h w.
Proof.
  intros [A1 A2 A3]. constructor.
  - intro o. rewrite length_agree. apply A1.
  - intros l r c Hl Hr Hc. destruct (A2 l r c Hl Hr Hc) as (t & i & n & u & B1 & B2 & B3 & B4 & B5).
    exists t, i, n, u. split; [auto|]. split; [auto|]. split; [auto|]. split; [auto|].
    intro o. rewrite (equal_f (grey_agree l r c ltac:(assumption) ltac:(assumption)) o : grey l r c (S' o) = _). apply B5.
  - intros. rewrite grey2_agree, !grey_agree by assumption. apply A3; assumption.
Qed.
End Agree.
