(** A small simulated camera: every pixel gets no or two light electrons by the toss of a coin. *)
From Coq Require Import List Bool Arith ZArith QArith Qreals Reals Lia Lra.
From Coquelicot Require Import Coquelicot.
From Flocq Require Import Core.
From Verif Require Import Base_Prelude Base_Sum Base_SumR Model_Images Model_Loader Model_Data Model_Results
  Model_Camera Model_Digit
  Spec_Images Spec_Data Spec_Results Spec_Chance Spec_Digit Spec_Linear Spec_Any
  Proofs_Digit Proofs_Chance2 Proofs_Linear Proofs_Any Proofs_Any2 Proofs_Any3.
Import ListNotations.
Open Scope R_scope.

(** Where the value before the quantisation is an integer, the draw decides nothing. *)
Lemma integer_fair W (C : chance W) s r c (t i : W -> Z) (n : W -> R) (z : W -> Z) :
  unclipped (IZR (img_max (st_bits s))) (st_K s) (st_offset s) (st_full s) (st_dsnu s r c) t i n ->
  (forall o, st_K s * (IZR (t o) + IZR (i o) + st_dsnu s r c + n o) + st_offset s = IZR (z o)) ->
  fair_draw C (fun o x => shown s r c (t o) (i o) (n o) x) (fun _ => 0) /\
  forall o, shown s r c (t o) (i o) (n o) 0 = IZR (z o).
Proof.
  intros U Z.
  assert (WE : forall o, well_electrons (st_full s) (st_dsnu s r c) (t o) (i o) (n o) =
     IZR (t o) + IZR (i o) + st_dsnu s r c + n o).
  { intros o. exact (electrons_free t i n _ _ _ _ _ U o). }
  assert (V : forall o, shown s r c (t o) (i o) (n o) 0 = IZR (z o)).
  { intros o. unfold shown, grab_value, digitise. rewrite WE. f_equal.
    replace (st_K s * (IZR (t o) + IZR (i o) + st_dsnu s r c + n o) + 0 + st_offset s) with (IZR (z o)) by (rewrite <- Z; ring).
    rewrite (@Zrnd_IZR ZnearestE (valid_rnd_N _)). destruct (U o) as (_ & H). cbv zeta in H. rewrite Z in H. destruct H as (H1 & H2).
    apply le_IZR in H1. apply le_IZR in H2. lia. }
  split; [|exact V].
  intros g m (F & HF & IF & <-).
  assert (E : forall o, F o = g (shown s r c (t o) (i o) (n o) 0)).
  { intros o. rewrite V. specialize (HF o). unfold mean_over_draw in HF.
    destruct (U o) as (_ & H). cbv zeta in H.
    pose proof (step_integral (st_bits s) (st_K s) (IZR (t o) + IZR (i o) + st_dsnu s r c + n o) (st_offset s) H
      (fun z => g (IZR z))) as SI.
    rewrite Z in SI. rewrite Zfloor_IZR in SI.
    apply (@is_RInt_unique R_CompleteNormedModule) in HF. apply (@is_RInt_unique R_CompleteNormedModule) in SI.
    rewrite <- HF. unfold shown, grab_value. rewrite WE. rewrite SI.
    assert (Fz : frac (IZR (z o)) = 0) by (unfold frac; rewrite Zfloor_IZR; ring).
    rewrite Fz. ring. }
  split; [eapply int_ext; [exact E|exact IF]|]. symmetry. apply exp_ext, E.
Qed.

Definition outcome : Type := bool * bool * bool * bool.
Definition mean2 (f : bool -> R) : R := (f true + f false) / 2.
Definition mean16 (f : outcome -> R) : R :=
  mean2 (fun a => mean2 (fun b => mean2 (fun c => mean2 (fun d => f (a, b, c, d))))).
Definition four_coins : chance outcome.
Proof.
  refine (mkChance _ (fun _ => True) mean16 _ _ _ _ _ _ _); try (intros; exact I); unfold mean16, mean2.
  - intros. field.
  - intros. field.
  - intros. field.
  - intros X Y _ _ H.
    repeat match goal with |- (_ + _) / 2 <= (_ + _) / 2 => apply Rmult_le_compat_r; [lra|]; apply Rplus_le_compat end; apply H.
Defined.

(** Which coin decides pixel c of image l. *)
Definition coin (l c : nat) (o : outcome) : bool :=
  let '(a, b, d, e) := o in
  match l, c with O, O => a | O, _ => b | _, O => d | _, _ => e end.
Definition bright_value (l c : nat) (o : outcome) : Z :=
  ((match c with O => 7 | _ => 13 end) + (if coin l c o then 4 else 0))%Z.
Definition coin_picture (l : nat) (o : outcome) : image := mkImg 1 2 (fun _ c => bright_value l c o).
Definition coin_pair (o : outcome) : list image := [coin_picture 0 o; coin_picture 1 o].
Definition dark_picture : image := mkImg 1 2 (fun _ c => match c with O => 7 | _ => 13 end)%Z.
Definition dark_pair (o : outcome) : list image := [dark_picture; dark_picture].

Definition small_camera (light : R) : setting :=
  mkSetting 8 2 5 100 0 (fun _ _ => light) (fun _ c => match c with O => 0 | _ => 3 end) 1 0.

Ltac split_index i := destruct i as [|[|i]]; try lia.
Lemma bright_simulated : simulated four_coins (small_camera 1) coin_pair 2 1 2.
Proof.
  constructor.
  - reflexivity.
  - intros l r c Hl Hr Hc.
    set (t := fun _ : outcome => 0%Z). set (i := fun o => if coin l c o then 2%Z else 0%Z). set (n := fun _ : outcome => 1).
    assert (DV : deliveries four_coins t i n 0 1 1 0).
    { constructor; try exact I; unfold covar, four_coins, expect, mean16, mean2, t, i, n; split_index l; split_index c;
        cbn [coin]; lra. }
    assert (UC : unclipped (IZR (img_max 8)) 2 5 100 (st_dsnu (small_camera 1) r c) t i n).
    { intros o. change (img_max 8) with 255%Z. cbv zeta. unfold t, i, n. cbn [st_dsnu small_camera].
      destruct (coin l c o); split_index c; lra. }
    exists t, i, n, (fun _ => 0). split; [exact DV|]. split; [exact UC|].
    destruct (integer_fair outcome four_coins (small_camera 1) r c t i n (bright_value l c) UC) as (F & V).
    { intros o. cbn [st_K st_dsnu st_offset small_camera]. unfold t, i, n, bright_value.
      rewrite plus_IZR. destruct (coin l c o); split_index c; lra. }
    split; [exact F|]. split.
    { exact (linear_variance_exists four_coins t i n 0 1 1 0 DV 8 2 5 100 _ UC I). }
    intros o. rewrite V. split_index l; reflexivity.
  - intros l r c l' r' c' Hl Hr Hc Hl' Hr' Hc' N. split; [exact I|].
    destruct r as [|r]; [|lia]. destruct r' as [|r']; [|lia].
    split_index l; split_index c; split_index l'; split_index c'; try (exfalso; apply N; reflexivity);
    unfold covar, four_coins, expect, mean16, mean2, grey, coin_pair, coin_picture, bright_value;
    simpl; lra.
Qed.
Lemma dark_simulated : simulated four_coins (small_camera 0) dark_pair 2 1 2.
Proof.
  constructor.
  - reflexivity.
  - intros l r c Hl Hr Hc.
    set (t := fun _ : outcome => 0%Z). set (n := fun _ : outcome => 1).
    assert (DV : deliveries four_coins t t n 0 0 1 0).
    { constructor; try exact I; unfold covar, four_coins, expect, mean16, mean2, t, n; lra. }
    assert (UC : unclipped (IZR (img_max 8)) 2 5 100 (st_dsnu (small_camera 0) r c) t t n).
    { intros o. change (img_max 8) with 255%Z. cbv zeta. unfold t, n. cbn [st_dsnu small_camera].
      split_index c; lra. }
    exists t, t, n, (fun _ => 0). split; [exact DV|]. split; [exact UC|].
    destruct (integer_fair outcome four_coins (small_camera 0) r c t t n (fun _ => match c with O => 7 | _ => 13 end)%Z UC) as (F & V).
    { intros o. cbn [st_K st_dsnu st_offset small_camera]. unfold t, n. split_index c; lra. }
    split; [exact F|]. split.
    { exact (linear_variance_exists four_coins t t n 0 0 1 0 DV 8 2 5 100 _ UC I). }
    intros o. rewrite V. split_index l; reflexivity.
  - intros l r c l' r' c' Hl Hr Hc Hl' Hr' Hc' N. split; [exact I|].
    unfold covar, four_coins, expect, mean16, mean2, grey, dark_pair, dark_picture.
    split_index l; split_index c; split_index l'; split_index c'; simpl; lra.
Qed.
Lemma coin_pair_documented o : documented 1 2 (coin_pair o).
Proof.
  split; [discriminate|]. split; [simpl; lia|]. split.
  - repeat (apply Forall_cons || apply Forall_nil); split; reflexivity.
  - repeat (apply Forall_cons || apply Forall_nil); intros r c Hr Hc; cbn [coin_picture px]; unfold bright_value;
      destruct c, (coin _ _ _); lia.
Qed.
Lemma dark_pair_documented o : documented 1 2 (dark_pair o).
Proof.
  split; [discriminate|]. split; [simpl; lia|]. split.
  - repeat (apply Forall_cons || apply Forall_nil); split; reflexivity.
  - repeat (apply Forall_cons || apply Forall_nil); intros r c Hr Hc; cbn [dark_picture px]; destruct c; lia.
Qed.
Lemma pair_of_documented A B : documented 1 2 [A; B] -> pair_ok 1 2 A B.
Proof.
  intros (_ & _ & Sh & Bi). inversion Sh as [|x l (A1 & A2) Sh']. inversion Sh' as [|y l' (B1 & B2) _].
  unfold pair_ok. split; [lia|]. split; [vm_compute; discriminate|]. auto.
Qed.

(** The same with the second image six grey values brighter. *)
Definition drift_pair (o : outcome) : list image :=
  [coin_picture 0 o; mkImg 1 2 (fun _ c => bright_value 1 c o + 6)%Z].
Lemma drift_random : random_series four_coins drift_pair 2 1 2
  (fun _ c => match c with O => 9 | _ => 15 end) (fun l => match l with O => 0 | _ => 6 end) (fun _ _ _ => 4).
Proof.
  constructor; try (intros; exact I); try reflexivity.
  - intros l r c Hl Hr Hc. split_index l; split_index c;
    unfold four_coins, expect, mean16, mean2, grey, drift_pair, coin_picture, bright_value; simpl; lra.
  - intros l r c Hl Hr Hc. split_index l; split_index c;
    unfold covar, four_coins, expect, mean16, mean2, grey, drift_pair, coin_picture, bright_value; simpl; lra.
  - intros l r c l' r' c' Hl Hr Hc Hl' Hr' Hc' N.
    destruct r as [|r]; [|lia]. destruct r' as [|r']; [|lia].
    split_index l; split_index c; split_index l'; split_index c'; try (exfalso; apply N; reflexivity);
    unfold covar, four_coins, expect, mean16, mean2, grey, drift_pair, coin_picture, bright_value;
    simpl; lra.
Qed.
Lemma drift_pair_documented o : documented 1 2 (drift_pair o).
Proof.
  split; [discriminate|]. split; [simpl; lia|]. split.
  - repeat (apply Forall_cons || apply Forall_nil); split; reflexivity.
  - repeat (apply Forall_cons || apply Forall_nil); intros r c Hr Hc; cbn [coin_picture px]; unfold bright_value;
      destruct c, (coin _ _ _); lia.
Qed.
