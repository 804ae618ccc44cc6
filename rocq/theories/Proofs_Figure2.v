(** Proofs for C105: labels of the accumulated histograms. *)
From Coq Require Import Ascii String List Bool Arith ZArith QArith Lia Lqa.
From Verif Require Import Base_Prelude Base_Num Base_Sum Model_Images Model_Data Model_Results Model_Hist Model_Figure
  Spec_Hist Spec_Figure.
Import ListNotations.
Open Scope Z_scope.

(** 6 x 5 pixels; one pixel of the dark image and one of the bright image stand out. *)
Definition label_sd (f : nat -> nat -> Z) : sdata :=
  mkS (mkImg 6 5 f) 2 6 5 (Some 0%Q) (Some 0%Q) 0%Q (Some 0%Q) (Some 0%Q).
Definition label_dark (r c : nat) : Z := if ((r =? 1) && (c =? 2))%nat%bool then 50 else Z.of_nat c.
Definition label_bright (r c : nat) : Z := if ((r =? 3) && (c =? 2))%nat%bool then 1030 else 1000 + Z.of_nat c.
Definition label_obj : robj :=
  mkObj (mkRT [] [] [] [] [] []) (mkSpatial (FFin 1) (FFin 1) (label_sd label_dark) (label_sd label_bright)) None None.

Lemma label_dark_hist : match histogram_DSNU_accumulated label_obj with
  | Ok a => Qred (nth 0 (a_values a) 0) = 100 /\ (0 < length (a_values a))%nat
  | Err _ => False
  end%Q.
Proof. lazy. split; [reflexivity|lia]. Qed.
Lemma label_bright_hist : match histogram_PRNU_accumulated label_obj with
  | Ok a => map Qred (a_bins a) = [7] /\ map Qred (a_values a) = [100]
  | Err _ => False
  end%Q.
Proof. lazy. split; reflexivity. Qed.

Lemma accumulated_not_numbers : exists o a,
  histogram_DSNU_accumulated o = Ok a /\ (0 < ih (sd_sum (dark o)) * iw (sd_sum (dark o)))%nat /\
  ~ pixel_numbers (ih (sd_sum (dark o)) * iw (sd_sum (dark o))) (a_values a).
Proof.
  exists label_obj. pose proof label_dark_hist as H.
  destruct (histogram_DSNU_accumulated label_obj) as [a|]; [|contradiction]. destruct H as (H & L).
  exists a. split; [reflexivity|]. split; [cbn; lia|]. intros F.
  destruct (a_values a) as [|v vs]; [cbn in L; lia|]. inversion F as [|x y (_ & P) _]; subst. cbn in H.
  rewrite <- (Qred_correct v), H in P. revert P. vm_compute. intro P. apply P. reflexivity.
Qed.
Lemma accumulated_not_percent : exists o a,
  histogram_PRNU_accumulated o = Ok a /\
  let b := sd_sum (bright o) in let d := sd_sum (dark o) in
  shape b = (6, 5)%nat /\ shape d = (6, 5)%nat /\ sd_L (bright o) = 2%nat /\
  ~ percent_histogram 6 5 2 (fun r c => px b r c - px d r c) (a_bins a) (a_values a).
Proof.
  exists label_obj. pose proof label_bright_hist as H.
  destruct (histogram_PRNU_accumulated label_obj) as [a|]; [|contradiction]. destruct H as (HB & HV).
  exists a. split; [reflexivity|]. cbv zeta. split; [reflexivity|]. split; [reflexivity|]. split; [reflexivity|].
  destruct (a_bins a) as [|b [|b' bs]]; try discriminate HB. injection HB as HB.
  destruct (a_values a) as [|v [|v' vs]]; try discriminate HV. injection HV as HV.
  set (f := fun r c => 25 * (label_bright (r + 2) (c + 2) - label_dark (r + 2) (c + 2)) -
      block_sum 5 (fun r c => label_bright r c - label_dark r c) r c).
  intros (t & (T1 & _) & _ & _ & N & _). destruct (N 0%nat ltac:(cbn; lia)) as (E & _). clear N. cbn [nth] in E.
  assert (ET : t = 370).
  { destruct T1 as (A & B); [vm_compute; discriminate|].
    change (inject_Z t <= inject_Z 740 / 2)%Q in A. change (inject_Z 740 / 2 < inject_Z (t + 1))%Q in B.
    unfold Qle, Qlt, Qdiv, Qmult, Qinv, inject_Z in A, B. cbn in A, B. lia. }
  subst t.
  assert (Z : forall r c, (r < 2)%nat -> (c < 1)%nat ->
     Qle_bool b (inject_Z (Z.abs (f r c - 370)%Z) /
       (qn 2 * 25 * (inject_Z (sumz2 6 5 (fun r c => label_bright r c - label_dark r c)%Z) / qn (6 * 5)%nat / qn 2 / 100)))%Q = false).
  { intros r c Hr Hc. destruct (Qle_bool _ _) eqn:Q; [|reflexivity]. exfalso. apply Qle_bool_iff in Q.
    rewrite <- (Qred_correct b), HB in Q. destruct c; [|lia]. destruct r as [|[|r]]; [| |lia]; revert Q; vm_compute; intro Q; apply Q; reflexivity. }
  assert (P0 : pixels_with 2 1 (fun r c => Qle_bool b (inject_Z (Z.abs (f r c - 370)%Z) /
       (qn 2 * 25 * (inject_Z (sumz2 6 5 (fun r c => label_bright r c - label_dark r c)%Z) / qn (6 * 5)%nat / qn 2 / 100)))%Q) = 0).
  { unfold pixels_with. cbn [sumz2 sumz]. rewrite !Z by lia. reflexivity. }
  change (v == 100 * inject_Z (pixels_with 2 1 (fun r c => Qle_bool b (inject_Z (Z.abs (f r c - 370)%Z) /
       (qn 2 * 25 * (inject_Z (sumz2 6 5 (fun r c => label_bright r c - label_dark r c)%Z) / qn (6 * 5)%nat / qn 2 / 100)))%Q)) / qn (2 * 1)%nat)%Q in E.
  rewrite P0 in E. rewrite <- (Qred_correct v), HV in E. vm_compute in E. discriminate E.
Qed.
