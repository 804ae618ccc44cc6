(** A case for C117. *)
From Coq Require Import List Bool Arith ZArith QArith Qreals Reals Lia Lra.
From Verif Require Import Base_Prelude Base_Num Model_Images Model_Data Model_Results Spec_Results Spec_Linear Spec_Near
  Spec_Straight Proofs_Straight2.
From Verif Require Props_Results.
Import ListNotations.
Open Scope R_scope.

(** Signals 10, 21 and 29 in the light 10, 20 and 30. *)
Definition bent_data : robj :=
  mkObj (mkRT [1; 2; 3; 4; 5]%Q [10; 20; 30; 40; 50]%Q [15; 26; 34; 46; 46]%Q [2; 3; 4; 5; 1]%Q
    [5; 5; 5; 5; 5]%Q [1; 1; 1; 1; 1]%Q) Props_Results.sample_s None None.
Lemma bent_range :
  shaped bent_data 5 /\ index_linearity_min bent_data = Ok 0%nat /\ index_linearity_max bent_data = Ok 2%nat /\
  (forall i, in_range 0 2 i -> ~ (sig bent_data i == 0)%Q) /\
  (exists i j, in_range 0 2 i /\ in_range 0 2 j /\ ~ (photons bent_data i == photons bent_data j)%Q) /\
  sqrt (INR 3) * (1 / 21) < 1 /\
  (forall i, in_range 0 2 i -> Rabs (Q2R (sig bent_data i) - (1 * Q2R (photons bent_data i) + 0)) <= 1 / 21 * Rabs (Q2R (sig bent_data i))).
Proof.
  split; [repeat split|]. split; [reflexivity|]. split; [reflexivity|]. unfold in_range. repeat apply conj.
  - intros i Hi. do 3 (destruct i as [|i]; [intros E; discriminate E|]). lia.
  - exists 0%nat, 1%nat. repeat split; try lia. intros E. discriminate E.
  - assert (S : sqrt (INR 3) <= 2).
    { rewrite <- (sqrt_square 2) by lra. apply sqrt_le_1_alt. cbn. lra. }
    assert (P := sqrt_pos (INR 3)). lra.
  - intros i Hi. do 3 (destruct i as [|i]; [unfold sig, photons, Q2R; cbn; unfold Rabs; repeat destruct (Rcase_abs _); lra|]). lia.
Qed.
Lemma bent_reported : exists mn mx, LE_min bent_data = Ok (Some mn) /\ LE_max bent_data = Ok (Some mx).
Proof.
  destruct bent_range as (H1 & H2 & H3 & H4 & H5 & H6 & H7).
  destruct (error_line bent_data 5 0 2 H1 H2 H3 H4 H5 1 0 (1 / 21) 3 ltac:(lia) ltac:(lra) H6 H7) as (mn & mx & A & B & _).
  exists mn, mx. split; assumption.
Qed.
