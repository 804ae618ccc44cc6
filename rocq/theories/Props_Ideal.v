(** C90: a sensor that obeys the linear model is recovered. *)
From Coq Require Import List Bool Arith ZArith QArith Reals Qreals Rpower Lia Lra Lqa.
From Verif Require Import Base_Prelude Base_Num Base_Sum Base_Xreal Model_Images Model_Data Model_Results
  Spec_Results Spec_Ideal Proofs_Ideal.
Import ListNotations.
Open Scope R_scope.

Theorem C90_recovered :
  forall o n p eta K, linear_sensor o n p eta K ->
  fst (index_u_ysat o) = Ok (Z.of_nat p) /\
  (exists r, responsivity o = Ok r /\ (r == K * eta)%Q) /\
  (exists k, gain o = Ok k /\ (k == K)%Q) /\
  QE o = Ok (XR (100 * Q2R eta)) /\
  u_p_sat o = Ok (photons o p) /\
  u_e_sat o = Ok (XR (Q2R eta * Q2R (photons o p))) /\
  SNR_max o = Ok (XR (sqrt (Q2R eta * Q2R (photons o p)))) /\
  (exists mn mx, LE_min o = Ok (Some mn) /\ LE_max o = Ok (Some mx) /\ (mn == 0)%Q /\ (mx == 0)%Q) /\
  (exists s, sigma_y_dark o = Ok (XR s) /\ 0 < s /\
     u_e_min o = Ok (XR (s / Q2R K + 1 / 2)) /\
     u_p_min o = Ok (XR ((s / Q2R K + 1 / 2) / Q2R eta)) /\
     DR o = Ok (XR (Q2R eta * Q2R (photons o p) / (s / Q2R K + 1 / 2)))).
Proof. exact ideal_figures. Qed.
Print Assumptions C90_recovered.

Theorem C90_dark_recovered :
  forall o n p eta K offset mu var,
  linear_sensor o n p eta K -> dark_sensor o n K offset mu var ->
  u_I_mean o = Ok (XR (10 ^ 9 * Q2R mu)) /\
  u_I_var o = Ok (XR (10 ^ 9 * Q2R mu)) /\
  exists d, sigma_d o = Ok (XR d) /\ 0 <= d /\ d * d = Q2R var.
Proof. exact ideal_dark. Qed.
Print Assumptions C90_dark_recovered.

(** Quantum efficiency 50 %, gain 1/2, dark current 1/5 electron per ns, dark noise of one
    electron, offset 1; five points, the fourth saturates. *)
Open Scope Q_scope.
Definition ideal_data : rtemporal :=
  mkRT [1; 2; 3; 4; 5] [10; 20; 30; 40; 50]
       [18 # 5; 31 # 5; 44 # 5; 57 # 5; 14] [49 # 30; 44 # 15; 127 # 30; 83 # 15; 1]
       [11 # 10; 6 # 5; 13 # 10; 7 # 5; 3 # 2] [23 # 60; 13 # 30; 29 # 60; 8 # 15; 7 # 12].
Definition img0 : image := mkImg 3 4 (fun _ _ => 0%Z).
Definition ideal : robj :=
  mkObj ideal_data
    (mkSpatial (FFin 1) (FFin 10)
       (mkS img0 4 3 4 (Some 2) (Some 3) 1 (Some (1 # 2)) (Some (1 # 3)))
       (mkS img0 4 3 4 (Some 4) (Some 9) 11 (Some (3 # 2)) (Some 1))) None None.
Example C90_case : linear_sensor ideal 5 3 (1 # 2) (1 # 2) /\ dark_sensor ideal 5 (1 # 2) 1 (1 # 5) 1.
Proof.
  split; constructor; try solve [repeat split | lia | intro C; discriminate C].
  - intros i j Hij. destruct j as [|[|[|[|[|j]]]]]; destruct i as [|[|[|[|i]]]]; try lia; reflexivity.
  - intros i Hi. destruct i as [|[|[|[|i]]]]; try lia; reflexivity.
  - intros i Hi. destruct i as [|[|[|[|i]]]]; try lia; reflexivity.
  - intros i j Hij. destruct j as [|[|[|[|[|j]]]]]; destruct i as [|[|[|[|[|i]]]]]; try lia; split; discriminate.
  - intros i Hi. destruct i as [|[|[|[|[|i]]]]]; try lia; discriminate.
  - intros i j Hij Hj. destruct j as [|[|[|[|[|j]]]]]; destruct i as [|[|[|[|i]]]]; try lia; (split; discriminate).
  - exists 0%nat, 2%nat. split; [lia|]. split; discriminate.
  - intros i Hi. destruct i as [|[|[|[|[|i]]]]]; try lia; reflexivity.
  - intros i Hi. destruct i as [|[|[|[|[|i]]]]]; try lia; reflexivity.
  - intros (a & b & H). rewrite Forall_forall in H.
    assert (A := H 1%Q ltac:(simpl; auto)). assert (B := H 2%Q ltac:(simpl; auto)).
    assert (C := H 3%Q ltac:(simpl; auto)).
    destruct A as [A|A], B as [B|B], C as [C|C];
      solve [rewrite <- A in B; discriminate | rewrite <- A in C; discriminate
            | rewrite <- B in C; discriminate].
Qed.
