(** Concrete cameras: cases and counterexamples. *)
From Coq Require Import List Bool Arith ZArith QArith Qabs Qreals Reals Lia Lqa.
From Verif Require Import Base_Prelude Base_Num Base_Order Base_Float Spec_Num Model_Images Model_Camera
  Spec_Camera Proofs_Round Proofs_Num Proofs_Float Proofs_Camera.
Import ListNotations.
Open Scope Z_scope.

Definition fi (z : Z) : pyfloat := FFin (inject_Z z).

Lemma fi_machine z : Z.abs z < 2 ^ 53 -> machine_float (fi z).
Proof.
  intro H. exists (inject_Z z). split; auto. split.
  - rewrite Q2R_inject_Z. exists z, 0. split; [simpl; ring|]. split; [auto|lia].
  - assert (E : (Qabs (inject_Z z) == inject_Z (Z.abs z))%Q) by reflexivity.
    rewrite E, <- Zlt_Qlt. eapply Z.lt_trans; [exact H|]. reflexivity.
Qed.

Lemma fi_exact y z : Z.abs (y - z) < 2 ^ 53 -> exact_difference (fi y) (fi z).
Proof.
  intro H. exists (inject_Z y), (inject_Z z). repeat split; auto.
  rewrite Q2R_minus, !Q2R_inject_Z. exists (y - z), 0. rewrite minus_IZR.
  split; [simpl; ring|]. split; [auto|lia].
Qed.

(** ** C47 *)

(** Two pixels, 8 bits; the second is far above the full well, the first far
    below zero. *)
Definition demo_cam : camera :=
  mkCam 8 1 2 (fi 1000) [fi 1; fi 2] (fi 2) [fi 0; fi 5] (fi 5) (fi 100) [fi 0; fi 0].
Definition demo_draws : draws :=
  mkDraws (Ok [0; 3]) (Ok [0; 1000]) (Ok [fi (-40); fi 7]) [FFin (1 # 4); FFin (- (1 # 4))].

Lemma demo_camera_good : good_camera demo_cam /\ good_draws demo_cam demo_draws /\
  grab demo_cam demo_draws = Ok [Some 5; Some 205].
Proof.
  split; [|split].
  - unfold good_camera. simpl. repeat split; try (eexists; reflexivity).
    + exists (inject_Z 100). split; [reflexivity|]. vm_compute. discriminate.
    + repeat constructor; eexists; reflexivity.
  - unfold good_draws. exists [0; 3], [0; 1000], [fi (-40); fi 7]. simpl.
    repeat split; auto.
    + repeat constructor; eexists; reflexivity.
    + repeat constructor; eexists; (split; [reflexivity|]); split; vm_compute; discriminate.
  - vm_compute. reflexivity.
Qed.

(** With 54 bits the largest value is no binary64 number. *)
Definition deep_cam (bits : nat) : camera :=
  mkCam bits 1 1 (fi 1000) [fi 1] (fi 1) [fi 0] (fi 0) (fi (2 ^ 60)) [fi (2 ^ 60)].
Definition quiet : draws := mkDraws (Ok [0]) (Ok [0]) (Ok [fi 0]) [fi 0].

Lemma deep_good bits : good_camera (deep_cam bits) /\ good_draws (deep_cam bits) quiet.
Proof.
  split.
  - unfold good_camera. simpl. repeat split; try (eexists; reflexivity).
    + exists (inject_Z (2 ^ 60)). split; [reflexivity|]. vm_compute. discriminate.
    + repeat constructor; eexists; reflexivity.
  - unfold good_draws. exists [0], [0], [fi 0]. simpl. repeat split; auto.
    + repeat constructor; eexists; reflexivity.
    + repeat constructor; eexists; (split; [reflexivity|]); split; vm_compute; discriminate.
Qed.

Lemma deep_overflow : exists c d z, c_bits c = 54%nat /\ good_camera c /\ good_draws c d /\
  grab c d = Ok [Some z] /\ 2 ^ Z.of_nat (c_bits c) - 1 < z.
Proof.
  exists (deep_cam 54), quiet, (2 ^ 54). destruct (deep_good 54) as (G & D).
  repeat split; try apply G; try apply D. 
Qed.

Definition full_cam : camera :=
  mkCam 64 1 1 (fi 1000) [fi 1] (fi 1) [fi 0] (fi 0) (fi (2 ^ 70)) [fi (2 ^ 70)].

Lemma deep_unspecified : exists c d, c_bits c = 64%nat /\ good_camera c /\ good_draws c d /\
  grab c d = Ok [None].
Proof.
  exists full_cam, quiet. split; [reflexivity|]. split; [|split].
  - unfold good_camera. simpl. repeat split; try (eexists; reflexivity).
    + exists (inject_Z (2 ^ 70)). split; [reflexivity|]. vm_compute. discriminate.
    + repeat constructor; eexists; reflexivity.
  - unfold good_draws. exists [0], [0], [fi 0]. simpl. repeat split; auto.
    + repeat constructor; eexists; reflexivity.
    + repeat constructor; eexists; (split; [reflexivity|]); split; vm_compute; discriminate.
  - vm_compute. reflexivity.
Qed.

(** ** C48 *)

Definition gain_cam : res camera :=
  make_camera 8 1 1 (fi 1000) (fi 10) (fi 1) (fi 17) 3 (fi 0) (fi 0) (Some (fi 8)) 3 (fi 100) None.

Lemma gain_cam_ok : exists c, gain_cam = Ok c /\ c_Ks c = [FFin 1; FFin 9; FFin 17] /\ c_K c = FFin 9.
Proof. eexists. split; [vm_compute; reflexivity|]. split; vm_compute; reflexivity. Qed.

Definition gains : list pyfloat := [fi 1; fi 9; fi 17].

Lemma gains_increasing : increasing gains.
Proof.
  unfold gains, fi. repeat (apply inc_cons || apply inc_nil);
    repeat (apply Forall_cons || apply Forall_nil); eexists; eexists; (split; [reflexivity|]);
    (split; [reflexivity|]); reflexivity.
Qed.
Lemma gains_machine : Forall machine_float gains.
Proof. repeat (apply Forall_cons || apply Forall_nil); apply fi_machine; reflexivity. Qed.
Lemma gains_exact z : Z.abs z < 2 ^ 52 -> Forall (fun a => exact_difference a (fi z)) gains.
Proof.
  intro H. repeat (apply Forall_cons || apply Forall_nil); apply fi_exact; lia.
Qed.

(** A request beyond all rounding: every distance is rounded to the same number. *)
Lemma far_request : exists Ks v r a, increasing Ks /\ Forall machine_float Ks /\ machine_float v /\
  nearest_value v Ks = Ok r /\ In a Ks /\ ~ nearer 1 v r a.
Proof.
  exists gains, (fi (10 ^ 20)), (fi 1), (fi 17).
  split; [apply gains_increasing|]. split; [apply gains_machine|]. split; [|split; [|split]].
  - exists (inject_Z (10 ^ 20)). split; auto. split; [|reflexivity].
    rewrite Q2R_inject_Z. exists (5 ^ 20), 20. split; [|split; [reflexivity|lia]].
    change (Flocq.Core.Raux.bpow Flocq.Core.Zaux.radix2 20) with (IZR (2 ^ 20)). rewrite <- mult_IZR.
    reflexivity.
  - vm_compute. reflexivity.
  - simpl. auto.
  - intros (p & q & s & E1 & E2 & E3 & L). injection E1 as <-. injection E2 as <-. injection E3 as <-.
    vm_compute in L. apply L. reflexivity.
Qed.

Lemma far_not_monotone : exists Ks v w r t, increasing Ks /\ Forall machine_float Ks /\
  machine_float v /\ machine_float w /\ below v w /\
  nearest_value v Ks = Ok r /\ nearest_value w Ks = Ok t /\ below t r.
Proof.
  exists gains, (fi 17), (fi (10 ^ 20)), (fi 17), (fi 1).
  split; [apply gains_increasing|]. split; [apply gains_machine|].
  split; [apply fi_machine; reflexivity|]. split; [|split; [|split; [|split]]].
  - exists (inject_Z (10 ^ 20)). split; auto. split; [|reflexivity].
    rewrite Q2R_inject_Z. exists (5 ^ 20), 20. split; [|split; [reflexivity|lia]].
    change (Flocq.Core.Raux.bpow Flocq.Core.Zaux.radix2 20) with (IZR (2 ^ 20)). rewrite <- mult_IZR.
    reflexivity.
  - eexists; eexists. split; [reflexivity|]. split; reflexivity.
  - vm_compute. reflexivity.
  - vm_compute. reflexivity.
  - eexists; eexists. split; [reflexivity|]. split; reflexivity.
Qed.

Lemma tie_case : nearest_value (fi 5) gains = Ok (fi 1).
Proof. vm_compute. reflexivity. Qed.
