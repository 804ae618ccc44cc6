(** Proofs for C93. *)
From Coq Require Import ZArith QArith Reals Qreals Lia Lra.
From Coquelicot Require Import Coquelicot.
From Flocq Require Import Core.
From Verif Require Import Base_Prelude Base_Num Base_Float Model_Images Model_Camera Model_Digit Spec_Digit Proofs_Round Proofs_Camera.
Open Scope R_scope.

Lemma frac_range y : 0 <= frac y < 1.
Proof. unfold frac. pose proof (Zfloor_lb y). pose proof (Zfloor_ub y). lra. Qed.

Lemma img_max_nonneg bits : (0 <= img_max bits)%Z.
Proof. unfold img_max. pose proof (Z.pow_pos_nonneg 2 (Z.of_nat bits) eq_refl ltac:(lia)). lia. Qed.

Section Step.
Variables (bits : nat) (K e offset : R).
Let y := K * e + offset.
Let n := Zfloor y.
Let f := frac y.
Hypothesis H : 0 <= y <= IZR (img_max bits).

Let Fr := frac_range y.
Let Yn : y = IZR n + f.
Proof. unfold n, f, frac. ring. Qed.
Let N0 : (0 <= n <= img_max bits)%Z.
Proof.
  unfold n. split; [apply Zfloor_lub; simpl; lra|].
  apply le_IZR. eapply Rle_trans; [apply Zfloor_lb|]. lra.
Qed.

Lemma low u : - (1 / 2) < u < 1 / 2 - f -> digitise bits K e offset u = n.
Proof.
  intros Hu. unfold digitise. replace (ZnearestE (K * e + u + offset)) with n; [lia|].
  symmetry. apply Znearest_imp. replace (K * e + u + offset) with (y + u) by (unfold y; ring).
  rewrite Yn. fold f in Fr. apply Rabs_def1; lra.
Qed.
Lemma high u : 1 / 2 - f < u < 1 / 2 -> digitise bits K e offset u = (n + 1)%Z.
Proof.
  intros Hu. fold f in Fr. unfold digitise.
  assert (M : (n + 1 <= img_max bits)%Z).
  { assert (n < img_max bits)%Z; [|lia]. apply lt_IZR. lra. }
  replace (ZnearestE (K * e + u + offset)) with (n + 1)%Z; [lia|].
  symmetry. apply Znearest_imp. replace (K * e + u + offset) with (y + u) by (unfold y; ring).
  rewrite Yn, plus_IZR. apply Rabs_def1; lra.
Qed.

(** The integral of a function of the digital value. *)
Lemma step_integral (g : Z -> R) :
  is_RInt (fun u => g (digitise bits K e offset u)) (- (1 / 2)) (1 / 2) ((1 - f) * g n + f * g (n + 1)%Z).
Proof.
  fold f in Fr.
  replace ((1 - f) * g n + f * g (n + 1)%Z) with (plus (scal (1 / 2 - f - - (1 / 2)) (g n)) (scal (1 / 2 - (1 / 2 - f)) (g (n + 1)%Z))).
  2:{ unfold plus, scal; simpl. unfold mult; simpl. lra. }
  apply (@is_RInt_Chasles R_NormedModule _ _ (1 / 2 - f)).
  - apply (@is_RInt_ext R_NormedModule (fun _ => g n)); [|apply (@is_RInt_const R_NormedModule)].
    intros u. rewrite Rmin_left, Rmax_right by lra. intros Hu. rewrite low by exact Hu. reflexivity.
  - apply (@is_RInt_ext R_NormedModule (fun _ => g (n + 1)%Z)); [|apply (@is_RInt_const R_NormedModule)].
    intros u. rewrite Rmin_left, Rmax_right by lra. intros Hu. rewrite high by exact Hu. reflexivity.
Qed.

Lemma digit_mean : mean_over_draw (fun u => IZR (digitise bits K e offset u)) y.
Proof.
  unfold mean_over_draw. replace y with ((1 - f) * IZR n + f * IZR (n + 1)).
  - apply (step_integral IZR).
  - rewrite plus_IZR, Yn. ring.
Qed.
Lemma digit_variance :
  variance_over_draw (fun u => IZR (digitise bits K e offset u)) y (frac y * (1 - frac y)).
Proof.
  unfold variance_over_draw, mean_over_draw. fold f.
  replace (f * (1 - f)) with ((1 - f) * ((IZR n - y) * (IZR n - y)) + f * ((IZR (n + 1) - y) * (IZR (n + 1) - y))).
  - apply (step_integral (fun z => (IZR z - y) * (IZR z - y))).
  - rewrite plus_IZR, Yn. ring.
Qed.
End Step.

(** Over one grey value: 1/6. *)
Lemma average_sixth (m : Z) : is_RInt (fun y => frac y * (1 - frac y)) (IZR m) (IZR m + 1) (1 / 6).
Proof.
  apply (@is_RInt_ext R_NormedModule (fun y => (y - IZR m) * (1 - (y - IZR m)))).
  - intros y. rewrite Rmin_left, Rmax_right by lra. intros Hy.
    assert (E : Zfloor y = m) by (apply Zfloor_imp; rewrite plus_IZR; lra).
    unfold frac. rewrite E. reflexivity.
  - pose (G := fun y : R => (y - IZR m) * (y - IZR m) / 2 - (y - IZR m) * (y - IZR m) * (y - IZR m) / 3).
    replace (1 / 6) with (minus (G (IZR m + 1)) (G (IZR m))).
    2:{ unfold minus, plus, opp, G; simpl. field. }
    apply (@is_RInt_derive R_CompleteNormedModule G).
    + intros x _. unfold G. auto_derive; [exact I|]. field.
    + intros x _. apply (ex_derive_continuous (fun y => (y - IZR m) * (1 - (y - IZR m)))).
      auto_derive. exact I.
Qed.

Lemma not_twelfth : exists bits K e offset,
  0 <= K * e + offset <= IZR (img_max bits) /\
  forall v, variance_over_draw (fun u => IZR (digitise bits K e offset u)) (K * e + offset) v -> v <> 1 / 12.
Proof.
  exists 8%nat, 1, 10, 0.
  assert (Hr : 0 <= 1 * 10 + 0 <= IZR (img_max 8)) by (change (img_max 8) with 255%Z; lra).
  split; [exact Hr|]. intros v Hv.
  assert (E := digit_variance 8 1 10 0 Hr).
  assert (F : frac (1 * 10 + 0) = 0).
  { unfold frac. replace (1 * 10 + 0) with (IZR 10) by ring. rewrite Zfloor_IZR. ring. }
  rewrite F in E. unfold variance_over_draw, mean_over_draw in *.
  apply (@is_RInt_unique R_CompleteNormedModule) in Hv. apply (@is_RInt_unique R_CompleteNormedModule) in E.
  rewrite E in Hv. lra.
Qed.

(** ** The binary64 model *)
Lemma rint_nearest (q : Q) : q_rint q = ZnearestE (Q2R q).
Proof. unfold q_rint. rewrite zdiv_rne_spec by lia. reflexivity. Qed.

Lemma pixel_digitise c t l d n u e k b q :
  (c_bits c <= 53)%nat -> c_K c = FFin k -> c_blackoffset c = FFin b ->
  fclip fzero (c_u_esat c) (fadd (f_int (wrap64 (t + l))) (fadd d n)) = FFin e ->
  fadd (fadd (fmul (FFin k) (FFin e)) (FFin u)) (FFin b) = FFin q ->
  (q == k * e + u + b)%Q ->
  pixel c t l d n (FFin u) = Some (digitise (c_bits c) (Q2R k) (Q2R e) (Q2R b) (Q2R u)).
Proof.
  intros Hb EK Eb Ee Eq Hq. unfold pixel. rewrite EK, Eb, Ee, Eq.
  destruct (digitize (c_bits c) (FFin q) Hb ltac:(discriminate)) as (z & E & _ & V).
  rewrite E. f_equal. destruct V as [(F & _)|[(F & _)|(q' & F & ->)]]; try discriminate F.
  injection F as <-. unfold digitise. rewrite rint_nearest.
  rewrite (Qeq_eqR _ _ Hq), !Q2R_plus, Q2R_mult. reflexivity.
Qed.
