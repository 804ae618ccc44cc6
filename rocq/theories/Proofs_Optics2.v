(** Dark current and light of the simulated camera. *)
From Coq Require Import Arith ZArith Reals Lra.
From Verif Require Import Base_Prelude Base_SumR Base_Xreal Model_Optics Spec_Optics Spec_Optics2 Proofs_Optics.
Open Scope R_scope.

Lemma therm_eq o T : o_temperature_doubling o <> 0 ->
  u_therm o (Some T) = Ok (o_dark_current_ref o
    * Rpower 2 ((T - o_temperature_ref o) / o_temperature_doubling o) * o_exposure o / 10 ^ 9).
Proof.
  intro H. unfold u_therm, u_i, or_default. destruct (Req_EM_T _ 0); [contradiction|]. reflexivity.
Qed.

Lemma therm_some o T u : u_therm o (Some T) = Ok u -> o_temperature_doubling o <> 0 /\
  u = o_dark_current_ref o * Rpower 2 ((T - o_temperature_ref o) / o_temperature_doubling o) * o_exposure o / 10 ^ 9.
Proof.
  intro H. assert (N : o_temperature_doubling o <> 0).
  { unfold u_therm, u_i in H. destruct (Req_EM_T _ 0); [discriminate H|auto]. }
  split; auto. rewrite therm_eq in H by auto. congruence.
Qed.

Lemma therm_none o : u_therm o None = u_therm o (Some (o_temperature o)).
Proof. reflexivity. Qed.

Lemma therm_zero o T : o_temperature_doubling o = 0 -> u_therm o T = Err ZeroDivisionError.
Proof. intro H. unfold u_therm, u_i. destruct (Req_EM_T _ 0); [reflexivity|contradiction]. Qed.

Lemma therm_reference o : o_temperature_doubling o <> 0 ->
  u_therm o (Some (o_temperature_ref o)) = Ok (o_dark_current_ref o * (o_exposure o / 10 ^ 9)).
Proof.
  intro H. rewrite therm_eq by auto. f_equal.
  replace ((o_temperature_ref o - o_temperature_ref o) / o_temperature_doubling o) with 0 by (field; auto).
  rewrite Rpower_O by lra. field.
Qed.

Lemma therm_doubles o T u : u_therm o (Some T) = Ok u ->
  u_therm o (Some (T + o_temperature_doubling o)) = Ok (2 * u).
Proof.
  intro H. destruct (therm_some _ _ _ H) as (N & ->). rewrite therm_eq by auto. f_equal.
  replace ((T + o_temperature_doubling o - o_temperature_ref o) / o_temperature_doubling o)
    with (1 + (T - o_temperature_ref o) / o_temperature_doubling o) by (field; auto).
  rewrite Rpower_plus, Rpower_1 by lra. field.
Qed.

Lemma therm_fraction o n T u v : (0 < n)%nat -> u_therm o (Some T) = Ok u ->
  u_therm o (Some (T + o_temperature_doubling o / INR n)) = Ok v -> v ^ n = 2 * u ^ n.
Proof.
  intros P H K. destruct (therm_some _ _ _ H) as (N & ->). destruct (therm_some _ _ _ K) as (_ & ->).
  assert (I : INR n <> 0) by (apply not_0_INR; intro E; subst; inversion P).
  replace ((T + o_temperature_doubling o / INR n - o_temperature_ref o) / o_temperature_doubling o)
    with (/ INR n + (T - o_temperature_ref o) / o_temperature_doubling o) by (field; auto).
  rewrite Rpower_plus. set (b := Rpower 2 ((T - _) / _)).
  replace (o_dark_current_ref o * (Rpower 2 (/ INR n) * b) * o_exposure o / 10 ^ 9)
    with (Rpower 2 (/ INR n) * (o_dark_current_ref o * b * o_exposure o / 10 ^ 9)) by field.
  rewrite Rpow_mult_distr. f_equal.
  rewrite <- Rpower_pow by (unfold Rpower; apply exp_pos).
  rewrite Rpower_mult. replace (/ INR n * INR n) with 1 by (field; auto). apply Rpower_1. lra.
Qed.

Lemma therm_increases o T T' u v : 0 < o_temperature_doubling o -> 0 < u -> T < T' ->
  u_therm o (Some T) = Ok u -> u_therm o (Some T') = Ok v -> u < v.
Proof.
  intros D P L H K. destruct (therm_some _ _ _ H) as (N & E). destruct (therm_some _ _ _ K) as (_ & E').
  set (a := Rpower 2 ((T - _) / _)) in E. set (b := Rpower 2 ((T' - _) / _)) in E'.
  assert (A : 0 < a) by (unfold a, Rpower; apply exp_pos).
  assert (C : a < b).
  { apply Rpower_lt; [lra|]. unfold Rdiv. apply Rmult_lt_compat_r; [apply Rinv_0_lt_compat; auto|lra]. }
  set (s := o_dark_current_ref o * o_exposure o / 10 ^ 9).
  assert (E1 : u = s * a) by (rewrite E; unfold s; field).
  assert (E2 : v = s * b) by (rewrite E'; unfold s; field).
  assert (S : 0 < s).
  { destruct (Rlt_le_dec 0 s) as [|Q]; auto. exfalso. assert (s * a <= 0 * a) by (apply Rmult_le_compat_r; lra). lra. }
  rewrite E1, E2. apply Rmult_lt_compat_l; auto.
Qed.

Lemma therm_exposure o k T u : u_therm o (Some T) = Ok u ->
  u_therm (at_exposure o (k * o_exposure o)) (Some T) = Ok (k * u).
Proof.
  intro H. destruct (therm_some _ _ _ H) as (N & ->). rewrite therm_eq by exact N.
  f_equal. cbn [o_dark_current_ref o_exposure o_temperature_ref o_temperature_doubling at_exposure]. field.
Qed.

(** ** The documented meaning *)

(** The camera of the default settings, with one pixel. *)
Definition default_camera : optics :=
  mkOpt 1 1 1 (fun _ => 550) (fun _ _ _ => / 2) (fun _ _ => 1) (/ 10) 1000000 25 8 22 30 8 30 255.

Lemma documented_temperature : exists o u, works o /\
  u_therm o (Some (o_temperature_doubling o)) = Ok u /\
  0 < o_dark_current_ref o /\ u < o_dark_current_ref o * (o_exposure o / 10 ^ 9) / 4.
Proof.
  exists default_camera.
  eexists. split; [|split; [apply therm_eq; cbn; lra|]].
  - unfold works, qe_total. cbn. repeat split; try lra; auto.
  - cbn [o_dark_current_ref o_exposure o_temperature_ref o_temperature_doubling default_camera]. split; [lra|].
    assert (C : Rpower 2 ((8 - 30) / 8) < / 4).
    { replace (/ 4) with (Rpower 2 (- (2))).
      - apply Rpower_lt; lra.
      - rewrite Rpower_Ropp. replace 2 with (INR 2) at 2 by (simpl; lra). rewrite Rpower_pow by lra. simpl. lra. }
    lra.
Qed.

(** ** Units of the light *)
Lemma photons_units t r area w f :
  get_photons t (XR r) area w f
  = XR (standard_photons (standard_irradiance r f) area t w * (w / 10 ^ 13)).
Proof.
  unfold get_photons, standard_photons, standard_irradiance, nano, pico, planck, light_speed.
  cbn [xmul]. f_equal. pose proof (lens_pos f). field. lra.
Qed.

Lemma photons_not_standard : exists t r area w f p, 0 < t /\ 0 < r /\ 0 < area /\ 0 < w /\ 0 < f /\
  get_photons t (XR r) area w f = XR p /\ p < standard_photons (standard_irradiance r f) area t w / 10 ^ 10.
Proof.
  exists 1000000, 1, 25, 550, 8. eexists. repeat (split; [lra|]). split; [apply photons_units|].
  assert (P : 0 < standard_photons (standard_irradiance 1 8) 25 1000000 550).
  { unfold standard_photons, standard_irradiance. pose proof PI_RGT_0.
    repeat first [lra | apply Rdiv_lt_0_compat | apply Rmult_lt_0_compat | apply pow_lt]. }
  set (p := standard_photons _ _ _ _) in *. lra.
Qed.

(** ** Light signal *)
Lemma light_electrons o r f : (forall l, (l < o_n o)%nat -> o_wave o l <> 0) -> forall i j,
  u_e o (fun i j l => XR (r i j l)) f i j
  = XR (electrons o (fun i j l => photons_on (irradiance (r i j l) (or_default f (o_f_number o)) (o_wave o l / 10 ^ 9))
                                    (o_pixel_area o / 10 ^ 12) (o_exposure o / 10 ^ 9) (o_wave o l / 10 ^ 9)) i j).
Proof.
  intros W i j. unfold u_e, electrons.
  erewrite sumX_fin; [cbn [xmul]; rewrite Rmult_comm; reflexivity|].
  intros l L. unfold cam_photons. rewrite photons_formula by auto. reflexivity.
Qed.

Lemma light_linear o r1 r2 k f : (forall l, (l < o_n o)%nat -> o_wave o l <> 0) -> forall i j,
  u_e o (fun i j l => XR (r1 i j l + k * r2 i j l)) f i j
  = xadd (u_e o (fun i j l => XR (r1 i j l)) f i j) (xmul (XR k) (u_e o (fun i j l => XR (r2 i j l)) f i j)).
Proof.
  intros W i j. rewrite !light_electrons by auto. cbn [xmul xadd]. f_equal. unfold electrons.
  induction (o_n o) as [|n IH]; cbn [sumR].
  - ring.
  - rewrite !Rmult_plus_distr_l, IH by auto. unfold photons_on, irradiance, Rdiv. ring.
Qed.

Lemma light_exposure o r k f : (forall l, (l < o_n o)%nat -> o_wave o l <> 0) -> forall i j,
  u_e (at_exposure o (k * o_exposure o)) (fun i j l => XR (r i j l)) f i j
  = xmul (XR k) (u_e o (fun i j l => XR (r i j l)) f i j).
Proof.
  intros W i j. rewrite !light_electrons by auto. cbn [xmul]. f_equal. unfold electrons.
  cbn [o_n o_prnu o_qe o_wave o_f_number o_pixel_area o_exposure at_exposure].
  clear W. induction (o_n o) as [|n IH]; cbn [sumR].
  - ring.
  - rewrite !Rmult_plus_distr_l, IH. unfold photons_on, irradiance, Rdiv. ring.
Qed.

(** Three wavelengths, two pixels. *)
Definition band_camera : optics :=
  mkOpt 1 2 3 (fun l => 450 + 100 * INR l) (fun _ j l => INR (j + l) / 10) (fun _ j => 1 - INR j / 10)
    (/ 10) 1000000 25 8 22 30 8 30 255.
Lemma band_waves l : o_wave band_camera l <> 0.
Proof. cbn [o_wave band_camera]. pose proof (pos_INR l). lra. Qed.
