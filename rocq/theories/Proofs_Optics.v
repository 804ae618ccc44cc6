(** Photons, radiance, expected signal. *)
From Coq Require Import List Bool Arith ZArith Reals Lia Lra.
From Verif Require Import Base_Prelude Base_SumR Base_Xreal Model_Optics Spec_Optics.
Import ListNotations.
Open Scope R_scope.

Lemma nano_pos : 0 < nano.
Proof. unfold nano. apply Rinv_0_lt_compat. lra. Qed.
Lemma pico_pos : 0 < pico.
Proof. unfold pico. apply Rinv_0_lt_compat. lra. Qed.
Lemma planck_pos : 0 < planck.
Proof. unfold planck. lra. Qed.
Lemma lens_pos f : 0 < 1 + (2 * f) ^ 2.
Proof. pose proof (pow2_ge_0 (2 * f)). lra. Qed.

Ltac pos := pose proof nano_pos; pose proof pico_pos; pose proof planck_pos; pose proof PI_RGT_0.

Lemma nz_mult a b : a <> 0 -> b <> 0 -> a * b <> 0.
Proof. intros. apply Rmult_integral_contrapositive_currified; auto. Qed.

Ltac nz := repeat match goal with |- _ * _ <> 0 => apply nz_mult end; solve [auto | lra].

Lemma photons_formula t r area w f : w <> 0 ->
  get_photons t (XR r) area w f
  = XR (photons_on (irradiance r f (w / 10 ^ 9)) (area / 10 ^ 12) (t / 10 ^ 9) (w / 10 ^ 9)).
Proof.
  intro W. unfold get_photons, photons_on, irradiance, photon_energy. cbn [xmul]. f_equal.
  unfold nano, pico, planck, light_speed. pose proof (lens_pos f). field. repeat split; try lra.
  
Qed.

Lemma radiance_ok t p area f w : t <> 0 -> area <> 0 -> w <> 0 ->
  get_radiance t (XR p) area f w
  = Ok (XR (p * (planck * light_speed * (1 + (2 * f) ^ 2) / (PI * (area * pico) * (t * nano))
                 / ((w * nano) * (w * nano))))).
Proof.
  intros T A W. unfold get_radiance. cbv zeta. pos.
  assert (N : PI * (area * pico) * (t * nano) <> 0) by (nz).
  destruct (Req_EM_T _ 0); [contradiction|].
  rewrite xdiv_fin by (nz). reflexivity.
Qed.

Lemma radiance_of_photons t r area f w : t <> 0 -> area <> 0 -> w <> 0 ->
  get_radiance t (get_photons t (XR r) area w f) area f w = Ok (XR r).
Proof.
  intros T A W. unfold get_photons. cbn [xmul]. rewrite radiance_ok by auto. do 2 f_equal.
  pos. pose proof (lens_pos f). unfold light_speed. field. repeat split; auto; lra.
Qed.

Lemma photons_of_radiance t p area f w : t <> 0 -> area <> 0 -> w <> 0 ->
  exists r, get_radiance t (XR p) area f w = Ok r /\ get_photons t r area w f = XR p.
Proof.
  intros T A W. eexists. split; [apply radiance_ok; auto|]. unfold get_photons. cbn [xmul]. f_equal.
  pos. pose proof (lens_pos f). unfold light_speed. field. repeat split; auto; lra.
Qed.

Lemma photons_scale k t r area w f :
  get_photons (k * t) (XR r) area w f = xmul (XR k) (get_photons t (XR r) area w f) /\
  get_photons t (XR (k * r)) area w f = xmul (XR k) (get_photons t (XR r) area w f) /\
  get_photons t (XR r) (k * area) w f = xmul (XR k) (get_photons t (XR r) area w f) /\
  get_photons t (XR r) area (2 * w) f = xmul (XR 4) (get_photons t (XR r) area w f).
Proof.
  unfold get_photons. cbn [xmul]. pos. pose proof (lens_pos f).
  repeat split; f_equal; field; unfold light_speed; repeat split; lra.
Qed.

Lemma get_radiance_needs_light t p area f w : t = 0 \/ area = 0 ->
  get_radiance t p area f w = Err ZeroDivisionError.
Proof.
  intro H. unfold get_radiance. cbv zeta. destruct (Req_EM_T _ 0) as [E|N]; auto.
  exfalso. apply N. destruct H; subst; ring.
Qed.

(** ** The requested mean *)

Lemma sumX_fin n (f : nat -> xr) (g : nat -> R) :
  (forall l, (l < n)%nat -> f l = XR (g l)) -> sumX n f = XR (sumR n g).
Proof.
  induction n as [|n IH]; intro H; [reflexivity|]. cbn [sumX sumR].
  rewrite IH by (intros; apply H; lia). rewrite H by lia. reflexivity.
Qed.

Lemma works_therm o : works o -> exists ud, u_therm o None = Ok ud.
Proof.
  intros (_ & _ & _ & _ & _ & _ & D & _). unfold u_therm, u_i.
  destruct (Req_EM_T _ 0); [contradiction|]. eexists; reflexivity.
Qed.

(** Photons per wavelength for the mean [m] at thermal signal [ud]. *)
Definition wanted (o : optics) (m ud : R) : R :=
  (m / o_gain o - ud) / INR (o_n o) / (qe_total o / (INR (o_h o) * INR (o_w o) * INR (o_n o))).

Lemma radiance_for_ok o m t ud : works o -> u_therm o None = Ok ud -> m <> 0 -> t <> 0 ->
  exists rad, get_radiance_for o (Some m) (Some t) = Ok rad /\
  forall i j l, (l < o_n o)%nat ->
    Ok (rad i j l) = get_radiance t (XR (wanted o m ud)) (o_pixel_area o) (o_f_number o) (o_wave o l).
Proof.
  intros (Hh & Hw & Hn & G & X & A & D & W & Q) U M T. unfold get_radiance_for. rewrite U. cbn [bind falsy_default].
  destruct (Req_EM_T m 0); [contradiction|]. destruct (Req_EM_T t 0); [contradiction|].
  pos. destruct (Req_EM_T _ 0) as [E|N].
  { exfalso. assert (PI * (o_pixel_area o * pico) * (t * nano) <> 0) by nz. contradiction. }
  eexists. split; [reflexivity|]. intros i j l L. cbv beta.
  apply INR_pos in Hh, Hw, Hn.
  unfold qe_mean. rewrite (xdiv_fin m) by auto. cbn [xsub xneg xadd].
  rewrite xdiv_fin by lra. rewrite (xdiv_fin (sumR _ _)) by (nz).
  rewrite xdiv_fin.
  - unfold Rminus in *. fold (qe_total o). unfold wanted, Rminus.
    destruct (get_radiance t _ (o_pixel_area o) (o_f_number o) (o_wave o l)) eqn:R; auto.
    rewrite radiance_ok in R by auto. discriminate.
  - fold (qe_total o). unfold Rdiv. apply nz_mult; auto. apply Rinv_neq_0_compat. nz.
Qed.

Lemma u_e_of o rad up : works o ->
  (forall i j l, (l < o_n o)%nat ->
     Ok (rad i j l) = get_radiance (o_exposure o) (XR up) (o_pixel_area o) (o_f_number o) (o_wave o l)) ->
  forall i j, u_e o rad None i j = XR (up * (sumR (o_n o) (fun l => o_qe o i j l) * o_prnu o i j)).
Proof.
  intros (Hh & Hw & Hn & G & X & A & D & W & Q) R i j. unfold u_e.
  rewrite (sumX_fin _ _ (fun l => up * o_qe o i j l)).
  - cbn [xmul]. rewrite sumR_scal. rewrite Rmult_assoc. reflexivity.
  - intros l L. unfold cam_photons. cbn [or_default].
    destruct (photons_of_radiance (o_exposure o) up (o_pixel_area o) (o_f_number o) (o_wave o l)) as (r & E1 & E2); auto.
    rewrite <- R with (i := i) (j := j) in E1 by auto. injection E1 as ->. rewrite E2. reflexivity.
Qed.

(** The expected signal of every pixel, averaged. *)
Lemma mean_reached o m ud : works o -> prnu_total o = qe_total o -> u_therm o None = Ok ud -> m <> 0 ->
  exists rad u, get_radiance_for o (Some m) (Some (o_exposure o)) = Ok rad /\
    (forall i j, u_e o rad None i j = XR (u i j)) /\
    average (o_h o) (o_w o) (fun i j => o_gain o * (u i j + ud)) = m.
Proof.
  intros Wk P U M. pose proof Wk as (Hh & Hw & Hn & G & X & A & D & W & Q).
  destruct (radiance_for_ok o m (o_exposure o) ud Wk U M X) as (rad & E & R).
  exists rad. eexists. split; [exact E|]. split; [apply u_e_of; auto|].
  unfold average. apply INR_pos in Hh, Hw, Hn.
  rewrite sumR2_scal.
  assert (S : sumR2 (o_h o) (o_w o)
     (fun i j => wanted o m ud * (sumR (o_n o) (fun l => o_qe o i j l) * o_prnu o i j) + ud)
     = wanted o m ud * prnu_total o + INR (o_h o) * INR (o_w o) * ud).
  { unfold sumR2, prnu_total.
    rewrite (sumR_ext (o_h o) _ (fun i => wanted o m ud * sumR (o_w o) (fun j => sumR (o_n o) (fun l => o_qe o i j l) * o_prnu o i j) + INR (o_w o) * ud)).
    - rewrite sumR_plus, sumR_scal, sumR_const. ring.
    - intros i _. rewrite sumR_plus, sumR_scal, sumR_const. reflexivity. }
  rewrite S, P. unfold wanted. field. repeat split; try lra; auto.
Qed.

Lemma uniform_prnu o : (forall i j, o_prnu o i j = 1) -> prnu_total o = qe_total o.
Proof.
  intro H. unfold prnu_total, qe_total. apply sumR_ext. intros i _. apply sumR_ext. intros j _.
  rewrite H. ring.
Qed.

(** ** Where it fails *)

(** A camera of one pixel and one wavelength of 100 nm: dark current 1e9 e/s. *)
Definition dark_camera (t : R) : optics :=
  mkOpt 1 1 1 (fun _ => 100) (fun _ _ _ => 1) (fun _ _ => 1) 1 t 25 8 22 22 8 (10 ^ 9) 255.

Lemma dark_works t : t <> 0 -> works (dark_camera t).
Proof.
  intro T. unfold works, qe_total. simpl. repeat split; auto; lra.
Qed.

Lemma dark_therm t : u_therm (dark_camera t) None = Ok t.
Proof.
  unfold u_therm, u_i. cbn [dark_camera o_temperature_doubling o_temperature o_temperature_ref o_dark_current_ref o_exposure or_default].
  destruct (Req_EM_T 8 0); [lra|]. cbn [bind]. f_equal.
  replace ((22 - 22) / 8) with 0 by field. rewrite Rpower_O by lra. field.
Qed.

(** The signal of the only pixel. *)
Lemma zero_mean_saturates : exists o rad u, works o /\ prnu_total o = qe_total o /\
  get_radiance_for o (Some 0) (Some (o_exposure o)) = Ok rad /\
  u_therm o None = Ok u /\ exists e, u_e o rad None 0%nat 0%nat = XR e /\ o_gain o * (e + u) = o_max o.
Proof.
  set (o := dark_camera 1).
  assert (Wk : works o) by (apply dark_works; lra).
  destruct (radiance_for_ok o (o_max o) (o_exposure o) 1 Wk (dark_therm 1)) as (rad & E & R).
  { simpl. lra. } { simpl. lra. }
  exists o, rad, 1. split; auto. split; [apply uniform_prnu; reflexivity|]. split; [|split; [apply dark_therm|]].
  - rewrite <- E. unfold get_radiance_for, falsy_default.
    destruct (Req_EM_T 0 0); [|lra]. destruct (Req_EM_T (o_max o) 0) as [F|F]; [simpl in F; lra|reflexivity].
  - eexists. split; [apply (u_e_of o rad _ Wk R)|]. unfold wanted, qe_total. simpl. field.
Qed.

Lemma other_exposure_misses : exists o t m rad u, works o /\ works (at_exposure o t) /\ m <> 0 /\
  get_radiance_for o (Some m) (Some t) = Ok rad /\
  u_therm (at_exposure o t) None = Ok u /\
  exists e, u_e (at_exposure o t) rad None 0%nat 0%nat = XR e /\ o_gain o * (e + u) <> m.
Proof.
  set (o := dark_camera 10). exists o, 20, 100.
  assert (Wk : works o) by (apply dark_works; lra).
  destruct (radiance_for_ok o 100 20 10 Wk (dark_therm 10)) as (rad & E & R); try lra.
  assert (Wk2 : works (at_exposure o 20)) by (apply (dark_works 20); lra).
  exists rad, 20. split; auto. split; auto. split; [lra|]. split; auto.
  split; [apply (dark_therm 20)|].
  eexists. split; [apply (u_e_of (at_exposure o 20) rad _ Wk2 R)|].
  unfold wanted, qe_total. simpl. intro F. field_simplify in F. lra.
Qed.

(** Means below the thermal signal ask for negative light. *)
Lemma negative_light : exists o m rad r, works o /\ 0 < m /\
  get_radiance_for o (Some m) (Some (o_exposure o)) = Ok rad /\
  rad 0%nat 0%nat 0%nat = XR r /\ r < 0.
Proof.
  set (o := dark_camera 10). exists o, 5.
  assert (Wk : works o) by (apply dark_works; lra).
  destruct (radiance_for_ok o 5 10 10 Wk (dark_therm 10)) as (rad & E & R); try lra.
  exists rad. specialize (R 0%nat 0%nat 0%nat ltac:(simpl; lia)).
  rewrite radiance_ok in R by (simpl; lra). injection R as R.
  eexists. split; auto. split; [lra|]. split; [exact E|]. split; [exact R|].
  pos. pose proof (lens_pos (o_f_number o)).
  assert (N : wanted o 5 10 < 0) by (unfold wanted, qe_total; simpl; lra).
  set (k := _ / _ / _).
  assert (0 < k); [|nra].
  unfold k, light_speed.
  change (o_pixel_area o) with 25. change (o_wave o 0%nat) with 100.
  assert (0 < 25 * pico) by lra. assert (0 < 10 * nano) by lra. assert (0 < 100 * nano) by lra.
  apply Rdiv_lt_0_compat; [apply Rdiv_lt_0_compat|]; repeat match goal with |- 0 < _ * _ => apply Rmult_lt_0_compat end; lra.
Qed.
