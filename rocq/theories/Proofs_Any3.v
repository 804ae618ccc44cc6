(** Proofs: the evaluation of simulated images on average. *)
From Coq Require Import List Bool Arith ZArith QArith Qreals Reals Lia Lra.
From Verif Require Import Base_Prelude Base_Sum Base_SumR Model_Images Model_Loader Model_Data Model_Results
  Model_Camera Model_Digit
  Spec_Images Spec_Data Spec_Results Spec_Chance Spec_Linear Spec_Any
  Proofs_Chance2 Proofs_Linear Proofs_Any Proofs_Any2.
Import ListNotations.
Open Scope R_scope.

(** ** C97 with the names of the results *)
Lemma spatial_any_obj W (C : chance W) S L h w mu drift s2 (O : W -> robj) :
  random_series C S L h w mu drift s2 -> (2 <= L)%nat -> (2 <= h * w)%nat ->
  (forall o, documented h w (S o)) ->
  ((forall o, spatial_data_of h w (S o) (sp_bright (o_s (O o)))) ->
   averages C (fun o => Q2R (sd_avg_mean (sp_bright (o_s (O o))))) (pixel_meanR h w mu + averageR L drift) /\
   averages C (fun o => Q2R (number (sigma_2_y_stack (O o))))
     (pixel_meanR h w (fun r c => averageR L (fun l => s2 l r c)) + varianceR L drift) /\
   averages C (fun o => Q2R (number (s_2_y (O o)))) (spatial_varianceR h w mu - varianceR L drift / INR L)) /\
  ((forall o, spatial_data_of h w (S o) (sp_dark (o_s (O o)))) ->
   averages C (fun o => Q2R (sd_avg_mean (sp_dark (o_s (O o))))) (pixel_meanR h w mu + averageR L drift) /\
   averages C (fun o => Q2R (number (sigma_2_y_stack_dark (O o))))
     (pixel_meanR h w (fun r c => averageR L (fun l => s2 l r c)) + varianceR L drift) /\
   averages C (fun o => Q2R (number (s_2_y_dark (O o)))) (spatial_varianceR h w mu - varianceR L drift / INR L)).
Proof.
  intros RS L2 HW DOC.
  split; intros HD; exact (spatial_results C S L h w mu drift s2 RS L2 HW DOC _ HD).
Qed.

Lemma temporal_any_obj W (C : chance W) S h w mu drift s2 (T : W -> tdata) :
  random_series C S 2 h w mu drift s2 -> (0 < h * w)%nat ->
  (forall o A B, S o = [A; B] -> pair_ok h w A B) ->
  (forall o, temporal_data_of (S o) (T o)) ->
  averages C (fun o => Q2R (td_mean (h * w) (T o))) (pixel_meanR h w mu + averageR 2 drift) /\
  averages C (fun o => Q2R (td_s2 (h * w) (T o)))
    ((1 - 1 / INR (h * w)) * pixel_meanR h w (fun r c => (s2 0%nat r c + s2 1%nat r c) / 2)).
Proof. intros RS Hn OK HT. exact (temporal_any C S 2 h w mu drift s2 RS T eq_refl Hn OK HT). Qed.

(** ** Arithmetic of arrays *)
Lemma sumR_le n f g : (forall i, (i < n)%nat -> f i <= g i) -> sumR n f <= sumR n g.
Proof.
  induction n as [|n IH]; intros H; cbn [sumR]; [lra|].
  apply Rplus_le_compat; [apply IH; intros; apply H; lia|apply H; lia].
Qed.
Lemma pixel_mean_le h w f g : (0 < h * w)%nat ->
  (forall r c, (r < h)%nat -> (c < w)%nat -> f r c <= g r c) -> pixel_meanR h w f <= pixel_meanR h w g.
Proof.
  intros Hn H. apply Rmult_le_compat_r; [apply Rlt_le, Rinv_0_lt_compat, INR_pos; assumption|].
  unfold sumR2. apply sumR_le. intros r Hr. apply sumR_le. intros c Hc. apply H; assumption.
Qed.
Lemma pixel_mean_ext h w f g :
  (forall r c, (r < h)%nat -> (c < w)%nat -> f r c = g r c) -> pixel_meanR h w f = pixel_meanR h w g.
Proof. intros H. unfold pixel_meanR. f_equal. apply sumR2_ext. exact H. Qed.
Lemma sumR2_const h w k : sumR2 h w (fun _ _ => k) = INR (h * w) * k.
Proof.
  unfold sumR2. rewrite (sumR_ext h _ (fun _ => INR w * k)) by (intros; apply sumR_const).
  rewrite sumR_const, mult_INR. ring.
Qed.
Lemma sumR_scale n k f : sumR n (fun i => k * f i) = k * sumR n f.
Proof. induction n; cbn [sumR]; [ring|rewrite IHn; ring]. Qed.
Lemma sumR2_scale h w k f : sumR2 h w (fun r c => k * f r c) = k * sumR2 h w f.
Proof. unfold sumR2. rewrite <- sumR_scale. apply sumR_ext. intros. apply sumR_scale. Qed.
Lemma pixel_mean_affine h w a k f : (0 < h * w)%nat ->
  pixel_meanR h w (fun r c => a + k * f r c) = a + k * pixel_meanR h w f.
Proof.
  intros Hn. apply INR_pos in Hn. unfold pixel_meanR.
  rewrite (sumR2_plus h w (fun _ _ => a) (fun r c => k * f r c)), sumR2_const, sumR2_scale. field. lra.
Qed.
Lemma pixel_mean_minus h w f g : pixel_meanR h w (fun r c => f r c - g r c) = pixel_meanR h w f - pixel_meanR h w g.
Proof.
  unfold pixel_meanR. rewrite (sumR2_ext h w _ (fun r c => f r c + -1 * g r c)) by (intros; ring).
  rewrite (sumR2_plus h w f (fun r c => -1 * g r c)), sumR2_scale. unfold Rdiv. ring.
Qed.
Lemma spatial_variance_affine h w a k f : (0 < h * w)%nat ->
  spatial_varianceR h w (fun r c => a + k * f r c) = k * k * spatial_varianceR h w f.
Proof.
  intros Hn. unfold spatial_varianceR. rewrite (pixel_mean_affine h w a k f Hn).
  rewrite (sumR2_ext h w _ (fun r c => k * k * ((f r c - pixel_meanR h w f) * (f r c - pixel_meanR h w f))))
    by (intros; ring).
  rewrite sumR2_scale. unfold Rdiv. ring.
Qed.

(** ** C98 *)
Section Sim.
Context {W : Type} (C : chance W) (s : setting) (S : W -> list image) (L h w : nat).
Hypothesis SM : simulated C s S L h w.

Lemma sim_pixel l r c : (l < L)%nat -> (r < h)%nat -> (c < w)%nat ->
  integrable C (fun o => grey l r c (S o)) /\
  integrable C (fun o => grey l r c (S o) * grey l r c (S o)) /\
  expect C (fun o => grey l r c (S o)) = model_mean s r c /\
  model_noise s r c <= covar C (fun o => grey l r c (S o)) (fun o => grey l r c (S o)) <= model_noise s r c + 1 / 4.
Proof.
  intros Hl Hr Hc.
  destruct (sm_pixel _ _ _ _ _ _ SM l r c Hl Hr Hc) as (t & i & n & u & DV & UC & FD & (v & VI) & G).
  pose proof (linear_mean C t i n _ _ _ _ DV _ _ _ _ _ UC) as LM.
  pose proof (linear_variance C t i n _ _ _ _ DV _ _ _ _ _ UC v VI) as LV.
  destruct VI as (m & Hm & Hv).
  assert (Em : m = model_mean s r c) by exact (mean_is_unique C _ _ _ Hm LM).
  destruct (FD (fun x => x) _ LM) as (I1 & E1).
  destruct (FD (fun x => (x - m) * (x - m)) _ Hv) as (I2 & E2).
  assert (J1 : integrable C (fun o => grey l r c (S o))) by (eapply int_ext; [intros o; symmetry; apply G|exact I1]).
  assert (F1 : expect C (fun o => grey l r c (S o)) = model_mean s r c).
  { rewrite (exp_ext C _ _ G), E1. reflexivity. }
  split; [exact J1|]. split; [|split; [exact F1|]].
  - apply (int_ext C (fun o => (shown s r c (t o) (i o) (n o) (u o) - m) * (shown s r c (t o) (i o) (n o) (u o) - m) +
       (2 * m * grey l r c (S o) + - (m * m)))).
    { intros o. rewrite G. ring. }
    apply integrable_plus; [exact I2|]. apply integrable_plus; [apply integrable_scale, J1|apply integrable_const].
  - unfold covar. rewrite F1.
    rewrite (exp_ext C _ (fun o => (shown s r c (t o) (i o) (n o) (u o) - m) * (shown s r c (t o) (i o) (n o) (u o) - m)))
      by (intros o; rewrite G, Em; reflexivity).
    rewrite E2. exact LV.
Qed.

Definition sim_noise (l r c : nat) : R := covar C (fun o => grey l r c (S o)) (fun o => grey l r c (S o)).
Lemma sim_series : random_series C S L h w (model_mean s) (fun _ => 0) sim_noise.
Proof.
  constructor.
  - apply (sm_length _ _ _ _ _ _ SM).
  - intros l r c Hl Hr Hc. apply (sim_pixel l r c Hl Hr Hc).
  - intros l r c l' r' c' Hl Hr Hc Hl' Hr' Hc'.
    destruct (Nat.eq_dec l l') as [<-|N]; [destruct (Nat.eq_dec r r') as [<-|N]; [destruct (Nat.eq_dec c c') as [<-|N]|]|];
      [apply (sim_pixel l r c Hl Hr Hc)| | |];
      apply (sm_uncorrelated _ _ _ _ _ _ SM); try assumption; congruence.
  - intros l r c Hl Hr Hc. rewrite Rplus_0_r. apply (sim_pixel l r c Hl Hr Hc).
  - reflexivity.
  - intros. apply (sm_uncorrelated _ _ _ _ _ _ SM); assumption.
Qed.
Lemma sim_noise_range l r c : (l < L)%nat -> (r < h)%nat -> (c < w)%nat ->
  model_noise s r c <= sim_noise l r c <= model_noise s r c + 1 / 4.
Proof. intros Hl Hr Hc. apply (sim_pixel l r c Hl Hr Hc). Qed.

Lemma noise_between f : (0 < h * w)%nat ->
  (forall r c, (r < h)%nat -> (c < w)%nat -> model_noise s r c <= f r c <= model_noise s r c + 1 / 4) ->
  pixel_meanR h w (model_noise s) <= pixel_meanR h w f <= pixel_meanR h w (model_noise s) + 1 / 4.
Proof.
  intros Hn H. split.
  - apply pixel_mean_le; [assumption|]. intros. apply H; assumption.
  - apply Rle_trans with (pixel_meanR h w (fun r c => 1 / 4 + 1 * model_noise s r c)).
    + apply pixel_mean_le; [assumption|]. intros r c Hr Hc. specialize (H r c Hr Hc). lra.
    + rewrite pixel_mean_affine by assumption. lra.
Qed.

Lemma zero_drift n : (0 < n)%nat -> averageR n (fun _ => 0) = 0 /\ varianceR n (fun _ => 0) = 0.
Proof.
  intros Hn. assert (A : averageR n (fun _ => 0) = 0) by (unfold averageR; rewrite sumR_0; unfold Rdiv; ring).
  split; [exact A|]. unfold varianceR. rewrite A.
  rewrite (sumR_ext n _ (fun _ => 0)) by (intros; ring). rewrite sumR_0. unfold Rdiv. ring.
Qed.

Lemma share_nonneg : (0 < h * w)%nat -> 0 <= 1 - 1 / INR (h * w).
Proof.
  intros Hn. assert (1 <= INR (h * w)) by (apply (le_INR 1); lia).
  assert (1 / INR (h * w) <= 1); [|lra]. apply (Rmult_le_reg_r (INR (h * w))); [lra|]. field_simplify; lra.
Qed.

Lemma sim_temporal (T : W -> tdata) : L = 2%nat -> (0 < h * w)%nat ->
  (forall o A B, S o = [A; B] -> pair_ok h w A B) ->
  (forall o, temporal_data_of (S o) (T o)) ->
  averages C (fun o => Q2R (td_mean (h * w) (T o))) (pixel_meanR h w (model_mean s)) /\
  exists q, 0 <= q <= 1 / 4 /\ averages C (fun o => Q2R (td_s2 (h * w) (T o)))
    ((1 - 1 / INR (h * w)) * (pixel_meanR h w (model_noise s) + q)).
Proof.
  intros E Hn OK HT. pose proof sim_series as RS. pose proof sim_noise_range as NR. rewrite E in RS, NR.
  destruct (temporal_any_obj W C S h w _ _ _ T RS Hn OK HT) as (A & B).
  rewrite (proj1 (zero_drift 2 ltac:(lia))), Rplus_0_r in A. split; [exact A|].
  set (f := fun r c => (sim_noise 0 r c + sim_noise 1 r c) / 2) in *.
  exists (pixel_meanR h w f - pixel_meanR h w (model_noise s)). split.
  - assert (R := noise_between f Hn). destruct R; [|lra]. intros r c Hr Hc. unfold f.
    pose proof (NR 0%nat r c ltac:(lia) Hr Hc). pose proof (NR 1%nat r c ltac:(lia) Hr Hc). lra.
  - match goal with |- averages _ _ (_ * ?x) => replace x with (pixel_meanR h w f) by ring end. exact B.
Qed.

Lemma mean_affine : (0 < h * w)%nat -> spatial_varianceR h w (model_mean s) =
  st_K s * st_K s * spatial_varianceR h w (fun r c => st_light s r c + st_dsnu s r c).
Proof.
  intros Hn. rewrite <- (spatial_variance_affine h w (st_offset s + st_K s * (st_dark s + st_mu s))) by assumption.
  unfold spatial_varianceR. unfold model_mean.
  rewrite (pixel_mean_ext h w (fun r c => st_offset s + st_K s * (st_dark s + st_light s r c + st_dsnu s r c + st_mu s))
    (fun r c => st_offset s + st_K s * (st_dark s + st_mu s) + st_K s * (st_light s r c + st_dsnu s r c))) by (intros; ring).
  f_equal. apply sumR2_ext. intros. ring.
Qed.

Lemma sim_spatial (D : W -> sdata) : (2 <= L)%nat -> (2 <= h * w)%nat ->
  (forall o, documented h w (S o)) -> (forall o, spatial_data_of h w (S o) (D o)) ->
  averages C (fun o => Q2R (sd_avg_mean (D o))) (pixel_meanR h w (model_mean s)) /\
  (exists q, 0 <= q <= 1 / 4 /\
    averages C (fun o => Q2R (number (sd_var_mean (D o)))) (pixel_meanR h w (model_noise s) + q)) /\
  averages C (fun o => Q2R (number (olift2 Qminus (sd_avg_var (D o)) (omap (fun v => v / qn (sd_L (D o)))%Q (sd_var_mean (D o))))))
    (st_K s * st_K s * spatial_varianceR h w (fun r c => st_light s r c + st_dsnu s r c)).
Proof.
  intros L2 HW DOC HD.
  destruct (spatial_results C S L h w _ _ _ sim_series L2 HW DOC D HD) as (A & B & E).
  destruct (zero_drift L ltac:(lia)) as (Z1 & Z2). rewrite Z1, Rplus_0_r in A. rewrite Z2 in B, E.
  rewrite Rplus_0_r in B. replace (0 / INR L) with 0 in E by (unfold Rdiv; ring). rewrite Rminus_0_r in E.
  split; [exact A|]. split.
  - exists (pixel_meanR h w (noise_at L sim_noise) - pixel_meanR h w (model_noise s)). split.
    + destruct (noise_between (noise_at L sim_noise) ltac:(lia)); [|lra]. intros r c Hr Hc. unfold noise_at.
      assert (NL : 0 < INR L) by (apply INR_pos; lia).
      split.
      * apply (Rmult_le_reg_r (INR L)); [lra|]. field_simplify; [|lra].
        rewrite Rmult_comm, <- (sumR_const L). apply sumR_le. intros l Hl. apply sim_noise_range; assumption.
      * apply (Rmult_le_reg_r (INR L)); [lra|].
        replace (sumR L (fun l => sim_noise l r c) / INR L * INR L) with (sumR L (fun l => sim_noise l r c)) by (field; lra).
        rewrite Rmult_comm, <- (sumR_const L). apply sumR_le. intros l Hl. apply sim_noise_range; assumption.
    + match goal with |- averages _ _ ?x => replace x with (pixel_meanR h w (noise_at L sim_noise)) by ring end. exact B.
  - rewrite <- mean_affine by lia. exact E.
Qed.
End Sim.

Lemma sim_spatial_obj W (C : chance W) s S L h w (O : W -> robj) :
  simulated C s S L h w -> (2 <= L)%nat -> (2 <= h * w)%nat -> (forall o, documented h w (S o)) ->
  ((forall o, spatial_data_of h w (S o) (sp_bright (o_s (O o)))) ->
   averages C (fun o => Q2R (sd_avg_mean (sp_bright (o_s (O o))))) (pixel_meanR h w (model_mean s)) /\
   (exists q, 0 <= q <= 1 / 4 /\
     averages C (fun o => Q2R (number (sigma_2_y_stack (O o)))) (pixel_meanR h w (model_noise s) + q)) /\
   averages C (fun o => Q2R (number (s_2_y (O o))))
     (st_K s * st_K s * spatial_varianceR h w (fun r c => st_light s r c + st_dsnu s r c))) /\
  ((forall o, spatial_data_of h w (S o) (sp_dark (o_s (O o)))) ->
   averages C (fun o => Q2R (sd_avg_mean (sp_dark (o_s (O o))))) (pixel_meanR h w (model_mean s)) /\
   (exists q, 0 <= q <= 1 / 4 /\
     averages C (fun o => Q2R (number (sigma_2_y_stack_dark (O o)))) (pixel_meanR h w (model_noise s) + q)) /\
   averages C (fun o => Q2R (number (s_2_y_dark (O o))))
     (st_K s * st_K s * spatial_varianceR h w (fun r c => st_light s r c + st_dsnu s r c))).
Proof.
  intros SM L2 HW DOC. split; intros HD; exact (sim_spatial C s S L h w SM _ L2 HW DOC HD).
Qed.

Lemma averages_unique W (C : chance W) X m m' : averages C X m -> averages C X m' -> m = m'.
Proof. intros (_ & A) (_ & B). congruence. Qed.

(** Photon transfer. *)
Lemma sim_transfer W W' (C : chance W) (C' : chance W') a b S S' h w (T : W -> tdata) (T' : W' -> tdata) :
  simulated C a S 2 h w -> simulated C' b S' 2 h w -> same_but_light a b -> (0 < h * w)%nat ->
  (forall o A B, S o = [A; B] -> pair_ok h w A B) -> (forall o A B, S' o = [A; B] -> pair_ok h w A B) ->
  (forall o, temporal_data_of (S o) (T o)) -> (forall o, temporal_data_of (S' o) (T' o)) ->
  forall m v m' v',
  averages C (fun o => Q2R (td_mean (h * w) (T o))) m -> averages C (fun o => Q2R (td_s2 (h * w) (T o))) v ->
  averages C' (fun o => Q2R (td_mean (h * w) (T' o))) m' -> averages C' (fun o => Q2R (td_s2 (h * w) (T' o))) v' ->
  m - m' = st_K a * pixel_meanR h w (fun r c => st_light a r c - st_light b r c) /\
  Rabs ((v - v') - (1 - 1 / INR (h * w)) * st_K a * (m - m')) <= (1 - 1 / INR (h * w)) / 4.
Proof.
  intros SA SB (EK & EO & ED & EN & EM & ES) Hn OK OK' HT HT' m v m' v' Am Av Am' Av'.
  destruct (sim_temporal C a S 2 h w SA T eq_refl Hn OK HT) as (Xm & q & Hq & Xv).
  destruct (sim_temporal C' b S' 2 h w SB T' eq_refl Hn OK' HT') as (Ym & q' & Hq' & Yv).
  rewrite (averages_unique _ _ _ _ _ Am Xm), (averages_unique _ _ _ _ _ Av Xv),
    (averages_unique _ _ _ _ _ Am' Ym), (averages_unique _ _ _ _ _ Av' Yv).
  assert (M : pixel_meanR h w (model_mean a) - pixel_meanR h w (model_mean b) =
     st_K a * pixel_meanR h w (fun r c => st_light a r c - st_light b r c)).
  { rewrite <- pixel_mean_minus.
    rewrite (pixel_mean_ext h w _ (fun r c => 0 + st_K a * (st_light a r c - st_light b r c))).
    - rewrite (pixel_mean_affine h w 0 (st_K a) (fun r c => st_light a r c - st_light b r c)) by assumption. ring.
    - intros. unfold model_mean. rewrite EK, EO, ED, EM, EN. ring. }
  assert (V : pixel_meanR h w (model_noise a) - pixel_meanR h w (model_noise b) =
     st_K a * st_K a * pixel_meanR h w (fun r c => st_light a r c - st_light b r c)).
  { rewrite <- pixel_mean_minus.
    rewrite (pixel_mean_ext h w _ (fun r c => 0 + st_K a * st_K a * (st_light a r c - st_light b r c))).
    - rewrite (pixel_mean_affine h w 0 (st_K a * st_K a) (fun r c => st_light a r c - st_light b r c)) by assumption. ring.
    - intros. unfold model_noise. rewrite EK, ED, ES. ring. }
  split; [exact M|]. rewrite M.
  pose proof (share_nonneg h w Hn) as P.
  match goal with |- Rabs ?x <= _ => replace x with ((1 - 1 / INR (h * w)) * (q - q')) end.
  - rewrite Rabs_mult, (Rabs_pos_eq _ P). replace ((1 - 1 / INR (h * w)) / 4) with ((1 - 1 / INR (h * w)) * (1 / 4)) by (unfold Rdiv; ring).
    apply Rmult_le_compat_l; [exact P|]. apply Rabs_le. lra.
  - replace (pixel_meanR h w (model_noise a)) with (pixel_meanR h w (model_noise b) +
      st_K a * st_K a * pixel_meanR h w (fun r c => st_light a r c - st_light b r c)) by (rewrite <- V; ring). ring.
Qed.
