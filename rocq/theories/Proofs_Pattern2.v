(** Proofs for C115: DSNU and PRNU. *)
From Coq Require Import List Bool Arith ZArith QArith Qreals Reals Lia Lra FunctionalExtensionality.
From Verif Require Import Base_Prelude Base_Num Base_Sum Base_SumR Base_Xreal Model_Images Model_Loader Model_Data
  Model_Results Spec_Images Spec_Data Spec_Results Spec_Chance Spec_Linear Spec_Any Spec_Near Spec_Pattern Proofs_Linear Proofs_Any
  Proofs_Any2 Proofs_Any3 Proofs_Near Proofs_Near2 Proofs_Near3 Proofs_Pattern.
Import ListNotations.
Open Scope R_scope.

Lemma sqrt_near x t e : 0 < t -> 0 <= x -> Rabs (x - t) <= e -> Rabs (sqrt x - sqrt t) <= e / sqrt t.
Proof.
  intros T X H. assert (0 < sqrt t) by (apply sqrt_lt_R0, T). assert (0 <= sqrt x) by apply sqrt_pos.
  assert (E : x - t = (sqrt x - sqrt t) * (sqrt x + sqrt t)).
  { rewrite <- (sqrt_sqrt x X) at 1. rewrite <- (sqrt_sqrt t) at 1 by lra. ring. }
  apply (Rmult_le_reg_r (sqrt t)); [assumption|]. unfold Rdiv. rewrite Rmult_assoc, Rinv_l, Rmult_1_r by lra.
  eapply Rle_trans; [|exact H]. rewrite E, Rabs_mult. rewrite (Rabs_pos_eq (sqrt x + sqrt t)) by lra.
  apply Rmult_le_compat_l; [apply Rabs_pos|lra].
Qed.

Lemma pattern_figures o sd sb vd vb u e :
  s_2_y_dark o = Some sd -> s_2_y o = Some sb ->
  Rabs (Q2R sd - vd) <= e -> Rabs (Q2R sb - vb) <= e ->
  Rabs (Q2R (sd_avg_mean (sp_bright (o_s o))) - Q2R (sd_avg_mean (sp_dark (o_s o))) - u) <= 2 * e ->
  0 < e <= vd -> 2 * e <= vb - vd -> 2 * e < u -> pattern_right o vd vb u e.
Proof.
  intros Ed Eb Hd Hb Hu (e0 & ed) eb eu.
  assert (Bd := abs_between _ _ _ Hd). assert (Bb := abs_between _ _ _ Hb).
  set (uo := Q2R (sd_avg_mean (sp_bright (o_s o))) - Q2R (sd_avg_mean (sp_dark (o_s o)))) in *.
  assert (Bu := abs_between _ _ _ Hu).
  assert (Hx : Rabs ((Q2R sb - Q2R sd) - (vb - vd)) <= 2 * e) by (apply Rabs_le; lra).
  set (x := Q2R sb - Q2R sd) in *. set (t := vb - vd) in *.
  assert (x0 : 0 <= x) by (unfold x, t in *; lra).
  assert (X := sqrt_near x t (2 * e) ltac:(lra) x0 Hx).
  assert (st : 0 < sqrt t) by (apply sqrt_lt_R0; lra).
  assert (NL : forall b : bool, (if Rlt_dec (Q2R sd) 0 then true else false) = false).
  { intros _. destruct (Rlt_dec (Q2R sd) 0); [lra|reflexivity]. }
  exists (sqrt (Q2R sd)), (sqrt x * Q2R 100 / uo). split; [|split; [|split; [|split]]].
  - unfold DSNU1288_DN. rewrite Ed. cbn [xoq xq xlt0]. unfold xq. rewrite (NL true), xsqrt_fin by lra. reflexivity.
  - apply sqrt_near; lra.
  - unfold PRNU1288, prnu_of. rewrite Ed, Eb. unfold xoq, xq, xsub. cbn [xneg xadd].
    change (Q2R sb + - Q2R sd) with x. rewrite xsqrt_fin by exact x0. cbn [xmul].
    change (Q2R (sd_avg_mean (bright o)) + - Q2R (sd_avg_mean (dark o))) with uo. rewrite xdiv_fin by lra. reflexivity.
  - replace (Q2R 100) with 100 by (unfold Q2R; simpl; field).
    change (vb - vd) with t.
    replace (sqrt x * 100 / uo - 100 * (sqrt t / u)) with (100 * (((sqrt x - sqrt t) - (sqrt t / u) * (uo - u)) / uo)) by (field; lra).
    rewrite Rabs_mult, (Rabs_pos_eq 100) by lra. match goal with |- _ <= 100 * ?A / ?B => replace (100 * A / B) with (100 * (A * / B)) by (unfold Rdiv; ring) end. apply Rmult_le_compat_l; [lra|].
    unfold Rdiv at 1. rewrite Rabs_mult, (Rabs_pos_eq (/ uo)) by (apply Rlt_le, Rinv_0_lt_compat; lra).
    assert (su : 0 <= sqrt t / u) by (apply Rmult_le_pos; [lra|apply Rlt_le, Rinv_0_lt_compat; lra]).
    apply Rmult_le_compat.
    + apply Rabs_pos.
    + apply Rlt_le, Rinv_0_lt_compat. lra.
    + unfold Rminus. eapply Rle_trans; [apply Rabs_triang|]. apply Rplus_le_compat; [exact X|].
      rewrite Rabs_Ropp, Rabs_mult, (Rabs_pos_eq (sqrt t / u)) by exact su. rewrite (Rmult_comm (2 * e)).
      apply Rmult_le_compat_l; [exact su|exact Hu].
    + apply Rinv_le_contravar; lra.
  - intros k Hk k0. unfold DSNU1288, dsnu_of. rewrite Ed. cbn [xoq xq xlt0]. unfold xq. rewrite (NL true), Hk.
    cbn [bind]. rewrite xsqrt_fin by lra. rewrite xdiv_fin by lra. reflexivity.
Qed.

Section Both.
Context {W : Type} (C : chance W) (O : W -> robj) (SB SD : W -> list image) (L L' h w : nat).
Variables (mb md : nat -> nat -> R) (V M D V' M' D' e : R).
Hypothesis PB : patterned C SB L h w mb V M D.
Hypothesis PD : patterned C SD L' h w md V' M' D'.
Hypothesis L2 : (2 <= L)%nat.
Hypothesis L2' : (2 <= L')%nat.
Hypothesis HW : (2 <= h * w)%nat.
Hypothesis HB : forall o, spatial_data_of h w (SB o) (sp_bright (o_s (O o))).
Hypothesis HD : forall o, spatial_data_of h w (SD o) (sp_dark (o_s (O o))).
Hypothesis e0 : 0 < e.

Lemma bright_odds :
  unlikely C (fun o => e < Rabs (Q2R (number (s_2_y (O o))) - spatial_varianceR h w mb)) (pattern_odds L (h * w) V M D e) /\
  unlikely C (fun o => e < Rabs (Q2R (sd_avg_mean (sp_bright (o_s (O o)))) - pixel_meanR h w mb)) (level_odds L (h * w) V e) /\
  forall o, exists s, s_2_y (O o) = Some s.
Proof.
  destruct PB as ((s2 & RS) & DOC & PN). split; [|split].
  - exact (series_variance C SB L h w mb s2 V M D RS DOC PN L2 HW (fun o => sp_bright (o_s (O o))) HB e e0).
  - exact (series_mean C SB L h w mb s2 V M D RS DOC PN L2 HW (fun o => sp_bright (o_s (O o))) HB e e0).
  - intros o. destruct (figures C SB L h w mb (fun _ => 0) s2 RS L2 HW DOC (fun o => sp_bright (o_s (O o))) HB o)
      as (_ & _ & vm & av & E1 & E2 & _).
    unfold s_2_y, s_2_y_measured, sigma_2_y_stack, bright. rewrite E1, E2. eexists. reflexivity.
Qed.
Lemma dark_odds :
  unlikely C (fun o => e < Rabs (Q2R (number (s_2_y_dark (O o))) - spatial_varianceR h w md)) (pattern_odds L' (h * w) V' M' D' e) /\
  unlikely C (fun o => e < Rabs (Q2R (sd_avg_mean (sp_dark (o_s (O o)))) - pixel_meanR h w md)) (level_odds L' (h * w) V' e) /\
  forall o, exists s, s_2_y_dark (O o) = Some s.
Proof.
  destruct PD as ((s2 & RS) & DOC & PN). split; [|split].
  - exact (series_variance C SD L' h w md s2 V' M' D' RS DOC PN L2' HW (fun o => sp_dark (o_s (O o))) HD e e0).
  - exact (series_mean C SD L' h w md s2 V' M' D' RS DOC PN L2' HW (fun o => sp_dark (o_s (O o))) HD e e0).
  - intros o. destruct (figures C SD L' h w md (fun _ => 0) s2 RS L2' HW DOC (fun o => sp_dark (o_s (O o))) HD o)
      as (_ & _ & vm & av & E1 & E2 & _).
    unfold s_2_y_dark, s_2_y_measured_dark, sigma_2_y_stack_dark, dark. rewrite E1, E2. eexists. reflexivity.
Qed.

Hypothesis seen_dark : e <= spatial_varianceR h w md.
Hypothesis seen_more : 2 * e <= spatial_varianceR h w mb - spatial_varianceR h w md.
Hypothesis seen_light : 2 * e < pixel_meanR h w mb - pixel_meanR h w md.

Lemma pattern_unlikely :
  unlikely C (fun o => ~ pattern_right (O o) (spatial_varianceR h w md) (spatial_varianceR h w mb)
                           (pixel_meanR h w mb - pixel_meanR h w md) e) (total_odds L L' h w V M D V' M' D' e).
Proof.
  destruct bright_odds as (B1 & B2 & BS). destruct dark_odds as (D1 & D2 & DS).
  eapply unlikely_mono; [|apply Rle_refl|apply (unlikely_or C _ _ _ _ (unlikely_or C _ _ _ _ B1 B2) (unlikely_or C _ _ _ _ D1 D2))].
  intros o NP.
  destruct (BS o) as (sb & Eb). destruct (DS o) as (sd & Ed). rewrite Eb, Ed. cbn [number].
  set (ub := Q2R (sd_avg_mean (sp_bright (o_s (O o))))). set (ud := Q2R (sd_avg_mean (sp_dark (o_s (O o))))).
  destruct (abs_le_dec (Q2R sb - spatial_varianceR h w mb) e) as [A|A]; [|left; left; exact A].
  destruct (abs_le_dec (ub - pixel_meanR h w mb) e) as [A1|A1]; [|left; right; exact A1].
  destruct (abs_le_dec (Q2R sd - spatial_varianceR h w md) e) as [A2|A2]; [|right; left; exact A2].
  destruct (abs_le_dec (ud - pixel_meanR h w md) e) as [A3|A3]; [|right; right; exact A3].
  exfalso. apply NP. apply (pattern_figures (O o) sd sb); try assumption; [|split; assumption].
  fold ub ud. apply abs_between in A1. apply abs_between in A3. apply Rabs_le. lra.
Qed.
End Both.

(** ** Enough pixels *)
Lemma odds_small L N V M D e d : 0 < e -> (2 <= L)%nat ->
  (Rabs V * (129 * (D * D) + 8) + 32 * Rabs M + Rabs V) / (e * e) + 9 * Rabs V / e <= d * INR N -> (0 < N)%nat ->
  pattern_odds L N V M D e + level_odds L N V e <= d.
Proof.
  intros e0 L2 H N0. assert (NP : 0 < INR N) by (apply lt_0_INR; lia). assert (LP : 2 <= INR L) by (apply (le_INR 2); exact L2).
  assert (VL : V / INR L <= Rabs V).
  { apply (Rmult_le_reg_r (INR L)); [lra|]. unfold Rdiv. rewrite Rmult_assoc, Rinv_l by lra.
    pose proof (Rle_abs V). pose proof (Rabs_pos V). nra. }
  unfold pattern_odds, level_odds.
  set (x := V / INR L) in *. pose proof (Rabs_pos V). pose proof (Rle_abs M). pose proof (Rle_0_sqr D) as DD. unfold Rsqr in DD.
  replace ((128 * (D * D) * V / INR L + 32 * M) / (INR N * (e * e)) + 8 * V / (INR L * (INR N * e)) + V / (INR L * (INR N * (e * e))))
    with (((128 * (D * D) * x + 32 * M + x) / (e * e) + 8 * x / e) / INR N) by (unfold x; field; lra).
  apply (Rmult_le_reg_r (INR N)); [exact NP|]. unfold Rdiv at 1. rewrite Rmult_assoc, Rinv_l, Rmult_1_r by lra.
  eapply Rle_trans; [|exact H]. apply Rplus_le_compat.
  - apply Rmult_le_compat_r; [apply Rlt_le, Rinv_0_lt_compat; nra|]. nra.
  - apply Rmult_le_compat_r; [apply Rlt_le, Rinv_0_lt_compat; lra|]. lra.
Qed.
Lemma nat_above x : exists n : nat, x < INR n.
Proof.
  exists (Z.to_nat (up x)). destruct (archimed x) as (H & _). destruct (Z_le_gt_dec 0 (up x)) as [G|G].
  - rewrite INR_IZR_INZ, Z2Nat.id by exact G. exact H.
  - assert (IZR (up x) <= 0) by (apply IZR_le; lia). pose proof (pos_INR (Z.to_nat (up x))). lra.
Qed.
Lemma pattern_enough V M D V' M' D' e d : 0 < e -> 0 < d -> exists N0 : nat,
  forall L L' h w, (2 <= L)%nat -> (2 <= L')%nat -> (N0 <= h * w)%nat -> total_odds L L' h w V M D V' M' D' e <= d.
Proof.
  intros e0 d0.
  set (q V M D := (Rabs V * (129 * (D * D) + 8) + 32 * Rabs M + Rabs V) / (e * e) + 9 * Rabs V / e).
  destruct (nat_above (q V M D / (d / 2))) as (n & Hn). destruct (nat_above (q V' M' D' / (d / 2))) as (n' & Hn').
  exists (1 + n + n')%nat. intros L L' h w HL HL' HN. unfold total_odds.
  assert (A : forall x k, x / (d / 2) < INR k -> (k <= h * w)%nat -> x <= d / 2 * INR (h * w)).
  { intros x k Hk Hkk. apply le_INR in Hkk. apply (Rmult_le_reg_r (/ (d / 2))); [apply Rinv_0_lt_compat; lra|].
    replace (d / 2 * INR (h * w) * / (d / 2)) with (INR (h * w)) by (field; lra). unfold Rdiv in *. lra. }
  replace d with (d / 2 + d / 2) by lra. apply Rplus_le_compat; apply odds_small; try assumption; try lia.
  - apply (A _ n); [exact Hn|lia].
  - apply (A _ n'); [exact Hn'|lia].
Qed.

(** ** The simulated camera *)
Section Simulated.
Context {W : Type} (C : chance W) (O : W -> robj) (SB SD : W -> list image) (L L' h w : nat).
Variables (a b : setting) (V M D V' M' D' e : R).
Hypothesis SMB : simulated C a SB L h w.
Hypothesis SMD : simulated C b SD L' h w.
Hypothesis SAME : same_but_light a b.
Hypothesis CLOSED : forall r c, (r < h)%nat -> (c < w)%nat -> st_light b r c = 0.
Hypothesis DB : forall o, documented h w (SB o).
Hypothesis DD : forall o, documented h w (SD o).
Hypothesis NB : pixel_noise C SB L h w (model_mean a) V M D.
Hypothesis ND : pixel_noise C SD L' h w (model_mean b) V' M' D'.
Hypothesis L2 : (2 <= L)%nat.
Hypothesis L2' : (2 <= L')%nat.
Hypothesis HW : (2 <= h * w)%nat.
Hypothesis HB : forall o, spatial_data_of h w (SB o) (sp_bright (o_s (O o))).
Hypothesis HD : forall o, spatial_data_of h w (SD o) (sp_dark (o_s (O o))).
Hypothesis e0 : 0 < e.
Let K := st_K a.
Let vd := K * K * spatial_varianceR h w (st_dsnu a).
Let vb := K * K * spatial_varianceR h w (fun r c => st_light a r c + st_dsnu a r c).
Let u := K * pixel_meanR h w (st_light a).

Lemma sv_ext f g : (forall r c, (r < h)%nat -> (c < w)%nat -> f r c = g r c) -> spatial_varianceR h w f = spatial_varianceR h w g.
Proof.
  intros E. unfold spatial_varianceR. f_equal. rewrite (pixel_mean_ext h w f g E). apply sumR2_ext. intros r c Hr Hc.
  rewrite (E r c Hr Hc). reflexivity.
Qed.
Lemma sim_truth : spatial_varianceR h w (model_mean b) = vd /\ spatial_varianceR h w (model_mean a) = vb /\
  pixel_meanR h w (model_mean a) - pixel_meanR h w (model_mean b) = u.
Proof.
  destruct SAME as (EK & EO & ED & EN & EM & ES).
  split; [|split].
  - rewrite mean_affine by lia. unfold vd, K. rewrite EK. f_equal. apply sv_ext. intros r c Hr Hc.
    rewrite (CLOSED r c Hr Hc), <- EN. ring.
  - rewrite mean_affine by lia. reflexivity.
  - rewrite <- pixel_mean_minus. unfold u, K.
    rewrite (pixel_mean_ext h w _ (fun r c => 0 + st_K a * st_light a r c)).
    + rewrite pixel_mean_affine by lia. ring.
    + intros r c Hr Hc. unfold model_mean. rewrite <- EK, <- EO, <- ED, <- EN, <- EM, (CLOSED r c Hr Hc). ring.
Qed.
Lemma sim_pattern : e <= vd -> 2 * e <= vb - vd -> 2 * e < u ->
  unlikely C (fun o => ~ pattern_right (O o) vd vb u e) (total_odds L L' h w V M D V' M' D' e).
Proof.
  intros H1 H2 H3. destruct sim_truth as (<- & <- & <-).
  apply (pattern_unlikely C O SB SD); try assumption.
  - split; [eexists; apply (sim_series C a SB L h w SMB)|split; assumption].
  - split; [eexists; apply (sim_series C b SD L' h w SMD)|split; assumption].
Qed.
End Simulated.
