(** Proofs for C115: the remaining statements. *)
From Coq Require Import List Bool Arith ZArith QArith Qreals Reals Lia Lra.
From Verif Require Import Base_Prelude Base_Num Base_Sum Base_SumR Base_Xreal Model_Images Model_Loader Model_Data
  Model_Results Spec_Images Spec_Data Spec_Results Spec_Chance Spec_Linear Spec_Any Spec_Near Spec_Pattern Proofs_Any3 Proofs_Near2
  Proofs_Near3 Proofs_Near4 Proofs_Pattern2 Proofs_Pattern3.
Import ListNotations.
Open Scope R_scope.
Set Bullet Behavior "Strict Subproofs".

Lemma pattern_suffice : forall V M D V' M' D' e d, 0 < e -> 0 < d -> exists N0 : nat,
  forall W (C : chance W) (O : W -> robj) SB SD L L' h w mb md,
  patterned C SB L h w mb V M D -> patterned C SD L' h w md V' M' D' ->
  (2 <= L)%nat -> (2 <= L')%nat -> (2 <= h * w)%nat -> (N0 <= h * w)%nat ->
  (forall o, spatial_data_of h w (SB o) (sp_bright (o_s (O o)))) ->
  (forall o, spatial_data_of h w (SD o) (sp_dark (o_s (O o)))) ->
  e <= spatial_varianceR h w md -> 2 * e <= spatial_varianceR h w mb - spatial_varianceR h w md ->
  2 * e < pixel_meanR h w mb - pixel_meanR h w md ->
  unlikely C (fun o => ~ pattern_right (O o) (spatial_varianceR h w md) (spatial_varianceR h w mb)
                           (pixel_meanR h w mb - pixel_meanR h w md) e) d.
Proof.
  intros V M D V' M' D' e d e0 d0. destruct (pattern_enough V M D V' M' D' e d e0 d0) as (N0 & H).
  exists N0. intros W C O SB SD L L' h w mb md PB PD L2 L2' HW HN HB HD H1 H2 H3.
  eapply unlikely_mono; [|apply (H L L' h w L2 L2' HN)|apply (pattern_unlikely C O SB SD L L' h w mb md V M D V' M' D' e); assumption].
  intros o Q. exact Q.
Qed.

Lemma simulated_case k : (1 <= k)%nat ->
  simulated (row (2 * k)) bright_setting (striped (2 * k) bright_stripes) 2 1 (2 * k) /\
  simulated (row (2 * k)) dark_setting (striped (2 * k) dark_stripes) 2 1 (2 * k) /\
  same_but_light bright_setting dark_setting /\
  (forall r c, (r < 1)%nat -> (c < 2 * k)%nat -> st_light dark_setting r c = 0) /\
  (forall o, documented 1 (2 * k) (striped (2 * k) bright_stripes o)) /\
  (forall o, documented 1 (2 * k) (striped (2 * k) dark_stripes o)) /\
  pixel_noise (row (2 * k)) (striped (2 * k) bright_stripes) 2 1 (2 * k) (model_mean bright_setting) 16 256 7 /\
  pixel_noise (row (2 * k)) (striped (2 * k) dark_stripes) 2 1 (2 * k) (model_mean dark_setting) 0 0 1 /\
  let vd := 1 * 1 * spatial_varianceR 1 (2 * k) (st_dsnu bright_setting) in
  let vb := 1 * 1 * spatial_varianceR 1 (2 * k) (fun r c => st_light bright_setting r c + st_dsnu bright_setting r c) in
  let u := 1 * pixel_meanR 1 (2 * k) (st_light bright_setting) in
  1 / 2 <= vd /\ 2 * (1 / 2) <= vb - vd /\ 2 * (1 / 2) < u.
Proof.
  intros k1. destruct (striped_simulation k k1) as (S1 & S2 & S3 & S4 & S5 & S6).
  destruct (striped_case k k1) as (((_ & D1 & P1) & (_ & D2 & P2)) & _).
  split; [exact S1|]. split; [exact S2|]. split; [exact S3|]. split; [intros; apply S4|]. split; [exact D1|]. split; [exact D2|].
  split; [apply (noise_ext _ _ _ _ _ _ (stripes bright_stripes)); [intros; symmetry; apply S5|exact P1]|].
  split; [apply (noise_ext _ _ _ _ _ _ (stripes dark_stripes)); [intros; symmetry; apply S6|exact P2]|].
  assert (G := share_ge k k1). cbv zeta.
  assert (E1 : spatial_varianceR 1 (2 * k) (st_dsnu bright_setting) = INR (2 * k) / INR (2 * k - 1) * ((2 - 0) * (2 - 0) / 4)).
  { apply (striped_variance k k1 (fun c => if Nat.even c then 0 else 2) 0 2).
    - intros i. rewrite (proj1 (even_two i)). reflexivity.
    - intros i. rewrite (proj2 (even_two i)). reflexivity. }
  assert (E2 : spatial_varianceR 1 (2 * k) (fun r c => st_light bright_setting r c + st_dsnu bright_setting r c) =
    INR (2 * k) / INR (2 * k - 1) * ((18 - 4) * (18 - 4) / 4)).
  { apply (striped_variance k k1 (fun c => IZR (amp bright_stripes c * amp bright_stripes c) + (if Nat.even c then 0 else 2)) 4 18).
    - intros i. unfold amp. rewrite (proj1 (even_two i)). simpl. ring.
    - intros i. unfold amp. rewrite (proj2 (even_two i)). simpl. ring. }
  assert (E3 : pixel_meanR 1 (2 * k) (st_light bright_setting) = (4 + 16) / 2).
  { apply (striped_pixel_mean k k1 (fun c => IZR (amp bright_stripes c * amp bright_stripes c)) 4 16).
    - intros i. unfold amp. rewrite (proj1 (even_two i)). reflexivity.
    - intros i. unfold amp. rewrite (proj2 (even_two i)). reflexivity. }
  rewrite E1, E2, E3. split; [|split]; lra.
Qed.

Lemma electrons_unlikely :
  forall W (C : chance W) (O : W -> robj) B D n h w p T x Vt Mt eta K q e SB SD L L' mb md V M P V' M' P',
  measurement C O B D n h w T x Vt Mt -> linear_law T x p eta K q -> clear_points T n p e ->
  patterned C SB L h w mb V M P -> patterned C SD L' h w md V' M' P' ->
  (2 <= L)%nat -> (2 <= L')%nat -> (2 <= h * w)%nat ->
  (forall o, spatial_data_of h w (SB o) (sp_bright (o_s (O o)))) ->
  (forall o, spatial_data_of h w (SD o) (sp_dark (o_s (O o)))) -> 0 < e ->
  e <= spatial_varianceR h w md -> 2 * e <= spatial_varianceR h w mb - spatial_varianceR h w md ->
  2 * e < pixel_meanR h w mb - pixel_meanR h w md ->
  unlikely C (fun o => ~ (right_within (O o) p eta K q e /\
     pattern_right (O o) (spatial_varianceR h w md) (spatial_varianceR h w mb) (pixel_meanR h w mb - pixel_meanR h w md) e /\
     exists k d, gain (O o) = Ok k /\ DSNU1288_DN (O o) = Ok (XR d) /\ (0 < Q2R k -> DSNU1288 (O o) = Ok (XR (d / Q2R k)))))
   (INR n / INR (h * w) * ((Vt + 2 * Mt) / (e * e) + 4 * Vt / e) + total_odds L L' h w V M P V' M' P' e).
Proof.
  intros W C O B D n h w p T x Vt Mt eta K q e SB SD L L' mb md V M P V' M' P' ME LL CP PB PD L2 L2' HW HB HD e0 H1 H2 H3.
  assert (U1 := measured_unlikely C O B D n h w p T x Vt Mt eta K q e ME LL CP HW e0).
  assert (U2 := pattern_unlikely C O SB SD L L' h w mb md V M P V' M' P' e PB PD L2 L2' HW HB HD e0 H1 H2 H3).
  eapply unlikely_mono; [|apply Rle_refl|apply (unlikely_or C _ _ _ _ U1 U2)].
  intros o NP. destruct (Classical_Prop.classic (right_within (O o) p eta K q e)) as [R|R]; [right|left; exact R].
  intros PR. apply NP. split; [exact R|]. split; [exact PR|].
  destruct R as (m & r & k & _ & _ & _ & G & _). destruct PR as (d & pp & E1 & _ & _ & _ & E2).
  exists k, d. split; [exact G|]. split; [exact E1|]. intros k0. apply E2; assumption.
Qed.
