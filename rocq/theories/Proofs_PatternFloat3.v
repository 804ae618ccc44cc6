(** Proofs for C122 and C125: the simulated camera in double precision; enough pixels. *)
From Coq Require Import List Bool Arith ZArith QArith Qabs Qreals Reals Lia Lra FunctionalExtensionality Classical_Prop.
From Verif Require Import Base_Prelude Base_Str Base_Num Base_Order Base_Float Base_Sum Base_SumR Base_Xreal Model_Path Model_Parser Model_Images
  Model_Loader Model_Data Model_Results Model_Emva Model_Camera Model_Points Model_Dataset Model_Generated
  Model_Rounded Model_RoundedSpatial Model_RoundedEmva
  Spec_Parser Spec_Images Spec_Data Spec_Results Spec_Camera Spec_Dataset Spec_Generated Spec_Chance Spec_Linear Spec_Any Spec_Near Spec_Pattern
  Spec_Emva Spec_Whole Spec_Figures Spec_PatternFiles Spec_RandomRun Spec_Rounded Spec_RoundedSpatial Spec_RoundedEmva Spec_PatternFloat
  Proofs_Near Proofs_Near2 Proofs_Pattern2 Proofs_Pattern3 Proofs_Run5 Proofs_PatternFiles Proofs_PatternRun Proofs_PatternRun2 Proofs_PatternFloat Proofs_PatternFloat2.
Import ListNotations.
Open Scope R_scope.
Set Bullet Behavior "Strict Subproofs".

Section Simulated.
Context {W : Type} (C : chance W).
Variables (li : Model_Dataset.light) (c : camera) (ds : W -> nat -> draws) (version format outdir : str) (L : nat)
  (p : points) (es : W -> list event) (file : str).
Hypothesis UR : usable_run li c ds version format outdir L p es file.
Local Notation h := (c_height c).
Local Notation w := (c_width c).
Variables (nb nd : nat) (a b : setting) (Vb Mb Pb Vd Md Pd f : R).
Hypothesis SB : simulated C a (fun o => series_at c (ds o) L nb) L h w.
Hypothesis SD : simulated C b (fun o => series_at c (ds o) L nd) L h w.
Hypothesis NB : pixel_noise C (fun o => series_at c (ds o) L nb) L h w (model_mean a) Vb Mb Pb.
Hypothesis ND : pixel_noise C (fun o => series_at c (ds o) L nd) L h w (model_mean b) Vd Md Pd.
Variables (visit_t visit_s : exposure_dict -> exposure_dict) (bs : list (shot * shot)) (ad : additions) (n : nat).
Hypothesis VT : any_order visit_t.
Hypothesis VS : any_order visit_s.
Hypothesis ORD : in_order li p bs.
Hypothesis SA : sound_additions ad n h w.
Hypothesis SS : spatial_shots li L p nb nd.
Hypothesis SBL : same_but_light a b.
Hypothesis CLOSED : forall r j, (r < h)%nat -> (j < w)%nat -> st_light b r j = 0.
Hypothesis f0 : 0 < f.
Let F := f + rounding_part (Z.of_nat (c_bits c)) n.
Let K := st_K a.
Let vd := K * K * spatial_varianceR h w (st_dsnu a).
Let vb := K * K * spatial_varianceR h w (fun r j => st_light a r j + st_dsnu a r j).
Let u := K * pixel_meanR h w (st_light a).
Lemma float_run_simulated : F <= vd -> 2 * F <= vb - vd -> 2 * F < u ->
  unlikely C (fun o => ~ exists y, emva_f ad (disk_of h w (es o)) visit_t visit_s file (Some (written (es o))) = Ok (Some y) /\ pattern_right y vd vb u F)
    (total_odds L L h w Vb Mb Pb Vd Md Pd f).
Proof.
  intros H1 H2 H3. pose proof (ur_size _ _ _ _ _ _ _ _ _ _ UR) as (HW & _).
  destruct (sim_truth 2 2 h w a b SBL CLOSED (le_n 2) (le_n 2) HW) as (E1 & E2 & E3).
  pose proof (float_run_pattern C li c ds version format outdir L p es file bs visit_t visit_s ad n VT VS UR ORD SA nb nd (model_mean a) (model_mean b)
    Vb Mb Pb Vd Md Pd f SS (bright_patterned C li c ds version format outdir L p es file UR nb a Vb Mb Pb SB NB)
    (dark_patterned C li c ds version format outdir L p es file UR nd b Vd Md Pd SD ND) f0) as H. cbv zeta in H. rewrite E1, E2, E3 in H. auto.
Qed.
End Simulated.

(** ** Enough pixels *)
Lemma files_enough Vb Mb Pb Vd Md Pd f d : 0 < f -> 0 < d -> exists N0 : nat,
  forall W (C : chance W) (fs : W -> fsys) h w fname t es visit_t visit_s be de,
  any_order visit_t -> any_order visit_s -> lists fname t es -> (forall o, complete_set (fs o) h w es) ->
  spatial_pair es be de ->
  forall L L' mb md,
  patterned C (fun o => contents (fs o) be) L h w mb Vb Mb Pb ->
  patterned C (fun o => contents (fs o) de) L' h w md Vd Md Pd ->
  (2 <= L)%nat -> (2 <= L')%nat ->
  f <= spatial_varianceR h w md -> 2 * f <= spatial_varianceR h w mb - spatial_varianceR h w md ->
  2 * f < pixel_meanR h w mb - pixel_meanR h w md -> (2 <= h * w)%nat -> (N0 <= h * w)%nat ->
  unlikely C (fun o => ~ exists x, emva (fs o) visit_t visit_s fname (Some t) = Ok (Some x) /\
      pattern_right x (spatial_varianceR h w md) (spatial_varianceR h w mb) (pixel_meanR h w mb - pixel_meanR h w md) f) d.
Proof.
  intros f0 d0. destruct (pattern_enough Vb Mb Pb Vd Md Pd f d f0 d0) as (N0 & H). exists N0.
  intros. eapply unlikely_mono; [intros o X; exact X|apply (H L L' h w); assumption|].
  eapply files_pattern; eassumption.
Qed.
Lemma float_enough Vb Mb Pb Vd Md Pd f d : 0 < f -> 0 < d -> exists N0 : nat,
  forall W (C : chance W) (fs : W -> fsys) h w fname t es visit_t visit_s be de (ad : additions) n b,
  any_order visit_t -> any_order visit_s -> lists fname t es -> (forall o, complete_set (fs o) h w es) ->
  spatial_pair es be de -> sound_additions ad n h w -> (forall o, files_bits (fs o) es h w b) ->
  forall L L' mb md,
  patterned C (fun o => contents (fs o) be) L h w mb Vb Mb Pb ->
  patterned C (fun o => contents (fs o) de) L' h w md Vd Md Pd ->
  (2 <= L)%nat -> (2 <= L')%nat ->
  let F := f + rounding_part b n in
  F <= spatial_varianceR h w md -> 2 * F <= spatial_varianceR h w mb - spatial_varianceR h w md ->
  2 * F < pixel_meanR h w mb - pixel_meanR h w md -> (2 <= h * w)%nat -> (N0 <= h * w)%nat ->
  unlikely C (fun o => ~ exists y, emva_f ad (fs o) visit_t visit_s fname (Some t) = Ok (Some y) /\
      pattern_right y (spatial_varianceR h w md) (spatial_varianceR h w mb) (pixel_meanR h w mb - pixel_meanR h w md) F) d.
Proof.
  intros f0 d0. destruct (pattern_enough Vb Mb Pb Vd Md Pd f d f0 d0) as (N0 & H). exists N0.
  intros. eapply unlikely_mono; [intros o X; exact X|apply (H L L' h w); assumption|].
  eapply float_pattern; eassumption.
Qed.

(** The bounds of the example. *)
Lemma gen_float_simulated k : (1 <= k)%nat -> (Z.of_nat (2 * k) <= 2 ^ 29)%Z -> let w := (2 * k)%nat in
  let F := 1 / 4 + rounding_part 8 (1 * w) in
  let vd := 1 * 1 * spatial_varianceR 1 w (st_dsnu bright_setting) in
  let vb := 1 * 1 * spatial_varianceR 1 w (fun r c => st_light bright_setting r c + st_dsnu bright_setting r c) in
  let u := 1 * pixel_meanR 1 w (st_light bright_setting) in
  F <= vd /\ 2 * F <= vb - vd /\ 2 * F < u.
Proof.
  intros k1 kL w F vd vb u. destruct (gen_spatial_simulated k k1 kL) as (_ & _ & _ & _ & _ & _ & B). fold w in B.
  fold vd vb u in B. pose proof (gen_rounding w kL). unfold F. lra.
Qed.
