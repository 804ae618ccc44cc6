(** Property C121: all temporal figures of a generated data set, also in double precision. *)
From Coq Require Import Ascii String List Arith ZArith QArith Qabs Qreals Reals Lia Lra.
From Verif Require Import Base_Prelude Base_Str Base_Num Base_Float Base_SumR Model_Parser Model_Images Model_Loader Model_Data Model_Results
  Model_Emva Model_Camera Model_Points Model_Dataset Model_Generated Model_Rounded Model_RoundedSpatial Model_RoundedEmva
  Spec_Parser Spec_Data Spec_Results Spec_Camera Spec_Dataset Spec_Generated Spec_Rounded Spec_RoundedSpatial Spec_RoundedEmva
  Spec_Chance Spec_Linear Spec_Any Spec_Near Spec_Emva Spec_Figures Spec_Straight Spec_RandomRun
  Proofs_Near4 Proofs_REmva4 Proofs_Run5 Proofs_Run7 Proofs_Run8 Props_Emva.
Import ListNotations.
Open Scope R_scope.

(** A simulated camera obeys the linear law in the photons the descriptor lists, up to their printing. *)
Theorem C121_law :
  forall W (C : chance W) li c ds version format outdir L p es file bs visit_t visit_s T V M,
  any_order visit_t -> any_order visit_s -> usable_run li c ds version format outdir L p es file ->
  in_order li p bs -> random_run C c ds L p bs T V M ->
  forall k eta K (a b : nat -> setting) (ph : nat -> Q) s, 0 < eta -> 0 < K -> (k < length bs)%nat ->
  s = K * (eta * (6 / 10000)) ->
  (forall i sb sd nb nd, nth_error bs i = Some (sb, sd) -> (i <= k)%nat -> first_image L p sb nb -> first_image L p sd nd ->
     simulated C (a i) (fun o => pair_at c (ds o) nb) 2 (c_height c) (c_width c) /\
     simulated C (b i) (fun o => pair_at c (ds o) nd) 2 (c_height c) (c_width c) /\
     same_but_light (a i) (b i) /\ st_K (a i) = K /\
     l_photons li (s_exposure sb) (s_radiance sb) = FFin (ph i) /\ (Qabs (ph i * 1000) <= inject_Z (2 ^ 44))%Q /\
     pixel_meanR (c_height c) (c_width c) (fun r q => st_light (a i) r q - st_light (b i) r q) = eta * Q2R (ph i)) ->
  (forall i, (i <= k)%nat -> listed_light li bs 0 <= listed_light li bs i) ->
  near_law T (listed_light li bs) k eta K (1 / 4) s.
Proof. exact @usable_law. Qed.
Print Assumptions C121_law.

Example C121_law_case : forall w, (2 <= w)%nat ->
  (forall i sb sd nb nd, nth_error gen_shots i = Some (sb, sd) -> (i <= 2)%nat ->
     first_image 3 gen_points sb nb -> first_image 3 gen_points sd nd ->
     simulated (row w) (row_setting i) (fun o => pair_at (gen_cam w) (gen_draws w o) nb) 2 1 w /\
     simulated (row w) (row_dark_setting i) (fun o => pair_at (gen_cam w) (gen_draws w o) nd) 2 1 w /\
     same_but_light (row_setting i) (row_dark_setting i) /\ st_K (row_setting i) = 1 /\
     l_photons gen_li (s_exposure sb) (s_radiance sb) = FFin (gen_photons i) /\
     (Qabs (gen_photons i * 1000) <= inject_Z (2 ^ 44))%Q /\
     pixel_meanR 1 w (fun r q => st_light (row_setting i) r q - st_light (row_dark_setting i) r q) = 1 / 2 * Q2R (gen_photons i)) /\
  forall i, (i <= 2)%nat -> listed_light gen_li gen_shots 0 <= listed_light gen_li gen_shots i.
Proof. intros w W2. exact (conj (gen_simulation w W2) gen_rising). Qed.

(** Quantum efficiency, dark noise, threshold, saturation, signal-to-noise ratio, dynamic range. *)
Theorem C121_figures :
  forall W (C : chance W) li c ds version format outdir L p es file bs visit_t visit_s T V M,
  any_order visit_t -> any_order visit_s -> usable_run li c ds version format outdir L p es file ->
  in_order li p bs -> random_run C c ds L p bs T V M ->
  forall k eta K q s e, near_law T (listed_light li bs) k eta K q s -> 0 <= s -> 0 < e ->
  clear_points T (length bs) k (e + 2 * s) ->
  forall v0 d, responsivity_error (listed_light li bs 0) (e + s) < K * eta ->
  gain_error (listed_light li bs 0) eta K (q + K * s) (e + s) < K ->
  dark_truth (listed_times bs) T (length bs) (e + s) v0 d -> d < Rmax (24 / 100) v0 ->
  unlikely C (fun o => ~ exists x,
       emva (disk_of (c_height c) (c_width c) (es o)) visit_t visit_s file (Some (written (es o))) = Ok (Some x) /\
       figures_right x k eta K (q + K * s) (e + s) v0 d)
    (INR (length bs) / INR (c_height c * c_width c) * ((V + 2 * M) / (e * e) + 4 * V / e)).
Proof. exact @usable_figures. Qed.
Print Assumptions C121_figures.

Theorem C121_current :
  forall W (C : chance W) li c ds version format outdir L p es file bs visit_t visit_s T V M,
  any_order visit_t -> any_order visit_s -> usable_run li c ds version format outdir L p es file ->
  in_order li p bs -> random_run C c ds L p bs T V M ->
  forall k eta K q s e, near_law T (listed_light li bs) k eta K q s -> 0 <= s -> 0 < e ->
  clear_points T (length bs) k (e + 2 * s) ->
  forall a b, gain_error (listed_light li bs 0) eta K (q + K * s) (e + s) < K ->
  dark_rises (listed_times bs) T (length bs) a b ->
  unlikely C (fun o => ~ exists x,
       emva (disk_of (c_height c) (c_width c) (es o)) visit_t visit_s file (Some (written (es o))) = Ok (Some x) /\
       current_right x (length bs) K (gain_error (listed_light li bs 0) eta K (q + K * s) (e + s)) (e + s) a b)
    (INR (length bs) / INR (c_height c * c_width c) * ((V + 2 * M) / (e * e) + 4 * V / e)).
Proof. exact @usable_current. Qed.
Print Assumptions C121_current.

Theorem C121_linearity :
  forall W (C : chance W) li c ds version format outdir L p es file bs visit_t visit_s T V M,
  any_order visit_t -> any_order visit_s -> usable_run li c ds version format outdir L p es file ->
  in_order li p bs -> random_run C c ds L p bs T V M ->
  forall k eta K q s e, near_law T (listed_light li bs) k eta K q s -> 0 <= s -> 0 < e ->
  clear_points T (length bs) k (e + 2 * s) ->
  clear_range T (listed_light li bs) k (e + 2 * s) ->
  sqrt (INR k) * signal_part (listed_light li bs 0) eta K (e + s) < 1 ->
  let d := signal_part (listed_light li bs 0) eta K (e + s) in
  unlikely C (fun o => ~ exists x,
       emva (disk_of (c_height c) (c_width c) (es o)) visit_t visit_s file (Some (written (es o))) = Ok (Some x) /\
       straight_within x (low_error k d) (high_error k d))
    (INR (length bs) / INR (c_height c * c_width c) * ((V + 2 * M) / (e * e) + 4 * V / e)).
Proof. exact @usable_straight. Qed.
Print Assumptions C121_linearity.

(** The camera of C120 with smaller errors. *)
Example C121_figures_case : forall w, (2 <= w)%nat -> (Z.of_nat w <= 2 ^ 29)%Z ->
  usable_run gen_li (gen_cam w) (gen_draws w) (lit "4.0") (lit "png") (lit "/o") 3 gen_points (gen_events w) gen_file /\
  in_order gen_li gen_points gen_shots /\ random_run (row w) (gen_cam w) (gen_draws w) 3 gen_points gen_shots row_truth 9 648 /\
  near_law row_truth (listed_light gen_li gen_shots) 2 (1 / 2) 1 (1 / 4) gen_slack /\
  clear_points row_truth (length gen_shots) 2 (gen_error + 2 * gen_slack) /\
  (responsivity_error (listed_light gen_li gen_shots 0) (gen_error + gen_slack) < 1 * (1 / 2) /\
   gain_error (listed_light gen_li gen_shots 0) (1 / 2) 1 (1 / 4 + 1 * gen_slack) (gen_error + gen_slack) < 1 /\
   11 * (gen_error + gen_slack) < Rmax (24 / 100) 0) /\
  dark_truth (listed_times gen_shots) row_truth (length gen_shots) (gen_error + gen_slack) 0 (11 * (gen_error + gen_slack)) /\
  dark_rises (listed_times gen_shots) row_truth (length gen_shots) 0 0 /\
  clear_range row_truth (listed_light gen_li gen_shots) 2 (gen_error + 2 * gen_slack) /\
  sqrt (INR 2) * signal_part (listed_light gen_li gen_shots 0) (1 / 2) 1 (gen_error + gen_slack) < 1.
Proof.
  intros w W2 WL. exact (conj (gen_usable w W2 WL) (conj gen_order (conj (gen_random w W2 WL) (conj gen_near (conj gen_clear_small
    (conj gen_small (conj gen_times (conj gen_rises (conj gen_range gen_part))))))))).
Qed.

(** ** In double precision *)
Theorem C121_float_gain :
  forall W (C : chance W) li c ds version format outdir L p es file bs visit_t visit_s T V M (ad : additions) n,
  any_order visit_t -> any_order visit_s -> usable_run li c ds version format outdir L p es file ->
  in_order li p bs -> random_run C c ds L p bs T V M -> sound_additions ad n (c_height c) (c_width c) ->
  forall k eta K q s e, let E := e + Q2R (variance_error (Z.of_nat (c_bits c))) in
  near_law T (listed_light li bs) k eta K q s -> 0 <= s -> 0 < e -> noise_resolved c ds L p bs T E ->
  clear_points T (length bs) k (E + 2 * s) ->
  unlikely C (fun o => ~ exists y,
       emva_f ad (disk_of (c_height c) (c_width c) (es o)) visit_t visit_s file (Some (written (es o))) = Ok (Some y) /\
       right_within y k eta K (q + K * s) (E + s))
    (INR (length bs) / INR (c_height c * c_width c) * ((V + 2 * M) / (e * e) + 4 * V / e)).
Proof. exact @usable_float_gain. Qed.
Print Assumptions C121_float_gain.

Theorem C121_float_figures :
  forall W (C : chance W) li c ds version format outdir L p es file bs visit_t visit_s T V M (ad : additions) n,
  any_order visit_t -> any_order visit_s -> usable_run li c ds version format outdir L p es file ->
  in_order li p bs -> random_run C c ds L p bs T V M -> sound_additions ad n (c_height c) (c_width c) ->
  forall k eta K q s e, let E := e + Q2R (variance_error (Z.of_nat (c_bits c))) in
  near_law T (listed_light li bs) k eta K q s -> 0 <= s -> 0 < e -> noise_resolved c ds L p bs T E ->
  clear_points T (length bs) k (E + 2 * s) ->
  forall v0 d, responsivity_error (listed_light li bs 0) (E + s) < K * eta ->
  gain_error (listed_light li bs 0) eta K (q + K * s) (E + s) < K ->
  dark_truth (listed_times bs) T (length bs) (E + s) v0 d -> d < Rmax (24 / 100) v0 ->
  unlikely C (fun o => ~ exists y,
       emva_f ad (disk_of (c_height c) (c_width c) (es o)) visit_t visit_s file (Some (written (es o))) = Ok (Some y) /\
       figures_right y k eta K (q + K * s) (E + s) v0 d)
    (INR (length bs) / INR (c_height c * c_width c) * ((V + 2 * M) / (e * e) + 4 * V / e)).
Proof. exact @usable_float_figures. Qed.
Print Assumptions C121_float_figures.

(** The same camera (8 bits), sums from left to right. *)
Example C121_float_case : forall w, (2 <= w)%nat -> (Z.of_nat w <= 2 ^ 29)%Z ->
  sound_additions (plain_additions 1 w) (1 * w) 1 w /\ 0 < gen_error_f /\
  let E := gen_error_f + Q2R (variance_error (Z.of_nat (c_bits (gen_cam w)))) in
  noise_resolved (gen_cam w) (gen_draws w) 3 gen_points gen_shots row_truth E /\
  clear_points row_truth (length gen_shots) 2 (E + 2 * gen_slack).
Proof.
  intros w W2 WL. split; [exact (plain_additions_sound 1 w (le_n 1) (Nat.lt_le_trans 0 2 w (le_S 1 1 (le_n 1)) W2) (row_size w WL))|].
  split; [exact gen_error_f_pos|]. intro E. unfold E. change (Z.of_nat (c_bits (gen_cam w))) with 8%Z. rewrite gen_error_f_sum.
  exact (conj (gen_resolved w) gen_clear_small).
Qed.
