(** Property C120: evaluating a generated data set recovers the camera that was simulated. *)
From Coq Require Import Ascii String List Arith ZArith QArith Qabs Qreals Reals Lia Lra.
From Verif Require Import Base_Prelude Base_Str Base_Num Base_Float Base_SumR Model_Parser Model_Images Model_Loader Model_Data Model_Results
  Model_Emva Model_Camera Model_Points Model_Dataset Model_Generated Spec_Parser Spec_Data Spec_Results Spec_Camera Spec_Dataset Spec_Generated
  Spec_Chance Spec_Linear Spec_Any Spec_Near Spec_Emva Spec_RandomRun
  Proofs_Emva Proofs_Near4 Proofs_Run Proofs_Run5 Proofs_Run6 Props_Emva.
Import ListNotations.
Open Scope R_scope.

(** ** Light that is stated approximately *)
Theorem C120_approximate_light :
  forall W (C : chance W) O B D n h w T x V M p eta K q s e,
  measurement C O B D n h w T x V M -> near_law T x p eta K q s -> 0 <= s -> 0 < e -> clear_points T n p (e + 2 * s) ->
  (2 <= h * w)%nat ->
  unlikely C (fun o => ~ right_within (O o) p eta K (q + K * s) (e + s))
    (INR n / INR (h * w) * ((V + 2 * M) / (e * e) + 4 * V / e)).
Proof. exact @slack_unlikely. Qed.
Print Assumptions C120_approximate_light.

(** ** The photons of the descriptor *)
Theorem C120_listed :
  forall li s q, ~ dark_shot li s -> l_photons li (s_exposure s) (s_radiance s) = FFin q ->
  (Qabs (q * 1000) <= inject_Z (2 ^ 44))%Q ->
  finite (listed_photons li s) /\ Rabs (Q2R (number (listed_photons li s)) - Q2R q) <= 6 / 10000.
Proof. exact listed_close. Qed.
Print Assumptions C120_listed.

(** 1/3 of a photon is listed as 0.333. *)
Example C120_listed_case :
  let li := mkLight (fun _ => FFin 1) (fun _ _ => FFin (6004799503160661 # 18014398509481984)) in
  let s := mkShot Temporal (FFin 1) [FFin 1] in
  ~ dark_shot li s /\ listed_photons li s = rnd64 (333 # 1000).
Proof. split; [vm_compute; discriminate|vm_compute; reflexivity]. Qed.

(** ** From the simulated camera to the results *)
Theorem C120_measured :
  forall W (C : chance W) li c ds version format outdir L p es file bs visit_t visit_s T V M,
  any_order visit_t -> any_order visit_s -> usable_run li c ds version format outdir L p es file ->
  in_order li p bs -> random_run C c ds L p bs T V M ->
  forall k eta K q s e, near_law T (listed_light li bs) k eta K q s -> 0 <= s -> 0 < e ->
  clear_points T (length bs) k (e + 2 * s) ->
  unlikely C (fun o => ~ exists x,
       emva (disk_of (c_height c) (c_width c) (es o)) visit_t visit_s file (Some (written (es o))) = Ok (Some x) /\
       right_within x k eta K (q + K * s) (e + s))
    (INR (length bs) / INR (c_height c * c_width c) * ((V + 2 * M) / (e * e) + 4 * V / e)).
Proof. exact @usable_unlikely. Qed.
Print Assumptions C120_measured.

Theorem C120_enough_pixels :
  forall n V M e d, 0 < e -> 0 < d -> exists N0 : nat,
  forall W (C : chance W) li c ds version format outdir L p es file bs visit_t visit_s T k eta K q s,
  any_order visit_t -> any_order visit_s -> usable_run li c ds version format outdir L p es file ->
  in_order li p bs -> length bs = n -> random_run C c ds L p bs T V M ->
  near_law T (listed_light li bs) k eta K q s -> 0 <= s -> clear_points T n k (e + 2 * s) ->
  (N0 <= c_height c * c_width c)%nat ->
  unlikely C (fun o => ~ exists x,
       emva (disk_of (c_height c) (c_width c) (es o)) visit_t visit_s file (Some (written (es o))) = Ok (Some x) /\
       right_within x k eta K (q + K * s) (e + s)) d.
Proof. exact usable_enough. Qed.
Print Assumptions C120_enough_pixels.

(** A camera of any number of pixels whose electrons come by the toss of coins, four temporal points;
    the last one is saturated. *)
Example C120_measured_case : forall w, (2 <= w)%nat -> (Z.of_nat w <= 2 ^ 29)%Z ->
  usable_run gen_li (gen_cam w) (gen_draws w) (lit "4.0") (lit "png") (lit "/o") 3 gen_points (gen_events w) gen_file /\
  in_order gen_li gen_points gen_shots /\ random_run (row w) (gen_cam w) (gen_draws w) 3 gen_points gen_shots row_truth 9 648 /\
  near_law row_truth (listed_light gen_li gen_shots) 2 (1 / 2) 1 (1 / 4) (3 / 10000) /\
  clear_points row_truth (length gen_shots) 2 ((1 / 4 - 6 / 10000) + 2 * (1 * (1 / 2 * (6 / 10000)))).
Proof.
  intros w W2 WL. exact (conj (gen_usable w W2 WL) (conj gen_order (conj (gen_random w W2 WL) (conj gen_near gen_clear_slack)))).
Qed.

Theorem C120_simulated :
  forall W (C : chance W) li c ds version format outdir L p es file bs visit_t visit_s T V M,
  any_order visit_t -> any_order visit_s -> usable_run li c ds version format outdir L p es file ->
  in_order li p bs -> random_run C c ds L p bs T V M ->
  forall k eta K (a b : nat -> setting) (ph : nat -> Q) s e, 0 < eta -> 0 < K -> 0 < e -> s = K * (eta * (6 / 10000)) ->
  (forall i sb sd nb nd, nth_error bs i = Some (sb, sd) -> (i <= k)%nat -> first_image L p sb nb -> first_image L p sd nd ->
     simulated C (a i) (fun o => pair_at c (ds o) nb) 2 (c_height c) (c_width c) /\
     simulated C (b i) (fun o => pair_at c (ds o) nd) 2 (c_height c) (c_width c) /\
     same_but_light (a i) (b i) /\ st_K (a i) = K /\
     l_photons li (s_exposure sb) (s_radiance sb) = FFin (ph i) /\ (Qabs (ph i * 1000) <= inject_Z (2 ^ 44))%Q /\
     pixel_meanR (c_height c) (c_width c) (fun r q => st_light (a i) r q - st_light (b i) r q) = eta * Q2R (ph i)) ->
  (forall i, (i <= k)%nat -> listed_light li bs 0 <= listed_light li bs i) ->
  clear_points T (length bs) k (e + 2 * s) ->
  unlikely C (fun o => ~ exists x,
       emva (disk_of (c_height c) (c_width c) (es o)) visit_t visit_s file (Some (written (es o))) = Ok (Some x) /\
       right_within x k eta K (1 / 4 + K * s) (e + s))
    (INR (length bs) / INR (c_height c * c_width c) * ((V + 2 * M) / (e * e) + 4 * V / e)).
Proof. exact @usable_simulated. Qed.
Print Assumptions C120_simulated.

Example C120_simulated_case : forall w, (2 <= w)%nat -> forall i sb sd nb nd,
  nth_error gen_shots i = Some (sb, sd) -> (i <= 2)%nat -> first_image 3 gen_points sb nb -> first_image 3 gen_points sd nd ->
  simulated (row w) (row_setting i) (fun o => pair_at (gen_cam w) (gen_draws w o) nb) 2 1 w /\
  simulated (row w) (row_dark_setting i) (fun o => pair_at (gen_cam w) (gen_draws w o) nd) 2 1 w /\
  same_but_light (row_setting i) (row_dark_setting i) /\ st_K (row_setting i) = 1 /\
  l_photons gen_li (s_exposure sb) (s_radiance sb) = FFin (gen_photons i) /\
  (Qabs (gen_photons i * 1000) <= inject_Z (2 ^ 44))%Q /\
  pixel_meanR 1 w (fun r q => st_light (row_setting i) r q - st_light (row_dark_setting i) r q) = 1 / 2 * Q2R (gen_photons i).
Proof. exact gen_simulation. Qed.
