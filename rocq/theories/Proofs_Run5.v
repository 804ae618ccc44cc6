(** A simulated row of pixels, each of which tosses its coins: the run of its data set. *)
From Coq Require Import Ascii String List Bool Arith ZArith QArith Qreals Reals Lia Lra Permutation Sorting.Sorted FunctionalExtensionality.
From Verif Require Import Base_Prelude Base_Str Base_Num Base_Order Base_Float Base_Sum Base_SumR Base_Xreal Model_Path Model_Parser Model_Images
  Model_Loader Model_Data Model_Results Model_Emva Model_Camera Model_Points Model_Dataset Model_Generated
  Spec_Parser Spec_Images Spec_Data Spec_Results Spec_Camera Spec_Dataset Spec_Points Spec_Generated
  Spec_Chance Spec_Linear Spec_Any Spec_Near Spec_Emva Spec_Whole Spec_RandomRun
  Proofs_Str Proofs_Parser Proofs_Parser2 Proofs_Camera Proofs_Camera2 Proofs_Dataset Proofs_Dataset2 Proofs_Dataset3 Proofs_Emva Proofs_Emva3 Proofs_Emva4 Proofs_Emva5
  Proofs_Near2 Proofs_Near3 Proofs_Near4 Proofs_Figures3 Proofs_Whole Proofs_Whole2 Proofs_Run Proofs_Run2 Proofs_Run3 Proofs_Run4.
Import ListNotations.
Set Bullet Behavior "Strict Subproofs".
Local Arguments feq : simpl never.

Definition z0 : pyfloat := FFin 0.
Definition gen_cam (w : nat) : camera :=
  mkCam 8 1 w (fi 1) [fi 1] (fi 1) [fi 5] (fi 5) (fi 100) (repeat z0 w).

(** The light electrons of image n in column c: level, amplitude, which coin (the third coin tells
    whether the first two differ).  The images of the spatial series show stripes. *)
Definition coin (l : nat) (q : bool * bool) : bool :=
  match l with 0 => fst q | 1 => snd q | _ => xorb (fst q) (snd q) end%nat.
Definition coin_value (b a : Z) (l : nat) (q : bool * bool) : Z := if coin l q then (b + a)%Z else (b - a)%Z.
Definition gen_level (n c : nat) : Z * Z * nat :=
  match n with
  | 0 => (1%Z, 1%Z, 0) | 1 => (1%Z, 1%Z, 1) | 4 => (4%Z, 2%Z, 0) | 5 => (4%Z, 2%Z, 1)
  | 8 => (9%Z, 3%Z, 0) | 9 => (9%Z, 3%Z, 1) | 12 | 13 => (12%Z, 0%Z, 0)
  | 16 | 17 | 18 => if Nat.even c then (4%Z, 2%Z, n - 16) else (18%Z, 4%Z, n - 16)
  | 19 | 20 | 21 => if Nat.even c then (0%Z, 0%Z, 0) else (2%Z, 0%Z, 0)
  | _ => (0%Z, 0%Z, 0)
  end%nat.
Definition gen_light (n c : nat) (q : bool * bool) : Z :=
  match gen_level n c with (b, a, l) => coin_value b a l q end.
Definition gen_draws (w : nat) (o : nat -> bool * bool) (n : nat) : draws :=
  mkDraws (Ok (repeat 0%Z w)) (Ok (map (fun q => gen_light n q (o q)) (seq 0 w))) (Ok (repeat z0 w)) (repeat z0 w).

Definition gen_li : Model_Dataset.light :=
  mkLight (fun r => hd FNan r) (fun _ r => hd FNan r).
Definition gen_points : points :=
  mkPoints [(fi 2, [[fi 8]; [fi 0]])]
    [(fi 1, [[fi 2]; [fi 0]]); (fi 2, [[fi 8]; [fi 0]]); (fi 3, [[fi 18]; [fi 0]]); (fi 4, [[fi 40]; [fi 0]])].
Definition gen_shots : list (shot * shot) :=
  map (fun tr => (mkShot Temporal (fi (fst tr)) [fi (snd tr)], mkShot Temporal (fi (fst tr)) [fi 0]))
    [(1, 2); (2, 8); (3, 18); (4, 40)]%Z.
Definition gen_file : str := descriptor_path (lit "/o").
Definition gen_events (w : nat) (o : nat -> bool * bool) : list event :=
  fst (run_test gen_li (gen_cam w) (gen_draws w o) (lit "4.0") (lit "png") (lit "/o") 3 gen_points).

Lemma level_range n c : let '(b, a, l) := gen_level n c in (0 <= a <= b)%Z /\ (b + a <= 22)%Z.
Proof. unfold gen_level. do 22 (destruct n as [|n]; [destruct (Nat.even c); lia|]). lia. Qed.
Lemma light_range n c q : (0 <= gen_light n c q <= 22)%Z.
Proof.
  pose proof (level_range n c) as H. unfold gen_light. destruct (gen_level n c) as ((b, a), l). unfold coin_value.
  destruct (coin l q); lia.
Qed.
Lemma gen_pixel w l : (0 <= l <= 22)%Z -> Model_Camera.pixel (gen_cam w) 0 l z0 z0 z0 = Some (5 + l)%Z.
Proof.
  intro H. assert (E : exists k, (k < 23)%nat /\ l = Z.of_nat k) by (exists (Z.to_nat l); lia).
  destruct E as (k & Hk & ->). do 23 (destruct k as [|k]; [vm_compute; reflexivity|]). lia.
Qed.
Lemma gen_pixels w (f : nat -> Z) n : forall a,
  pixels (gen_cam w) (repeat 0%Z n) (map f (seq a n)) (repeat z0 n) (repeat z0 n) (repeat z0 n) =
  map (fun q => Model_Camera.pixel (gen_cam w) 0 (f q) z0 z0 z0) (seq a n).
Proof. induction n as [|n IH]; intro a; [reflexivity|]. cbn [repeat seq map pixels]. rewrite IH. reflexivity. Qed.
Lemma gen_grab w o n : grab (gen_cam w) (gen_draws w o n) = Ok (map (fun q => Some (5 + gen_light n q (o q))%Z) (seq 0 w)).
Proof.
  unfold grab, gen_draws. cbn [d_therm d_light d_normal d_uniform bind]. cbn [gen_cam c_dsnu c_height c_width].
  rewrite repeat_length, Nat.mul_1_l, Nat.eqb_refl. f_equal. rewrite gen_pixels. apply map_ext. intro q.
  apply gen_pixel, light_range.
Qed.
Lemma gen_picture w o n q : (q < w)%nat -> px (picture (gen_cam w) (gen_draws w o n)) 0 q = (5 + gen_light n q (o q))%Z.
Proof.
  intro H. unfold picture. rewrite gen_grab. cbn [image_of px gen_cam c_width]. rewrite Nat.mul_0_l, Nat.add_0_l.
  rewrite (nth_indep _ None (Some (5 + gen_light n 0 (o 0%nat))%Z)) by (rewrite map_length, seq_length; exact H).
  rewrite (map_nth (fun q => Some (5 + gen_light n q (o q))%Z)). rewrite seq_nth by exact H. reflexivity.
Qed.
(** The pair of the images n and n + 1. *)
Lemma gen_pair w o n b a : (forall c q, gen_light n c q = toss_value b a 0 q) -> (forall c q, gen_light (S n) c q = toss_value b a 1 q) ->
  Forall2 (agree 1 w) (toss_pair w (5 + b) a o) (pair_at (gen_cam w) (gen_draws w o) n).
Proof.
  intros E1 E2. constructor; [|constructor; [|constructor]];
    (split; [reflexivity|]; split; [reflexivity|]); intros r c Hr Hc; replace r with 0%nat by lia;
    rewrite gen_picture by exact Hc; rewrite ?E1, ?E2; cbn [toss_image px]; unfold toss_value; destruct (toss _ _); lia.
Qed.

Lemma gen_good w : good_camera (gen_cam w).
Proof.
  split; [eexists; reflexivity|]. split; [eexists; reflexivity|].
  split; [exists (inject_Z 100); split; [reflexivity|discriminate]|].
  cbn [gen_cam c_dsnu c_height c_width]. rewrite repeat_length. split; [lia|].
  apply Forall_forall. intros x Hx. apply repeat_spec in Hx. subst. eexists. reflexivity.
Qed.
Lemma gen_draws_good w o n : good_draws (gen_cam w) (gen_draws w o n).
Proof.
  do 3 eexists. split; [reflexivity|]. split; [reflexivity|]. split; [reflexivity|].
  cbn [gen_draws d_uniform gen_cam c_height c_width]. rewrite map_length, seq_length, !repeat_length, Nat.mul_1_l.
  do 4 (split; [reflexivity|]). split; apply Forall_forall; intros x Hx; apply repeat_spec in Hx; subst.
  - eexists. reflexivity.
  - exists 0%Q. split; [reflexivity|]. split; discriminate.
Qed.
Lemma gen_extension : extension (lit "png").
Proof. repeat constructor; discriminate. Qed.
Lemma gen_version : is_word (lit "4.0").
Proof. split; [discriminate|]. repeat constructor. Qed.
Lemma gen_run w o : run_test gen_li (gen_cam w) (gen_draws w o) (lit "4.0") (lit "png") (lit "/o") 3 gen_points =
  (gen_events w o, Ok gen_file).
Proof.
  destruct (run_completes (gen_cam w) (gen_draws w o) (lit "png") (lit "/o") gen_li (lit "4.0") 3 gen_points
    (gen_good w) (gen_draws_good w o)) as (f & E).
  unfold gen_events. destruct (run_test _ _ _ _ _ _ _ _) as (es, r) eqn:R. cbn [fst snd] in *. subst r.
  rewrite (run_file _ _ _ _ _ _ _ _ _ _ R). reflexivity.
Qed.

Ltac shot H := cbv [shots shots_of gen_points p_temporal p_spatial flat_map map app fst snd] in H; simpl in H;
  repeat match type of H with _ \/ _ => destruct H as [H|H] | False => contradiction H end; subst.
Ltac put := cbv [shots shots_of gen_points p_temporal p_spatial flat_map map app fst snd]; simpl; tauto.

Lemma gen_different : ForallOrdPairs (fun s s' => ~ listed_alike gen_li s s') (shots gen_points).
Proof.
  cbv [shots shots_of gen_points p_temporal p_spatial flat_map map app fst snd].
  repeat (apply FOP_cons || apply FOP_nil || apply Forall_cons || apply Forall_nil);
    intros (H1 & H2 & H3);
    first [discriminate H1 | vm_compute in H2; discriminate H2 | vm_compute in H3; discriminate H3].
Qed.
Lemma gen_complete : complete_points gen_li gen_points.
Proof.
  constructor.
  - intros s H. shot H; (split; [eexists; vm_compute; reflexivity|]; split; [eexists; vm_compute; reflexivity|]; vm_compute; discriminate).
  - intros s H K. shot H; try discriminate K;
      (eexists (mkShot Temporal _ [fi 0]); split; [|split; [reflexivity|split; [vm_compute; reflexivity|reflexivity]]]; put).
  - intros s H K. shot H; try discriminate K;
      first [exists (mkShot Temporal (fi 1) [fi 2]); split; [put|split; [reflexivity|split; [vm_compute; discriminate|reflexivity]]]
            |exists (mkShot Temporal (fi 2) [fi 8]); split; [put|split; [reflexivity|split; [vm_compute; discriminate|reflexivity]]]
            |exists (mkShot Temporal (fi 3) [fi 18]); split; [put|split; [reflexivity|split; [vm_compute; discriminate|reflexivity]]]
            |exists (mkShot Temporal (fi 4) [fi 40]); split; [put|split; [reflexivity|split; [vm_compute; discriminate|reflexivity]]]].
  - right. intros s s' H H' K K' D D' E.
    shot H; try discriminate K; try (exfalso; apply D; vm_compute; reflexivity);
      shot H'; try discriminate K'; try (exfalso; apply D'; vm_compute; reflexivity); try reflexivity;
      vm_compute in E; discriminate E.
  - exists (mkShot Spatial (fi 2) [fi 0]), (mkShot Spatial (fi 2) [fi 8]).
    split; [put|]. split; [put|]. split; [reflexivity|]. split; [reflexivity|]. split; [vm_compute; reflexivity|].
    split; [vm_compute; discriminate|]. split; [reflexivity|]. intros s H K. shot H; try discriminate K; auto.
Qed.
Lemma gen_order : in_order gen_li gen_points gen_shots.
Proof.
  split; [|split].
  - cbn [gen_shots map fst snd]. repeat constructor; left; vm_compute; reflexivity.
  - intro s. split.
    + intro H. cbn [gen_shots map fst snd] in H. simpl in H.
      repeat match type of H with _ \/ _ => destruct H as [H|H] | False => contradiction H end; subst;
        (split; [put|split; [reflexivity|vm_compute; discriminate]]).
    + intros (H & K & D). cbn [gen_shots map fst snd].
      shot H; try discriminate K; try (exfalso; apply D; vm_compute; reflexivity); simpl; tauto.
  - intros b d H. cbn [gen_shots map fst snd] in H. simpl in H.
    repeat match type of H with _ \/ _ => destruct H as [H|H] | False => contradiction H end; injection H as <- <-;
      (split; [put|split; [reflexivity|split; [vm_compute; reflexivity|reflexivity]]]).
Qed.

(** ** The law of its images *)
Lemma gen_finite s : In s (shots gen_points) -> finite (listed_exposure s) /\ finite (listed_photons gen_li s).
Proof. intro H. destruct (cp_finite _ _ gen_complete s H) as (A & B & _). auto. Qed.
Lemma gen_first s n m : first_image 3 gen_points s n -> first_image 3 gen_points s m -> n = m.
Proof. exact (first_image_unique gen_li 3 gen_points gen_finite gen_different s n m). Qed.
Lemma gen_number k s : nth_error (shots gen_points) k = Some s ->
  first_image 3 gen_points s (list_sum (map (images_in 3) (firstn k (shots gen_points)))).
Proof.
  intro H. destruct (nth_error_split _ _ H) as (l1 & l2 & E & Len). exists l1, l2. split; [auto|].
  rewrite E, <- Len, firstn_app, Nat.sub_diag, firstn_all, firstn_O, app_nil_r. reflexivity.
Qed.
Lemma gen_bright i b d n : nth_error gen_shots i = Some (b, d) -> first_image 3 gen_points b n -> n = (4 * i)%nat.
Proof.
  intros E H. which i E.
  - exact (gen_first _ _ _ H (gen_number 0 _ eq_refl)).
  - exact (gen_first _ _ _ H (gen_number 2 _ eq_refl)).
  - exact (gen_first _ _ _ H (gen_number 4 _ eq_refl)).
  - exact (gen_first _ _ _ H (gen_number 6 _ eq_refl)).
Qed.
Lemma gen_dark i b d n : nth_error gen_shots i = Some (b, d) -> first_image 3 gen_points d n -> n = (4 * i + 2)%nat.
Proof.
  intros E H. which i E.
  - exact (gen_first _ _ _ H (gen_number 1 _ eq_refl)).
  - exact (gen_first _ _ _ H (gen_number 3 _ eq_refl)).
  - exact (gen_first _ _ _ H (gen_number 5 _ eq_refl)).
  - exact (gen_first _ _ _ H (gen_number 7 _ eq_refl)).
Qed.
Lemma gen_bright_pair w o i : (i < 4)%nat ->
  Forall2 (agree 1 w) (row_bright w i o) (pair_at (gen_cam w) (gen_draws w o) (4 * i)).
Proof.
  intro H. unfold row_bright. destruct i as [|[|[|[|i]]]]; [..|lia].
  - apply (gen_pair w o 0 1 1); reflexivity.
  - apply (gen_pair w o 4 4 2); reflexivity.
  - apply (gen_pair w o 8 9 3); reflexivity.
  - apply (gen_pair w o 12 12 0); intros c (a, b); destruct a, b; reflexivity.
Qed.
Lemma gen_dark_pair w o i : (i < 4)%nat ->
  Forall2 (agree 1 w) (row_dark w i o) (pair_at (gen_cam w) (gen_draws w o) (4 * i + 2)).
Proof.
  intro H. unfold row_dark. do 4 (destruct i as [|i]; [apply (gen_pair w o _ 0 0); intros c (a, b); destruct a, b; reflexivity|]). lia.
Qed.
Lemma gen_index i b d : nth_error gen_shots i = Some (b, d) -> (i < 4)%nat.
Proof. intro E. assert (H : nth_error gen_shots i <> None) by congruence. apply nth_error_Some in H. exact H. Qed.

Lemma gen_random w : (2 <= w)%nat -> (Z.of_nat w <= 2 ^ 29)%Z ->
  random_run (row w) (gen_cam w) (gen_draws w) 3 gen_points gen_shots row_truth 9 648.
Proof.
  intros W2 WL. set (sp := mkSpatial FNan FNan (mkS blank 0 0 0 None None 0%Q None None) (mkS blank 0 0 0 None None 0%Q None None)).
  pose proof (row_measurement sp w W2 WL) as ME. constructor.
  - intros i b d n E H. pose proof (gen_index i b d E) as Hi. rewrite (gen_bright i b d n E H).
    apply (true_agree (row w) (row_bright w i)); [intro o; apply gen_bright_pair, Hi|].
    apply (me_bright _ _ _ _ _ _ _ _ _ _ _ ME i Hi).
  - intros i b d n E H. pose proof (gen_index i b d E) as Hi. rewrite (gen_dark i b d n E H).
    apply (true_agree (row w) (row_dark w i)); [intro o; apply gen_dark_pair, Hi|].
    apply (me_dark _ _ _ _ _ _ _ _ _ _ _ ME i Hi).
  - intros i b d n o E H Z r q Hr Hq. pose proof (gen_index i b d E) as Hi. rewrite (gen_bright i b d n E H).
    cbn [gen_cam c_height c_width] in Hr, Hq. replace r with 0%nat by lia. rewrite !gen_picture by exact Hq.
    do 3 (destruct i as [|i]; [cbn in Z; lra|]). destruct i as [|i]; [|lia].
    destruct (o q) as (x, y). destruct x, y; reflexivity.
Qed.
Lemma gen_listed i : (i < 4)%nat -> listed_light gen_li gen_shots i = row_light i.
Proof.
  intro H. unfold row_light, listed_light.
  do 4 (destruct i as [|i]; [apply Qreals.Qeq_eqR; vm_compute; reflexivity|]). lia.
Qed.
Lemma gen_simulated w : (2 <= w)%nat -> forall i sb sd nb nd, nth_error gen_shots i = Some (sb, sd) -> (i <= 2)%nat ->
  first_image 3 gen_points sb nb -> first_image 3 gen_points sd nd ->
  simulated (row w) (row_setting i) (fun o => pair_at (gen_cam w) (gen_draws w o) nb) 2 1 w /\
  simulated (row w) (row_dark_setting i) (fun o => pair_at (gen_cam w) (gen_draws w o) nd) 2 1 w /\
  same_but_light (row_setting i) (row_dark_setting i) /\ st_K (row_setting i) = 1%R /\
  (1 * Rabs (pixel_meanR 1 w (fun r q => st_light (row_setting i) r q - st_light (row_dark_setting i) r q) -
             1 / 2 * listed_light gen_li gen_shots i) <= 0)%R.
Proof.
  intros W2 i sb sd nb nd E Hi Nb Nd. destruct (row_simulation w W2 i Hi) as (S1 & S2 & S3 & S4 & S5).
  rewrite (gen_bright i sb sd nb E Nb), (gen_dark i sb sd nd E Nd).
  split; [apply (simulated_agree (row w) (row_bright w i)); [intro o; apply gen_bright_pair; lia|exact S1]|].
  split; [apply (simulated_agree (row w) (row_dark w i)); [intro o; apply gen_dark_pair; lia|exact S2]|].
  split; [exact S3|]. split; [exact S4|]. rewrite gen_listed by lia. rewrite S5, Rminus_diag_eq, Rabs_R0 by reflexivity. lra.
Qed.
Lemma gen_rising i : (i <= 2)%nat -> (listed_light gen_li gen_shots 0 <= listed_light gen_li gen_shots i)%R.
Proof.
  intro H. rewrite !gen_listed by lia. do 3 (destruct i as [|i]; [unfold row_light, Q2R; cbn; lra|]). lia.
Qed.
Lemma gen_clear : clear_points row_truth (length gen_shots) 2 (1 / 4 + 2 * 0).
Proof. rewrite Rmult_0_r, Rplus_0_r. exact row_clear. Qed.

Lemma gen_usable w : (2 <= w)%nat -> (Z.of_nat w <= 2 ^ 29)%Z ->
  usable_run gen_li (gen_cam w) (gen_draws w) (lit "4.0") (lit "png") (lit "/o") 3 gen_points (gen_events w) gen_file.
Proof.
  intros W2 WL. constructor.
  - exact gen_extension.
  - exact gen_version.
  - lia.
  - reflexivity.
  - apply gen_good.
  - intros. apply gen_draws_good.
  - cbn [gen_cam c_bits]. lia.
  - cbn [gen_cam c_height c_width]. rewrite Nat.mul_1_l. lia.
  - apply gen_run.
  - exact gen_different.
  - exact gen_complete.
Qed.
Definition gen_photons (i : nat) : Q := nth i [2; 8; 18; 40]%Q 0%Q.
Lemma gen_simulation w : (2 <= w)%nat -> forall i sb sd nb nd, nth_error gen_shots i = Some (sb, sd) -> (i <= 2)%nat ->
  first_image 3 gen_points sb nb -> first_image 3 gen_points sd nd ->
  simulated (row w) (row_setting i) (fun o => pair_at (gen_cam w) (gen_draws w o) nb) 2 1 w /\
  simulated (row w) (row_dark_setting i) (fun o => pair_at (gen_cam w) (gen_draws w o) nd) 2 1 w /\
  same_but_light (row_setting i) (row_dark_setting i) /\ st_K (row_setting i) = 1%R /\
  l_photons gen_li (s_exposure sb) (s_radiance sb) = FFin (gen_photons i) /\
  (Qabs.Qabs (gen_photons i * 1000) <= inject_Z (2 ^ 44))%Q /\
  pixel_meanR 1 w (fun r q => st_light (row_setting i) r q - st_light (row_dark_setting i) r q)%R = (1 / 2 * Q2R (gen_photons i))%R.
Proof.
  intros W2 i sb sd nb nd E Hi Nb Nd. destruct (gen_simulated w W2 i sb sd nb nd E Hi Nb Nd) as (S1 & S2 & S3 & S4 & S5).
  destruct (row_simulation w W2 i Hi) as (_ & _ & _ & _ & S6).
  repeat (split; [assumption|]). rewrite S6. unfold row_light. clear - E Hi. which i E;
    (split; [reflexivity|]; split; [unfold Qle; cbn; discriminate|]; f_equal; apply Qreals.Qeq_eqR; reflexivity).
Qed.
Lemma gen_near : near_law row_truth (listed_light gen_li gen_shots) 2 (1 / 2) 1 (1 / 4) (3 / 10000).
Proof.
  pose proof row_stated_law as H. destruct H as [H1 H2 H3 H4]. constructor; auto.
  - intros i Hi. rewrite gen_listed by lia. specialize (H3 i Hi).
    replace (row_light i) with (stated_light row_points i).
    + rewrite H3. rewrite Rminus_diag_eq by reflexivity. rewrite Rabs_R0. lra.
    + unfold row_light, stated_light. clear - Hi. do 3 (destruct i as [|i]; [apply Qreals.Qeq_eqR; vm_compute; reflexivity|]). lia.
  - intros i Hi. apply gen_rising, Hi.
Qed.
Lemma gen_clear_slack : clear_points row_truth (length gen_shots) 2 ((1 / 4 - 6 / 10000) + 2 * (1 * (1 / 2 * (6 / 10000)))).
Proof. replace ((1 / 4 - 6 / 10000) + 2 * (1 * (1 / 2 * (6 / 10000))))%R with (1 / 4)%R by lra. exact row_clear. Qed.
