(** The fixed pattern of a simulated camera in a generated data set; the striped images of the example run. *)
From Coq Require Import Ascii String List Bool Arith ZArith QArith Qreals Reals Lia Lra FunctionalExtensionality.
From Verif Require Import Base_Prelude Base_Str Base_Num Base_Order Base_Float Base_Sum Base_SumR Base_Xreal Model_Path Model_Parser Model_Images
  Model_Loader Model_Data Model_Results Model_Emva Model_Camera Model_Digit Model_Points Model_Dataset Model_Generated
  Spec_Parser Spec_Images Spec_Data Spec_Results Spec_Camera Spec_Dataset Spec_Generated Spec_Chance Spec_Linear Spec_Any Spec_Near Spec_Pattern
  Spec_Emva Spec_Whole Spec_Figures Spec_PatternFiles Spec_RandomRun
  Proofs_Camera2 Proofs_Linear Proofs_Any Proofs_Any2 Proofs_Any3 Proofs_Any4 Proofs_Near Proofs_Near2 Proofs_Near3 Proofs_Near4 Proofs_Figures3 Proofs_Figures4 Proofs_Pattern2 Proofs_Pattern3 Proofs_Pattern4 Proofs_Whole
  Proofs_Run4 Proofs_Run5 Proofs_Run7 Proofs_PatternFiles Proofs_PatternRun.
Import ListNotations.
Open Scope R_scope.
Set Bullet Behavior "Strict Subproofs".

(** ** A simulated camera *)
Section Simulated.
Context {W : Type} (C : chance W).
Variables (li : Model_Dataset.light) (c : camera) (ds : W -> nat -> draws) (version format outdir : str) (L : nat)
  (p : points) (es : W -> list event) (file : str).
Hypothesis UR : usable_run li c ds version format outdir L p es file.
Local Notation h := (c_height c).
Local Notation w := (c_width c).

Lemma series_documented o n : documented h w (series_at c (ds o) L n).
Proof.
  pose proof (ur_images _ _ _ _ _ _ _ _ _ _ UR) as HL. unfold series_at.
  split; [destruct L; [lia|discriminate]|]. split; [rewrite map_length, seq_length; lia|]. split.
  - apply Forall_forall. intros im Hi. apply in_map_iff in Hi. destruct Hi as (i & <- & _). split; reflexivity.
  - apply Forall_forall. intros im Hi. apply in_map_iff in Hi. destruct Hi as (i & <- & _). intros r j Hr Hj.
    pose proof (picture_range li c ds version format outdir L p es file UR o i r j Hr Hj) as H.
    pose proof (ur_bits _ _ _ _ _ _ _ _ _ _ UR) as HB.
    assert (2 ^ Z.of_nat (c_bits c) <= 2 ^ Z.of_nat 16)%Z by (apply Z.pow_le_mono_r; lia). lia.
Qed.

Variables (nb nd : nat) (a b : setting) (Vb Mb Pb Vd Md Pd f : R).
Hypothesis SB : simulated C a (fun o => series_at c (ds o) L nb) L h w.
Hypothesis SD : simulated C b (fun o => series_at c (ds o) L nd) L h w.
Hypothesis NB : pixel_noise C (fun o => series_at c (ds o) L nb) L h w (model_mean a) Vb Mb Pb.
Hypothesis ND : pixel_noise C (fun o => series_at c (ds o) L nd) L h w (model_mean b) Vd Md Pd.
Lemma bright_patterned : patterned C (fun o => series_at c (ds o) L nb) L h w (model_mean a) Vb Mb Pb.
Proof. split; [eexists; apply (sim_series C a _ L h w SB)|]. split; [intro o; apply series_documented|exact NB]. Qed.
Lemma dark_patterned : patterned C (fun o => series_at c (ds o) L nd) L h w (model_mean b) Vd Md Pd.
Proof. split; [eexists; apply (sim_series C b _ L h w SD)|]. split; [intro o; apply series_documented|exact ND]. Qed.

Variables (visit_t visit_s : exposure_dict -> exposure_dict) (bs : list (shot * shot)).
Hypothesis VT : any_order visit_t.
Hypothesis VS : any_order visit_s.
Hypothesis ORD : in_order li p bs.
Hypothesis SS : spatial_shots li L p nb nd.
Hypothesis SBL : same_but_light a b.
Hypothesis CLOSED : forall r j, (r < h)%nat -> (j < w)%nat -> st_light b r j = 0.
Hypothesis f0 : 0 < f.
Let K := st_K a.
Let vd := K * K * spatial_varianceR h w (st_dsnu a).
Let vb := K * K * spatial_varianceR h w (fun r j => st_light a r j + st_dsnu a r j).
Let u := K * pixel_meanR h w (st_light a).
Lemma run_simulated : f <= vd -> 2 * f <= vb - vd -> 2 * f < u ->
  unlikely C (fun o => ~ exists x, emva (disk_of h w (es o)) visit_t visit_s file (Some (written (es o))) = Ok (Some x) /\ pattern_right x vd vb u f)
    (total_odds L L h w Vb Mb Pb Vd Md Pd f).
Proof.
  intros H1 H2 H3. pose proof (ur_size _ _ _ _ _ _ _ _ _ _ UR) as (HW & _).
  destruct (sim_truth 2 2 h w a b SBL CLOSED (le_n 2) (le_n 2) HW) as (E1 & E2 & E3).
  pose proof (run_pattern C li c ds version format outdir L p es file bs visit_t visit_s VT VS UR ORD nb nd (model_mean a) (model_mean b)
    Vb Mb Pb Vd Md Pd f SS bright_patterned dark_patterned f0) as H. rewrite E1, E2, E3 in H. auto.
Qed.
End Simulated.

(** ** The striped images *)
Section Striped.
Variables (k : nat) (z : stripe) (S : (nat -> bool * bool) -> list image).
Hypothesis k1 : (1 <= k)%nat.
Notation w := (2 * k)%nat.
Hypothesis S3 : forall o, length (S o) = 3%nat.
Hypothesis SV : forall o l c, (l < 3)%nat -> (c < w)%nat ->
  px (nth l (S o) (mkImg 0 0 (fun _ _ => 0%Z))) 0 c = coin_value (level z c) (amp z c) l (o c).

Definition coined (x a : Z) (l : nat) (q : bool * bool) : R := IZR (coin_value x a l q).
Lemma coined_eq x a l q : coined x a l q = IZR x + (if coin l q then IZR a else - IZR a).
Proof. unfold coined, coin_value. destruct (coin l q); [apply plus_IZR|rewrite minus_IZR; ring]. Qed.
Lemma coined_mean x a l : mean4 (coined x a l) = IZR x.
Proof.
  rewrite (mean4_ext _ _ (coined_eq x a l)). unfold mean4, mean2.
  destruct l as [|[|l]]; cbn [coin fst snd xorb]; field.
Qed.
Lemma grey_coined l r c o : (l < 3)%nat -> (r < 1)%nat -> (c < w)%nat -> grey l r c (S o) = coined (level z c) (amp z c) l (o c).
Proof. intros Hl Hr Hc. replace r with 0%nat by lia. unfold grey, coined. rewrite SV by assumption. reflexivity. Qed.
Lemma history_coined r c o : (r < 1)%nat -> (c < w)%nat ->
  history (S o) r c = [coin_value (level z c) (amp z c) 0 (o c); coin_value (level z c) (amp z c) 1 (o c); coin_value (level z c) (amp z c) 2 (o c)].
Proof.
  intros Hr Hc. replace r with 0%nat by lia. rewrite <- !SV by (assumption || lia). pose proof (S3 o) as E.
  destruct (S o) as [|x [|y [|t [|? ?]]]]; try discriminate E. reflexivity.
Qed.
Lemma coined_series_mean l r c : (l < 3)%nat -> (r < 1)%nat -> (c < w)%nat -> row_mean w (fun o => grey l r c (S o)) = stripes z r c.
Proof.
  intros Hl Hr Hc. rewrite (row_via1 w c (coined (level z c) (amp z c) l)); [apply coined_mean| |exact Hc].
  intro o. apply grey_coined; assumption.
Qed.
Lemma coined_covar l r c l' r' c' : (l < 3)%nat -> (r < 1)%nat -> (c < w)%nat -> (l' < 3)%nat -> (r' < 1)%nat -> (c' < w)%nat ->
  covar (row w) (fun o => grey l r c (S o)) (fun o => grey l' r' c' (S o)) =
  if ((l =? l') && (c =? c'))%nat then IZR (amp z c) * IZR (amp z c) else 0.
Proof.
  intros Hl Hr Hc Hl' Hr' Hc'. unfold covar, row, expect. rewrite !coined_series_mean by assumption. unfold stripes.
  set (x := level z c). set (x' := level z c').
  destruct (Nat.eqb_spec c c') as [E|N].
  - subst c'. change x' with x.
    rewrite (row_via1 w c (fun q => (coined x (amp z c) l q - IZR x) * (coined x (amp z c) l' q - IZR x))); [|..|exact Hc].
    2:{ intros o. rewrite !grey_coined by assumption. reflexivity. }
    set (a := amp z c).
    rewrite (mean4_ext _ (fun q => (if coin l q then IZR a else - IZR a) * (if coin l' q then IZR a else - IZR a)))
      by (intros q; rewrite !coined_eq; ring).
    unfold mean4, mean2. destruct l as [|[|[|l]]]; [| | |lia]; (destruct l' as [|[|[|l']]]; [| | |lia]);
      cbn [coin fst snd xorb Nat.eqb andb]; field.
  - rewrite andb_false_r.
    rewrite (row_via2 w c c' (fun q => coined x (amp z c) l q - IZR x) (fun q => coined x' (amp z c') l' q - IZR x')); try assumption.
    2:{ intros o. rewrite !grey_coined by assumption. reflexivity. }
    rewrite (mean4_ext (fun q => coined x (amp z c) l q - IZR x) (fun q => if coin l q then IZR (amp z c) else - IZR (amp z c)))
      by (intros q; rewrite coined_eq; ring).
    replace (mean4 (fun q => if coin l q then IZR (amp z c) else - IZR (amp z c))) with 0; [ring|].
    unfold mean4, mean2. destruct l as [|[|l]]; cbn [coin fst snd xorb]; field.
Qed.
Lemma coined_series : random_series (row w) S 3 1 w (stripes z) (fun _ => 0) (fun _ _ c => IZR (amp z c) * IZR (amp z c)).
Proof.
  constructor; try (intros; exact I).
  - exact S3.
  - intros l r c Hl Hr Hc. rewrite Rplus_0_r. apply coined_series_mean; assumption.
  - intros l r c Hl Hr Hc. rewrite coined_covar by assumption. rewrite !Nat.eqb_refl. reflexivity.
  - intros l r c l' r' c' Hl Hr Hc Hl' Hr' Hc' N. rewrite coined_covar by assumption.
    destruct (Nat.eqb_spec l l') as [E|]; [|reflexivity]. destruct (Nat.eqb_spec c c') as [E'|]; [|reflexivity].
    exfalso. apply N. subst. f_equal. f_equal. lia.
Qed.
Lemma coined_noise V M D :
  IZR (a0 z) * IZR (a0 z) <= V -> IZR (a1 z) * IZR (a1 z) <= V ->
  IZR (a0 z) * IZR (a0 z) * (IZR (a0 z) * IZR (a0 z)) <= M -> IZR (a1 z) * IZR (a1 z) * (IZR (a1 z) * IZR (a1 z)) <= M ->
  Rabs (gap z) / 2 <= D ->
  pixel_noise (row w) S 3 1 w (stripes z) V M D.
Proof.
  intros V0 V1 M0 M1 HD. constructor; try (intros; exact I).
  - intros r c r' c' f g Hr Hc Hr' Hc' N _ _ _.
    assert (Nc : c <> c') by (intros E; apply N; subst; f_equal; lia).
    set (F f c := fun q : bool * bool =>
      f [coin_value (level z c) (amp z c) 0 q; coin_value (level z c) (amp z c) 1 q; coin_value (level z c) (amp z c) 2 q] : R).
    assert (E : forall f r c, (r < 1)%nat -> (c < w)%nat -> row_mean w (fun o => f (history (S o) r c)) = mean4 (F f c)).
    { intros f1 r1 c1 R1 H1. apply (row_via1 w c1 (F f1 c1)); [|exact H1]. intro o. rewrite history_coined by assumption. reflexivity. }
    unfold covar, row, expect. rewrite !E by assumption.
    rewrite (row_via2 w c c' (fun q => F f c q - mean4 (F f c)) (fun q => F g c' q - mean4 (F g c'))); try assumption.
    2:{ intro o. rewrite !history_coined by assumption. reflexivity. }
    replace (mean4 (fun q => F f c q - mean4 (F f c))) with 0; [ring|]. unfold mean4, mean2. field.
  - intros ((l, r), c) (Hl & Hr & Hc). unfold value. cbn [fst snd] in *. rewrite coined_covar by assumption.
    rewrite !Nat.eqb_refl. cbn [andb]. unfold amp. destruct (Nat.even c); assumption.
  - intros ((l, r), c) (Hl & Hr & Hc). unfold off_mean, value. cbn [fst snd] in *. unfold row, expect.
    set (x := level z c). set (a := amp z c).
    rewrite (row_via1 w c (fun q => ((coined x a l q - IZR x) * (coined x a l q - IZR x)) * ((coined x a l q - IZR x) * (coined x a l q - IZR x))));
      [|..|exact Hc].
    2:{ intros o. rewrite !grey_coined by assumption. reflexivity. }
    rewrite (mean4_ext _ (fun q => IZR a * IZR a * (IZR a * IZR a))).
    + unfold mean4, mean2. unfold a, amp. destruct (Nat.even c); lra.
    + intros q. rewrite coined_eq. destruct (coin l q); ring.
  - intros r c Hr Hc. rewrite stripes_mean by exact k1. eapply Rle_trans; [|exact HD]. unfold stripes, level.
    assert (E : Rabs (gap z) / 2 = Rabs (gap z / 2)) by (unfold Rdiv; rewrite Rabs_mult, (Rabs_pos_eq (/ 2)) by lra; reflexivity).
    rewrite E. apply Req_le. unfold gap. destruct (Nat.even c).
    + rewrite <- Rabs_Ropp. f_equal. field.
    + f_equal. field.
Qed.
Lemma coined_simulated d1 : (0 <= a0 z)%Z -> (0 <= a1 z)%Z -> (0 <= d1)%Z -> (x0 z = 5 + a0 z * a0 z)%Z -> (x1 z = 5 + d1 + a1 z * a1 z)%Z ->
  (x0 z + a0 z <= 100)%Z -> (x1 z + a1 z <= 100)%Z ->
  simulated (row w) (striped_setting z d1) S 3 1 w.
Proof.
  intros A0 A1 Hd Hx0 Hx1 Hm0 Hm1.
  constructor.
  - exact S3.
  - intros l r c Hl Hr Hc. set (x := level z c). set (a := amp z c). set (d := (if Nat.even c then 0 else d1)%Z).
    assert (Hx : (x = 5 + d + a * a)%Z) by (unfold x, a, d, level, amp; destruct (Nat.even c); lia).
    assert (Hm : (0 <= d /\ 0 <= a /\ x + a <= 100)%Z) by (unfold x, a, d, level, amp; destruct (Nat.even c); lia).
    assert (Ed : st_dsnu (striped_setting z d1) r c = IZR d) by (cbn [st_dsnu striped_setting]; unfold d; destruct (Nat.even c); reflexivity).
    set (t := fun _ : nat -> bool * bool => 0%Z). set (i := fun o : nat -> bool * bool => (coin_value x a l (o c) - 5 - d)%Z).
    set (n := fun _ : nat -> bool * bool => 0).
    assert (EI : forall o, IZR (i o) = coined x a l (o c) - 5 - IZR d) by (intros; unfold i; rewrite !minus_IZR; reflexivity).
    assert (RI : forall o, (0 <= i o /\ i o + d <= 95)%Z).
    { intros o. unfold i, coin_value. destruct (coin l (o c)); nia. }
    assert (MI : row_mean w (fun o => IZR (i o)) = IZR (a * a)).
    { rewrite (row_via1 w c (fun q => coined x a l q - 5 - IZR d)); [|exact EI|exact Hc].
      rewrite (mean4_ext _ (fun q => IZR x - 5 - IZR d + (if coin l q then IZR a else - IZR a))) by (intros; rewrite coined_eq; ring).
      rewrite Hx, !plus_IZR. unfold mean4, mean2. destruct l as [|[|?]]; cbn [coin fst snd xorb]; field. }
    assert (DV : deliveries (row w) t i n 0 (IZR (a * a)) 0 0).
    { assert (Z1 : forall c, row_mean w (fun _ => c) = c) by apply row_const.
      constructor; try exact I; unfold covar, row, expect, t, n; rewrite ?MI, ?Z1; try reflexivity; try ring;
        try (etransitivity; [apply (row_ext w _ (fun _ => 0)); intros; ring|apply row_const]).
      - rewrite (row_via1 w c (fun q => (coined x a l q - 5 - IZR d - IZR (a * a)) * (coined x a l q - 5 - IZR d - IZR (a * a))));
          [|intros o; rewrite EI; reflexivity|exact Hc].
        rewrite (mean4_ext _ (fun q => (if coin l q then IZR a else - IZR a) * (if coin l q then IZR a else - IZR a))).
        + rewrite mult_IZR. unfold mean4, mean2. destruct l as [|[|?]]; cbn [coin fst snd xorb]; field.
        + intros q. rewrite coined_eq, Hx, !plus_IZR. destruct (coin l q); ring. }
    assert (UC : unclipped (IZR (img_max 8)) 1 5 100 (IZR d) t i n).
    { intros o. change (img_max 8) with 255%Z. cbv zeta. unfold t, n. destruct (RI o) as (R1 & R2).
      apply IZR_le in R1. apply IZR_le in R2. rewrite plus_IZR in R2.
      assert (0 <= IZR d) by (apply (IZR_le 0); lia). lra. }
    exists t, i, n, (fun _ => 0). split; [exact DV|].
    rewrite <- Ed in UC. split; [exact UC|].
    destruct (integer_fair _ (row w) (striped_setting z d1) r c t i n (fun o => coin_value x a l (o c)) UC) as (F & V).
    { intros o. rewrite Ed. cbn [st_K st_offset striped_setting]. rewrite EI. unfold t, n, coined. ring. }
    split; [exact F|]. split.
    { exact (linear_variance_exists (row w) t i n 0 (IZR (a * a)) 0 0 DV 8 1 5 100 _ UC I). }
    intros o. rewrite V. rewrite grey_coined by assumption. reflexivity.
  - intros l r c l' r' c' Hl Hr Hc Hl' Hr' Hc' N. split; [exact I|].
    exact (rs_uncorrelated _ _ _ _ _ _ _ _ coined_series l r c l' r' c' Hl Hr Hc Hl' Hr' Hc' N).
Qed.
End Striped.

(** ** The example run *)
Section Case.
Variable k : nat.
Hypothesis k1 : (1 <= k)%nat.
Hypothesis kL : (Z.of_nat (2 * k) <= 2 ^ 29)%Z.
Notation w := (2 * k)%nat.
Let W2 : (2 <= w)%nat. Proof. lia. Qed.

Lemma gen_spatial : spatial_shots gen_li 3 gen_points 16 19.
Proof.
  exists (mkShot Spatial (fi 2) [fi 8]), (mkShot Spatial (fi 2) [fi 0]).
  split; [put|]. split; [put|]. split; [reflexivity|]. split; [reflexivity|].
  split; [vm_compute; discriminate|]. split; [vm_compute; reflexivity|].
  split; [exact (gen_number 8 _ eq_refl)|exact (gen_number 9 _ eq_refl)].
Qed.
Lemma gen_series n o l c : (l < 3)%nat -> (c < w)%nat ->
  px (nth l (series_at (gen_cam w) (gen_draws w o) 3 n) (mkImg 0 0 (fun _ _ => 0%Z))) 0 c = (5 + gen_light (n + l) c (o c))%Z.
Proof.
  intros Hl Hc. unfold series_at.
  rewrite (nth_indep _ _ (picture (gen_cam w) (gen_draws w o 0))) by (rewrite map_length, seq_length; exact Hl).
  rewrite (map_nth (fun i => picture (gen_cam w) (gen_draws w o i))), seq_nth by exact Hl. apply gen_picture, Hc.
Qed.
Lemma gen_stripes_bright o l c : (l < 3)%nat -> (c < w)%nat ->
  px (nth l (series_at (gen_cam w) (gen_draws w o) 3 16) (mkImg 0 0 (fun _ _ => 0%Z))) 0 c =
  coin_value (level bright_stripes c) (amp bright_stripes c) l (o c).
Proof.
  intros Hl Hc. rewrite gen_series by assumption. unfold level, amp.
  destruct l as [|[|[|l]]]; [..|lia]; cbn [Nat.add]; unfold gen_light, gen_level;
    destruct (Nat.even c); destruct (o c) as ([|], [|]); reflexivity.
Qed.
Lemma gen_stripes_dark o l c : (l < 3)%nat -> (c < w)%nat ->
  px (nth l (series_at (gen_cam w) (gen_draws w o) 3 19) (mkImg 0 0 (fun _ _ => 0%Z))) 0 c =
  coin_value (level dark_stripes c) (amp dark_stripes c) l (o c).
Proof.
  intros Hl Hc. rewrite gen_series by assumption. unfold level, amp.
  destruct l as [|[|[|l]]]; [..|lia]; cbn [Nat.add]; unfold gen_light, gen_level;
    destruct (Nat.even c); destruct (o c) as ([|], [|]); reflexivity.
Qed.
Lemma gen_patterned :
  patterned (row w) (fun o => series_at (gen_cam w) (gen_draws w o) 3 16) 3 1 w (stripes bright_stripes) 16 256 7 /\
  patterned (row w) (fun o => series_at (gen_cam w) (gen_draws w o) 3 19) 3 1 w (stripes dark_stripes) 0 0 1.
Proof.
  split.
  - split; [eexists; exact (coined_series k bright_stripes (fun o => series_at (gen_cam w) (gen_draws w o) 3 16) k1 (fun _ => eq_refl) gen_stripes_bright)|split].
    + intro o. apply (series_documented _ _ _ _ _ _ _ _ _ _ (gen_usable w W2 kL)).
    + apply coined_noise; [exact k1|reflexivity|exact gen_stripes_bright|..]; cbn [x0 x1 a0 a1 bright_stripes]; try lra.
      unfold gap. cbn [x0 x1 bright_stripes]. rewrite Rabs_pos_eq; lra.
  - split; [eexists; exact (coined_series k dark_stripes (fun o => series_at (gen_cam w) (gen_draws w o) 3 19) k1 (fun _ => eq_refl) gen_stripes_dark)|split].
    + intro o. apply (series_documented _ _ _ _ _ _ _ _ _ _ (gen_usable w W2 kL)).
    + apply coined_noise; [exact k1|reflexivity|exact gen_stripes_dark|..]; cbn [x0 x1 a0 a1 dark_stripes]; try lra.
      unfold gap. cbn [x0 x1 dark_stripes]. rewrite Rabs_pos_eq; lra.
Qed.
Lemma gen_pattern_bounds :
  1 / 2 <= spatial_varianceR 1 w (stripes dark_stripes) /\
  2 * (1 / 2) <= spatial_varianceR 1 w (stripes bright_stripes) - spatial_varianceR 1 w (stripes dark_stripes) /\
  2 * (1 / 2) < pixel_meanR 1 w (stripes bright_stripes) - pixel_meanR 1 w (stripes dark_stripes).
Proof. apply (striped_case k k1). Qed.

(** Its files. *)
Lemma gen_files : exists t ents ps b d, (forall o, written (gen_events w o) = t) /\ lists gen_file t ents /\
  (forall o, complete_set (disk_of 1 w (gen_events w o)) 1 w ents) /\ Spec_Whole.points_of ents ps /\ length ps = 4%nat /\
  random_files (row w) (fun o => disk_of 1 w (gen_events w o)) ps 1 w row_truth 9 648 /\
  linear_law row_truth (stated_light ps) 2 (1 / 2) 1 (1 / 4) /\ clear_points row_truth 4 2 (1 / 50) /\
  gain_error (stated_light ps 0) (1 / 2) 1 (1 / 4) (1 / 50) < 1 /\
  spatial_pair ents b d /\
  patterned (row w) (fun o => contents (disk_of 1 w (gen_events w o)) b) 3 1 w (stripes bright_stripes) 16 256 7 /\
  patterned (row w) (fun o => contents (disk_of 1 w (gen_events w o)) d) 3 1 w (stripes dark_stripes) 0 0 1.
Proof.
  destruct (run_files (row w) _ _ _ _ _ _ _ _ _ _ _ (gen_usable w W2 kL) gen_order 16 19 gen_spatial)
    as (t & ents & ps & b & d & WR & LI & CS & PS & LN & LE & RF & SP & C1 & C2).
  exists t, ents, ps, b, d. destruct gen_patterned as (P1 & P2).
  split; [exact WR|]. split; [exact LI|]. split; [exact CS|]. split; [exact PS|]. split; [exact LN|].
  split; [exact (RF _ _ _ (gen_random w W2 kL))|].
  rewrite LE. split.
  { destruct row_law as [A1 A2 A3 A4]. constructor; auto. intros i Hi. rewrite gen_listed by lia. auto. }
  split; [exact row_clear_small|]. split; [rewrite gen_listed by lia; apply row_small|]. split; [exact SP|].
  split.
  - replace (fun o => contents (disk_of 1 w (gen_events w o)) b) with (fun o => series_at (gen_cam w) (gen_draws w o) 3 16); [exact P1|].
    apply functional_extensionality. intro o. symmetry. apply C1.
  - replace (fun o => contents (disk_of 1 w (gen_events w o)) d) with (fun o => series_at (gen_cam w) (gen_draws w o) 3 19); [exact P2|].
    apply functional_extensionality. intro o. symmetry. apply C2.
Qed.

(** As a simulation. *)
Lemma gen_spatial_simulated :
  simulated (row w) bright_setting (fun o => series_at (gen_cam w) (gen_draws w o) 3 16) 3 1 w /\
  simulated (row w) dark_setting (fun o => series_at (gen_cam w) (gen_draws w o) 3 19) 3 1 w /\
  same_but_light bright_setting dark_setting /\
  (forall r c, (r < 1)%nat -> (c < w)%nat -> st_light dark_setting r c = 0) /\
  pixel_noise (row w) (fun o => series_at (gen_cam w) (gen_draws w o) 3 16) 3 1 w (model_mean bright_setting) 16 256 7 /\
  pixel_noise (row w) (fun o => series_at (gen_cam w) (gen_draws w o) 3 19) 3 1 w (model_mean dark_setting) 0 0 1 /\
  let vd := 1 * 1 * spatial_varianceR 1 w (st_dsnu bright_setting) in
  let vb := 1 * 1 * spatial_varianceR 1 w (fun r c => st_light bright_setting r c + st_dsnu bright_setting r c) in
  let u := 1 * pixel_meanR 1 w (st_light bright_setting) in
  1 / 2 <= vd /\ 2 * (1 / 2) <= vb - vd /\ 2 * (1 / 2) < u.
Proof.
  destruct (striped_simulation k k1) as (_ & _ & E3 & E4 & E5 & E6). destruct gen_patterned as ((_ & _ & N1) & (_ & _ & N2)).
  split; [|split; [|split; [exact E3|split; [intros; apply E4|split; [|split]]]]].
  - apply coined_simulated; cbn [x0 x1 a0 a1 bright_stripes]; try lia; [reflexivity|exact gen_stripes_bright].
  - apply coined_simulated; cbn [x0 x1 a0 a1 dark_stripes]; try lia; [reflexivity|exact gen_stripes_dark].
  - apply (noise_ext _ _ _ _ _ _ (stripes bright_stripes)); [intros; symmetry; apply E5|exact N1].
  - apply (noise_ext _ _ _ _ _ _ (stripes dark_stripes)); [intros; symmetry; apply E6|exact N2].
  - apply (simulated_case k k1).
Qed.
End Case.

Lemma striped_odds3 w : 500000 <= INR w -> total_odds 3 3 1 w 16 256 7 0 0 1 (1 / 2) <= 1 / 2.
Proof.
  intros H. unfold total_odds, pattern_odds, level_odds. rewrite Nat.mul_1_l. replace (INR 3) with 3 by (simpl; lra).
  match goal with |- ?x <= _ => replace x with ((4 * (128 * 49 * 16 / 3 + 32 * 256) + 16 * 16 / 3 + 4 * 16 / 3) / INR w) by (field; lra) end.
  apply (Rmult_le_reg_r (INR w)); [lra|]. unfold Rdiv at 1. rewrite Rmult_assoc, Rinv_l by lra. lra.
Qed.
