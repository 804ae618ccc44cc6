(** Proofs for C125: the fixed pattern figures of a whole evaluation in double precision. *)
From Coq Require Import List Bool Arith ZArith QArith Qabs Qreals Reals Lia Lra FunctionalExtensionality Classical_Prop.
From Verif Require Import Base_Prelude Base_Str Base_Num Base_Order Base_Float Base_Sum Base_SumR Base_Xreal Model_Path Model_Parser Model_Images
  Model_Loader Model_Data Model_Results Model_Emva Model_Camera Model_Points Model_Dataset Model_Generated
  Model_Rounded Model_RoundedSpatial Model_RoundedEmva
  Spec_Parser Spec_Images Spec_Data Spec_Results Spec_Camera Spec_Dataset Spec_Generated Spec_Chance Spec_Linear Spec_Any Spec_Near Spec_Pattern
  Spec_Emva Spec_Whole Spec_Figures Spec_PatternFiles Spec_RandomRun Spec_Rounded Spec_RoundedSpatial Spec_RoundedEmva Spec_PatternFloat
  Proofs_Linear Proofs_Any Proofs_Any2 Proofs_Near Proofs_Near2 Proofs_Near3 Proofs_Figures2 Proofs_Figures3 Proofs_Pattern2 Proofs_Whole Proofs_Run Proofs_Run2 Proofs_Run3 Proofs_Run4 Proofs_Run6 Proofs_Run7
  Proofs_Fit Proofs_Float Proofs_REmva2 Proofs_REmva3 Proofs_Pattern Proofs_PatternFiles Proofs_PatternRun.
Import ListNotations.
Open Scope R_scope.
Set Bullet Behavior "Strict Subproofs".

(** The four figures behind DSNU and PRNU are right up to e. *)
Definition four_near (o : robj) (vd vb md mb e : R) : Prop :=
  exists sd sb, s_2_y_dark o = Some sd /\ s_2_y o = Some sb /\
  Rabs (Q2R sd - vd) <= e /\ Rabs (Q2R sb - vb) <= e /\
  Rabs (Q2R (sd_avg_mean (sp_dark (o_s o))) - md) <= e /\ Rabs (Q2R (sd_avg_mean (sp_bright (o_s o))) - mb) <= e.

Lemma four_pattern o vd vb md mb e : four_near o vd vb md mb e -> 0 < e -> e <= vd -> 2 * e <= vb - vd -> 2 * e < mb - md ->
  pattern_right o vd vb (mb - md) e.
Proof.
  intros (sd & sb & Ed & Eb & Nd & Nb & Md & Mb) e0 H1 H2 H3. apply (pattern_figures o sd sb); auto.
  apply abs_between in Md. apply abs_between in Mb. apply Rabs_le. lra.
Qed.

Section Odds.
Context {W : Type} (C : chance W) (O : W -> robj) (SB SD : W -> list image) (L L' h w : nat).
Variables (mb md : nat -> nat -> R) (V M D V' M' D' e : R).
Lemma four_unlikely : patterned C SB L h w mb V M D -> patterned C SD L' h w md V' M' D' ->
  (2 <= L)%nat -> (2 <= L')%nat -> (2 <= h * w)%nat ->
  (forall o, spatial_data_of h w (SB o) (sp_bright (o_s (O o)))) ->
  (forall o, spatial_data_of h w (SD o) (sp_dark (o_s (O o)))) -> 0 < e ->
  unlikely C (fun o => ~ four_near (O o) (spatial_varianceR h w md) (spatial_varianceR h w mb) (pixel_meanR h w md) (pixel_meanR h w mb) e)
    (total_odds L L' h w V M D V' M' D' e).
Proof.
  intros PB PD L2 L2' HW HB HD e0.
  destruct (bright_odds C O SB L h w mb V M D e PB L2 HW HB e0) as (B1 & B2 & BS).
  destruct (dark_odds C O SD L' h w md V' M' D' e PD L2' HW HD e0) as (D1 & D2 & DS).
  eapply unlikely_mono; [|apply Rle_refl|apply (unlikely_or C _ _ _ _ (unlikely_or C _ _ _ _ B1 B2) (unlikely_or C _ _ _ _ D1 D2))].
  intros o NP. destruct (BS o) as (sb & Eb). destruct (DS o) as (sd & Ed). rewrite Eb, Ed. cbn [number].
  set (ub := Q2R (sd_avg_mean (sp_bright (o_s (O o))))). set (ud := Q2R (sd_avg_mean (sp_dark (o_s (O o))))).
  destruct (abs_le_dec (Q2R sb - spatial_varianceR h w mb) e) as [A|A]; [|left; left; exact A].
  destruct (abs_le_dec (ub - pixel_meanR h w mb) e) as [A1|A1]; [|left; right; exact A1].
  destruct (abs_le_dec (Q2R sd - spatial_varianceR h w md) e) as [A2|A2]; [|right; left; exact A2].
  destruct (abs_le_dec (ud - pixel_meanR h w md) e) as [A3|A3]; [|right; right; exact A3].
  exfalso. apply NP. exists sd, sb. auto 10.
Qed.
End Odds.

(** ** Computed figures are near the exact ones *)
Lemma bounds_pos b n : (0 <= b)%Z -> 0 <= Q2R (spatial_bound b n) /\ Q2R (mean_bound b n) <= Q2R (spatial_bound b n).
Proof.
  intro Hb. assert (1 <= 2 ^ b)%Z by (pose proof (Z.pow_pos_nonneg 2 b); lia).
  assert (E : (2 ^ (2 * b) = 2 ^ b * 2 ^ b)%Z) by (rewrite <- Z.pow_add_r by lia; f_equal; lia).
  unfold spatial_bound, mean_bound. rewrite E. set (B := (2 ^ b)%Z) in *.
  rewrite !Q2R_div by (unfold Qeq, inject_Z; cbn [Qnum Qden]; lia). rewrite !Q2R_inject_Z.
  assert (0 <= IZR (Z.of_nat n)) by (apply IZR_le; lia). assert (1 <= IZR B) by (apply IZR_le; lia).
  rewrite !mult_IZR, !plus_IZR. change (2 ^ 51)%Z with (4 * 2 ^ 49)%Z. rewrite mult_IZR.
  assert (P : 0 < IZR (2 ^ 49)) by (apply IZR_lt; lia). set (X := IZR (2 ^ 49)) in *. clearbody X.
  set (N := IZR (Z.of_nat n)) in *. set (Y := IZR B) in *. clearbody N Y.
  assert (0 <= (N + 3) * (Y * Y)) by (apply Rmult_le_pos; [lra|apply Rmult_le_pos; lra]).
  split; [apply Rmult_le_pos; [assumption|apply Rlt_le, Rinv_0_lt_compat, P]|].
  unfold Rdiv. rewrite Rinv_mult. rewrite <- Rmult_assoc. apply Rmult_le_compat_r; [apply Rlt_le, Rinv_0_lt_compat, P|].
  assert ((N + 1) * Y <= (N + 3) * (Y * Y)).
  { apply Rmult_le_compat; try lra. rewrite <- (Rmult_1_l Y) at 1. apply Rmult_le_compat_r; lra. }
  assert (0 <= (N + 1) * Y) by (apply Rmult_le_pos; lra). lra.
Qed.

Lemma Qabs_R (x y e : Q) : (Qabs (x - y) <= e)%Q -> Rabs (Q2R x - Q2R y) <= Q2R e.
Proof. intro H. rewrite <- Q2R_minus, <- Q2R_Qabs. apply Qle_Rle, H. Qed.

(** var - stack / L *)
Lemma corrected_near b n f s v : (0 <= b)%Z -> (2 <= sd_L s)%nat -> series_near b n f s ->
  olift2 Qminus (sd_avg_var s) (omap (fun v => v / qn (sd_L s))%Q (sd_var_mean s)) = Some v ->
  exists v', olift2 Qminus (sd_avg_var f) (omap (fun v => v / qn (sd_L f))%Q (sd_var_mean f)) = Some v' /\
  Rabs (Q2R v' - Q2R v) <= rounding_part b n.
Proof.
  intros Hb L2 (_ & EL & _ & _ & _ & A & B & _) E. rewrite EL.
  destruct (sd_avg_var s) as [av|]; [|discriminate]. destruct (sd_var_mean s) as [vm|]; [|discriminate]. cbn [omap olift2] in E. injection E as <-.
  destruct (sd_avg_var f) as [av'|]; [|contradiction]. destruct (sd_var_mean f) as [vm'|]; [|contradiction]. cbn [same_opt] in A, B.
  cbn [omap olift2]. eexists. split; [reflexivity|]. apply Qabs_R in A. apply Qabs_R in B.
  assert (NZ : ~ (qn (sd_L s) == 0)%Q) by (apply qn_neq0; lia).
  rewrite !Q2R_minus, !Q2R_div by exact NZ. rewrite Q2R_qn.
  assert (I1 : 1 <= INR (sd_L s)) by (change 1 with (INR 1); apply le_INR; lia). set (N := INR (sd_L s)) in *. clearbody N.
  destruct (bounds_pos b n Hb) as (P & _). unfold rounding_part.
  replace (Q2R av' - Q2R vm' / N - (Q2R av - Q2R vm / N)) with ((Q2R av' - Q2R av) - (Q2R vm' - Q2R vm) / N) by (field; lra).
  unfold Rminus at 1. eapply Rle_trans; [apply Rabs_triang|]. rewrite Rabs_Ropp. unfold Rdiv at 1. rewrite Rabs_mult.
  assert (0 < / N) by (apply Rinv_0_lt_compat; lra). assert (/ N <= 1) by (rewrite <- Rinv_1; apply Rinv_le_contravar; lra).
  rewrite (Rabs_pos_eq (/ N)) by lra.
  assert (Rabs (Q2R vm' - Q2R vm) * / N <= Q2R (spatial_bound b n) * 1).
  { apply Rmult_le_compat; try lra. apply Rabs_pos. }
  lra.
Qed.

Lemma four_rounded b n y x vd vb md mb e : (0 <= b)%Z -> (2 <= sd_L (sp_dark (o_s x)))%nat -> (2 <= sd_L (sp_bright (o_s x)))%nat ->
  object_near b n y x -> four_near x vd vb md mb e -> four_near y vd vb md mb (e + rounding_part b n).
Proof.
  intros Hb Ld Lb ON (sd & sb & Ed & Eb & Nd & Nb & Md & Mb).
  destruct (corrected_near b n _ _ sd Hb Ld (on_dark _ _ _ _ ON) Ed) as (sd' & Ed' & Nd').
  destruct (corrected_near b n _ _ sb Hb Lb (on_bright _ _ _ _ ON) Eb) as (sb' & Eb' & Nb').
  destruct (bounds_pos b n Hb) as (P & PM).
  assert (T : forall a m z r, Rabs (m - z) <= e -> Rabs (a - m) <= r -> r <= rounding_part b n -> Rabs (a - z) <= e + rounding_part b n).
  { intros a m z r X Y Z. replace (a - z) with ((m - z) + (a - m)) by ring. eapply Rle_trans; [apply Rabs_triang|]. lra. }
  assert (Z : Q2R (mean_bound b n) <= rounding_part b n) by (unfold rounding_part; lra).
  exists sd', sb'. split; [exact Ed'|]. split; [exact Eb'|].
  destruct (on_dark _ _ _ _ ON) as (_ & _ & _ & _ & X1 & _). destruct (on_bright _ _ _ _ ON) as (_ & _ & _ & _ & X2 & _).
  apply Qabs_R in X1. apply Qabs_R in X2.
  split; [eapply T; eauto; lra|]. split; [eapply T; eauto; lra|]. split; eapply T; eauto.
Qed.

(** ** Two events about the same evaluation *)
Lemma both_unlikely {W} (C : chance W) (f : W -> res (option robj)) (P Q : robj -> Prop) a b :
  unlikely C (fun o => ~ exists y, f o = Ok (Some y) /\ P y) a -> unlikely C (fun o => ~ exists y, f o = Ok (Some y) /\ Q y) b ->
  unlikely C (fun o => ~ exists y, f o = Ok (Some y) /\ P y /\ Q y) (a + b).
Proof.
  intros A B. eapply unlikely_mono; [|apply Rle_refl|apply (unlikely_or C _ _ _ _ A B)].
  intros o N. destruct (classic (exists y, f o = Ok (Some y) /\ P y)) as [(y & E & Py)|X]; [|left; exact X]. right.
  intros (z & E' & Qz). apply N. exists y. rewrite E in E'. injection E' as <-. auto.
Qed.

Section Files.
Context {W : Type} (C : chance W) (fs : W -> fsys) (h w : nat) (fname t : str) (es : list entry)
  (visit_t visit_s : exposure_dict -> exposure_dict) (be de : entry) (ad : additions) (n : nat) (b : Z).
Hypothesis VT : any_order visit_t.
Hypothesis VS : any_order visit_s.
Hypothesis LI : lists fname t es.
Hypothesis CS : forall o, complete_set (fs o) h w es.
Hypothesis SP : spatial_pair es be de.
Hypothesis SA : sound_additions ad n h w.
Hypothesis FB : forall o, files_bits (fs o) es h w b.
Variables (L L' : nat) (mb md : nat -> nat -> R) (V M D V' M' D' f : R).
Hypothesis PB : patterned C (fun o => contents (fs o) be) L h w mb V M D.
Hypothesis PD : patterned C (fun o => contents (fs o) de) L' h w md V' M' D'.
Hypothesis L2 : (2 <= L)%nat.
Hypothesis L2' : (2 <= L')%nat.
Hypothesis f0 : 0 < f.
Let F := f + rounding_part b n.
Local Notation vd := (spatial_varianceR h w md).
Local Notation vb := (spatial_varianceR h w mb).
Local Notation u := (pixel_meanR h w mb - pixel_meanR h w md).
Hypothesis H1 : F <= vd.
Hypothesis H2 : 2 * F <= vb - vd.
Hypothesis H3 : 2 * F < u.

Lemma float_pattern : (2 <= h * w)%nat ->
  unlikely C (fun o => ~ exists y, emva_f ad (fs o) visit_t visit_s fname (Some t) = Ok (Some y) /\ pattern_right y vd vb u F)
    (total_odds L L' h w V M D V' M' D' f).
Proof.
  intro HW. set (obj := the_obj fs fname t visit_t visit_s).
  assert (OS := obj_series fs h w fname t es visit_t visit_s be de VT VS LI CS SP).
  eapply unlikely_mono; [|apply Rle_refl|apply (four_unlikely C obj (fun o => contents (fs o) be) (fun o => contents (fs o) de) L L' h w mb md V M D V' M' D' f);
    try assumption; intro o; apply OS].
  intros o N FN. apply N.
  destruct (emva_close (fs o) h w visit_t visit_s fname t es ad n b VT VS LI (CS o) SA (FB o)) as (x & y & EX & EY & ON & _).
  exists y. split; [exact EY|].
  assert (X : obj o = x) by (unfold obj, the_obj; rewrite EX; reflexivity). rewrite <- X in *. clear X.
  assert (B0 : (0 <= b)%Z) by apply (FB o).
  assert (LB : sd_L (sp_bright (o_s (obj o))) = L).
  { destruct PB as ((s2 & RS) & DOC & PN).
    apply (Proofs_Any2.figures C _ L h w mb (fun _ => 0) s2 RS L2 HW DOC (fun o => sp_bright (o_s (obj o))) (fun o => proj1 (OS o)) o). }
  assert (LD : sd_L (sp_dark (o_s (obj o))) = L').
  { destruct PD as ((s2 & RS) & DOC & PN).
    apply (Proofs_Any2.figures C _ L' h w md (fun _ => 0) s2 RS L2' HW DOC (fun o => sp_dark (o_s (obj o))) (fun o => proj2 (OS o)) o). }
  apply four_pattern; [|pose proof (bounds_pos b n B0) as (P & _); unfold F, rounding_part; lra|exact H1|exact H2|exact H3].
  unfold F. apply (four_rounded b n y (obj o)); auto; lia.
Qed.

Lemma float_electrons ps T Vt Mt p eta K q e : Spec_Whole.points_of es ps -> random_files C fs ps h w T Vt Mt ->
  let E := e + Q2R (variance_error b) in 0 < e -> noise_seen fs ps h w T E ->
  linear_law T (stated_light ps) p eta K q -> clear_points T (length ps) p E -> (2 <= h * w)%nat ->
  gain_error (stated_light ps 0) eta K q E < K ->
  unlikely C (fun o => ~ exists y, emva_f ad (fs o) visit_t visit_s fname (Some t) = Ok (Some y) /\ pattern_right y vd vb u F /\
      reports (DSNU1288 y) (sqrt vd / K) (quotient_error (sqrt vd) (F / sqrt vd) K (gain_error (stated_light ps 0) eta K q E)))
    (INR (length ps) / INR (h * w) * ((Vt + 2 * Mt) / (e * e) + 4 * Vt / e) + total_odds L L' h w V M D V' M' D' f).
Proof.
  intros PS RF E e0 NS LL CP HW SK.
  assert (G : unlikely C (fun o => ~ exists y, emva_f ad (fs o) visit_t visit_s fname (Some t) = Ok (Some y) /\
      gain_within y K (gain_error (stated_light ps 0) eta K q E)) (INR (length ps) / INR (h * w) * ((Vt + 2 * Mt) / (e * e) + 4 * Vt / e))).
  { apply (good_likely C fs h w fname t es ps visit_t visit_s T Vt Mt ad n b VT VS LI CS PS RF SA FB e e0 NS HW).
    intros y G. rewrite <- (Proofs_REmva3.good_first h w ps T b e HW p CP y G). pose proof (Proofs_REmva3.good_law h w ps T b e HW p eta K q LL CP y G) as GL. destruct G as [G1 G2 G3 G4 G5 G6 G7].
    destruct (stable_errors y T (length ps) p eta K q E GL CP G1 G2 G3 G4 G5) as (r & k & _ & Ek & _ & NK).
    exists k. split; assumption. }
  eapply unlikely_mono; [|apply Rle_refl|apply (both_unlikely C _ _ _ _ _ G (float_pattern HW))].
  intros o N (y & EY & GW & PR). apply N. exists y. split; [exact EY|]. split; [exact PR|].
  eapply electrons_quotient; eauto.
Qed.
End Files.

Section Usable.
Context {W : Type} (C : chance W).
Variables (li : Model_Dataset.light) (c : camera) (ds : W -> nat -> draws) (version format outdir : str) (L : nat)
  (p : points) (es : W -> list event) (file : str) (bs : list (shot * shot))
  (visit_t visit_s : exposure_dict -> exposure_dict) (T : truth) (V M : R) (ad : additions) (n : nat).
Hypothesis VT : any_order visit_t.
Hypothesis VS : any_order visit_s.
Hypothesis UR : usable_run li c ds version format outdir L p es file.
Hypothesis ORD : in_order li p bs.
Local Notation h := (c_height c).
Local Notation w := (c_width c).
Local Notation disk := (fun o => disk_of h w (es o)).
Hypothesis SA : sound_additions ad n h w.
Variables (nb nd : nat) (mb md : nat -> nat -> R) (Vb Mb Pb Vd Md Pd f : R).
Hypothesis SS : spatial_shots li L p nb nd.
Hypothesis PB : patterned C (fun o => series_at c (ds o) L nb) L h w mb Vb Mb Pb.
Hypothesis PD : patterned C (fun o => series_at c (ds o) L nd) L h w md Vd Md Pd.
Hypothesis f0 : 0 < f.
Let b := Z.of_nat (c_bits c).
Let F := f + rounding_part b n.
Local Notation vd := (spatial_varianceR h w md).
Local Notation vb := (spatial_varianceR h w mb).
Local Notation u := (pixel_meanR h w mb - pixel_meanR h w md).
Hypothesis H1 : F <= vd.
Hypothesis H2 : 2 * F <= vb - vd.
Hypothesis H3 : 2 * F < u.

Lemma run_files_bits : exists t ents ps be de, (forall o, written (es o) = t) /\ lists file t ents /\ (forall o, complete_set (disk o) h w ents) /\
  spatial_pair ents be de /\ (forall o, files_bits (disk o) ents h w b) /\
  (forall o, contents (disk o) be = series_at c (ds o) L nb) /\ (forall o, contents (disk o) de = series_at c (ds o) L nd) /\
  Spec_Whole.points_of ents ps /\ length ps = length bs /\ stated_light ps = listed_light li bs /\
  (forall T V M, random_run C c ds L p bs T V M -> random_files C disk ps h w T V M) /\
  (forall T E, noise_resolved c ds L p bs T E -> noise_seen disk ps h w T E).
Proof.
  destruct SS as (sb & sd & Ib & Id & Kb & Kd & Db & Dd & Fb & Fd).
  pose proof UR as [EXT VER HL SEP CAM DRAWS BITS SIZE RUN DIFF COMP].
  destruct (run_set C li c ds version format outdir L p es file bs EXT VER HL SEP CAM DRAWS BITS SIZE RUN DIFF COMP ORD)
    as (t & ents & ps & WR & LI & CS & PS & FO & FB & SH).
  assert (FI : forall s, In s (shots p) -> finite (listed_exposure s) /\ finite (listed_photons li s)).
  { intros s Hs. destruct (cp_finite _ _ COMP s Hs) as (X & Y & _). auto. }
  destruct (SH sb Ib) as (be & i & Hb & (R1 & R2 & R3 & _) & N1 & C1). destruct (SH sd Id) as (de & m & Hd & (Q1 & Q2 & Q3 & _) & N2 & C2).
  rewrite <- (first_image_unique li L p FI DIFF sb nb i Fb N1) in C1. rewrite <- (first_image_unique li L p FI DIFF sd nd m Fd N2) in C2.
  unfold images_in in C1, C2. rewrite Kb in C1. rewrite Kd in C2.
  exists t, ents, ps, be, de. split; [exact WR|]. split; [exact LI|]. split; [exact CS|]. split; [|split; [|split; [exact C1|split; [exact C2|split; [exact PS|split; [|split; [|split]]]]]]].
  - split; [exact Hb|]. split; [exact Hd|]. split; [unfold spatial_entry; congruence|]. split; [unfold spatial_entry; congruence|].
    unfold dark_entry. rewrite R3, Q3. split; assumption.
  - intro o. split; [unfold b; lia|]. intros x g im r j Hx Hg D Hr Hj. destruct (FB x g o Hx Hg) as (l & El).
    rewrite El in D. injection D as <-. apply (picture_range li c ds version format outdir L p es file UR o l r j Hr Hj).
  - clear - FO. induction FO; cbn [length]; auto.
  - apply functional_extensionality. intro j. unfold stated_light, listed_light. clear - FO.
    revert j. induction FO as [|(x, y) (x', v) bs ps H FO IH]; intros [|j]; cbn [nth_error]; auto.
    destruct H as (_ & E & _). cbn [fst] in E. rewrite E. reflexivity.
  - intros T' V' M' RR; exact (run_random C li c ds L p es file bs T' V' M' RR t ents ps LI FO).
  - intros T' E NS j x y N. destruct (f2_nth_error _ _ _ _ _ FO N) as ((sb', sd') & Hb' & _ & _ & nb' & nd' & M1 & M2 & CC).
    destruct (NS j sb' sd' nd' Hb' M2) as (A & B). split; [exact A|]. destruct B as [B|B]; [left; exact B|]. right.
    intros o X Y EQ. destruct (CC o) as (_ & CD). cbn [fst snd] in CD. rewrite CD in EQ. injection EQ as <- <-.
    intros r z Hr Hz. apply B; assumption.
Qed.

Lemma float_run_pattern :
  unlikely C (fun o => ~ exists y, emva_f ad (disk o) visit_t visit_s file (Some (written (es o))) = Ok (Some y) /\ pattern_right y vd vb u F)
    (total_odds L L h w Vb Mb Pb Vd Md Pd f).
Proof.
  destruct run_files_bits as (t & ents & ps & be & de & WR & LI & CS & SP & FB & C1 & C2 & _).
  pose proof (ur_size _ _ _ _ _ _ _ _ _ _ UR) as (HW & _). pose proof (ur_images _ _ _ _ _ _ _ _ _ _ UR) as HL.
  eapply unlikely_mono; [|apply Rle_refl|apply (float_pattern C disk h w file t ents visit_t visit_s be de ad n b VT VS LI CS SP SA FB L L mb md Vb Mb Pb Vd Md Pd f)];
    try assumption; try lia.
  - intros o N (x & E & PR). apply N. exists x. rewrite WR. auto.
  - replace (fun o => contents (disk o) be) with (fun o => series_at c (ds o) L nb); [exact PB|]. apply functional_extensionality. intro o. symmetry. apply C1.
  - replace (fun o => contents (disk o) de) with (fun o => series_at c (ds o) L nd); [exact PD|]. apply functional_extensionality. intro o. symmetry. apply C2.
Qed.

Lemma float_run_electrons k eta K q s e : random_run C c ds L p bs T V M ->
  let E := e + Q2R (variance_error b) in
  near_law T (listed_light li bs) k eta K q s -> 0 <= s -> 0 < e -> noise_resolved c ds L p bs T E ->
  clear_points T (length bs) k (E + 2 * s) ->
  let g := gain_error (listed_light li bs 0) eta K (q + K * s) (E + s) in g < K ->
  unlikely C (fun o => ~ exists y, emva_f ad (disk o) visit_t visit_s file (Some (written (es o))) = Ok (Some y) /\ pattern_right y vd vb u F /\
      reports (DSNU1288 y) (sqrt vd / K) (quotient_error (sqrt vd) (F / sqrt vd) K g))
    (INR (length bs) / INR (h * w) * ((V + 2 * M) / (e * e) + 4 * V / e) + total_odds L L h w Vb Mb Pb Vd Md Pd f).
Proof.
  intros RR E NL s0 e0 NS CL g GK. assert (E0 : 0 <= E) by (unfold E; pose proof (error_pos b); lra).
  assert (G : unlikely C (fun o => ~ exists y, emva_f ad (disk o) visit_t visit_s file (Some (written (es o))) = Ok (Some y) /\ gain_within y K g)
    (INR (length bs) / INR (h * w) * ((V + 2 * M) / (e * e) + 4 * V / e))).
  { apply (usable_float C li c ds version format outdir L p es file bs visit_t visit_s T V M ad n VT VS UR ORD RR SA k s e e0 NS CL).
    intros y MW SH UF NN ZZ LG _. pose proof (cl_points _ _ _ _ CL) as PN.
    destruct (stable_errors y (moved T (listed_light li bs) k eta K) (length bs) k eta K (q + K * s) (E + s)) as (r & kk & _ & Ek & _ & NK); auto.
    - apply (law_ext _ (listed_light li bs)); [|eapply moved_law; eassumption]. intros i Hi. symmetry. apply LG. lia.
    - eapply moved_clear; eassumption.
    - eapply moved_within; eassumption.
    - exists kk. split; [exact Ek|]. unfold g. rewrite <- (LG 0%nat) by lia. exact NK. }
  eapply unlikely_mono; [|apply Rle_refl|apply (both_unlikely C _ _ _ _ _ G float_run_pattern)].
  intros o N (y & EY & GW & PR). apply N. exists y. split; [exact EY|]. split; [exact PR|].
  eapply electrons_quotient; eauto.
Qed.
End Usable.
