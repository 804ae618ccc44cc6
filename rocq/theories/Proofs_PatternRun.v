(** The fixed pattern figures of a generated data set. *)
From Coq Require Import List Bool Arith ZArith QArith Qreals Reals Lia Lra FunctionalExtensionality Classical_Prop.
From Verif Require Import Base_Prelude Base_Str Base_Num Base_Order Base_Float Base_Sum Base_SumR Base_Xreal Model_Path Model_Parser Model_Images
  Model_Loader Model_Data Model_Results Model_Emva Model_Camera Model_Points Model_Dataset Model_Generated
  Spec_Parser Spec_Images Spec_Data Spec_Results Spec_Camera Spec_Dataset Spec_Generated Spec_Chance Spec_Linear Spec_Any Spec_Near Spec_Pattern
  Spec_Emva Spec_Whole Spec_Figures Spec_PatternFiles Spec_RandomRun
  Proofs_Near Proofs_Near2 Proofs_Near3 Proofs_Figures2 Proofs_Figures3 Proofs_Pattern2 Proofs_Whole Proofs_Run Proofs_Run2 Proofs_Run3 Proofs_Run4 Proofs_Run6 Proofs_Run7
  Proofs_PatternFiles.
Import ListNotations.
Open Scope R_scope.
Set Bullet Behavior "Strict Subproofs".

Section Slack.
Context {W : Type} (C : chance W) (O : W -> robj) (B D : nat -> W -> list image) (n h w p : nat) (T : truth) (x : nat -> R)
  (V M eta K q s e : R).
Hypothesis ME : measurement C O B D n h w T x V M.
Hypothesis NL : near_law T x p eta K q s.
Hypothesis s0 : 0 <= s.
Hypothesis e0 : 0 < e.
Hypothesis CL : clear_points T n p (e + 2 * s).
Hypothesis HN : (2 <= h * w)%nat.

Lemma slack_gain : unlikely C (fun o => ~ gain_within (O o) K (gain_error (x 0%nat) eta K (q + K * s) (e + s)))
    (INR n / INR (h * w) * ((V + 2 * M) / (e * e) + 4 * V / e)).
Proof.
  eapply unlikely_mono; [|apply Rle_refl|eapply within_unlikely; eassumption].
  intros o N MW. apply N. pose proof (cl_points _ _ _ _ CL) as PN.
  destruct (stable_errors (O o) (moved T x p eta K) n p eta K (q + K * s) (e + s)) as (r & k & _ & Ek & _ & NK).
  - apply (law_ext _ x); [|eapply moved_law; eassumption]. intros i Hi. symmetry. apply (me_light _ _ _ _ _ _ _ _ _ _ _ ME). lia.
  - eapply moved_clear; eauto. lra.
  - eapply moved_within; eassumption.
  - apply (me_shape _ _ _ _ _ _ _ _ _ _ _ ME).
  - apply (me_unforced _ _ _ _ _ _ _ _ _ _ _ ME).
  - apply Forall_forall. intros v Hv. apply (In_nth _ _ 0%Q) in Hv. destruct Hv as (i & Hi & <-).
    destruct (me_shape _ _ _ _ _ _ _ _ _ _ _ ME o) as (_ & _ & _ & EL & _). rewrite EL in Hi.
    destruct (me_computed _ _ _ _ _ _ _ _ _ _ _ ME o i Hi) as (CB & _).
    destruct (me_bright _ _ _ _ _ _ _ _ _ _ _ ME i Hi) as (OK & mu & s2 & NP & _).
    apply (computed_nonneg h w (B i o) (at_ (r_uy (o_t (O o))) i)); [apply OK| |lia|exact CB].
    apply (rs_length _ _ _ _ _ _ _ _ (np_series _ _ _ _ _ _ _ _ NP)).
  - intros i Hi. cbn [moved tr_var]. apply (me_clipped _ _ _ _ _ _ _ _ _ _ _ ME o i Hi).
  - exists k. split; [exact Ek|]. rewrite <- (me_light _ _ _ _ _ _ _ _ _ _ _ ME o 0%nat) by lia. exact NK.
Qed.
End Slack.

Section Usable.
Context {W : Type} (C : chance W).
Variables (li : Model_Dataset.light) (c : camera) (ds : W -> nat -> draws) (version format outdir : str) (L : nat)
  (p : points) (es : W -> list event) (file : str) (bs : list (shot * shot))
  (visit_t visit_s : exposure_dict -> exposure_dict) (T : truth) (V M : R).
Hypothesis VT : any_order visit_t.
Hypothesis VS : any_order visit_s.
Hypothesis UR : usable_run li c ds version format outdir L p es file.
Hypothesis ORD : in_order li p bs.
Local Notation h := (c_height c).
Local Notation w := (c_width c).
Local Notation disk := (fun o => disk_of h w (es o)).

(** The files. *)
Lemma run_files nb nd : spatial_shots li L p nb nd ->
  exists t ents ps b d, (forall o, written (es o) = t) /\ lists file t ents /\ (forall o, complete_set (disk o) h w ents) /\
  Spec_Whole.points_of ents ps /\ length ps = length bs /\ stated_light ps = listed_light li bs /\
  (forall T V M, random_run C c ds L p bs T V M -> random_files C disk ps h w T V M) /\
  spatial_pair ents b d /\
  (forall o, contents (disk o) b = series_at c (ds o) L nb) /\ (forall o, contents (disk o) d = series_at c (ds o) L nd).
Proof.
  intros (sb & sd & Ib & Id & Kb & Kd & Db & Dd & Fb & Fd).
  destruct UR as [EXT VER HL SEP CAM DRAWS BITS SIZE RUN DIFF COMP].
  destruct (run_set C li c ds version format outdir L p es file bs EXT VER HL SEP CAM DRAWS BITS SIZE RUN DIFF COMP ORD)
    as (t & ents & ps & WR & LI & CS & PS & F & _ & SH).
  assert (FI : forall s, In s (shots p) -> finite (listed_exposure s) /\ finite (listed_photons li s)).
  { intros s Hs. destruct (cp_finite _ _ COMP s Hs) as (X & Y & _). auto. }
  destruct (SH sb Ib) as (b & n & Hb & (R1 & R2 & R3 & _) & N1 & C1). destruct (SH sd Id) as (d & m & Hd & (Q1 & Q2 & Q3 & _) & N2 & C2).
  rewrite <- (first_image_unique li L p FI DIFF sb nb n Fb N1) in C1. rewrite <- (first_image_unique li L p FI DIFF sd nd m Fd N2) in C2.
  unfold images_in in C1, C2. rewrite Kb in C1. rewrite Kd in C2.
  exists t, ents, ps, b, d. split; [exact WR|]. split; [exact LI|]. split; [exact CS|]. split; [exact PS|].
  split; [clear - F; induction F; cbn [length]; auto|]. split.
  { apply functional_extensionality. intro i. unfold stated_light, listed_light. clear - F.
    revert i. induction F as [|(x, y) (u, v) bs ps H F IH]; intros [|i]; cbn [nth_error]; auto.
    destruct H as (_ & E & _). cbn [fst] in E. rewrite E. reflexivity. }
  split; [intros T' V' M' RR; exact (run_random C li c ds L p es file bs T' V' M' RR t ents ps LI F)|].
  split; [|auto]. split; [exact Hb|]. split; [exact Hd|]. split; [unfold spatial_entry; congruence|]. split; [unfold spatial_entry; congruence|].
  unfold dark_entry. rewrite R3, Q3. split; assumption.
Qed.

Variables (nb nd : nat) (mb md : nat -> nat -> R) (Vb Mb Pb Vd Md Pd f : R).
Hypothesis SS : spatial_shots li L p nb nd.
Hypothesis PB : patterned C (fun o => series_at c (ds o) L nb) L h w mb Vb Mb Pb.
Hypothesis PD : patterned C (fun o => series_at c (ds o) L nd) L h w md Vd Md Pd.
Hypothesis f0 : 0 < f.
Local Notation vd := (spatial_varianceR h w md).
Local Notation vb := (spatial_varianceR h w mb).
Local Notation u := (pixel_meanR h w mb - pixel_meanR h w md).
Hypothesis H1 : f <= vd.
Hypothesis H2 : 2 * f <= vb - vd.
Hypothesis H3 : 2 * f < u.

Lemma run_pattern :
  unlikely C (fun o => ~ exists x, emva (disk o) visit_t visit_s file (Some (written (es o))) = Ok (Some x) /\ pattern_right x vd vb u f)
    (total_odds L L h w Vb Mb Pb Vd Md Pd f).
Proof.
  destruct (run_files nb nd SS) as (t & ents & ps & b & d & WR & LI & CS & _ & _ & _ & _ & SP & C1 & C2).
  pose proof (ur_size _ _ _ _ _ _ _ _ _ _ UR) as (HW & _). pose proof (ur_images _ _ _ _ _ _ _ _ _ _ UR) as HL.
  eapply unlikely_mono; [|apply Rle_refl|apply (files_pattern C disk h w file t ents visit_t visit_s b d VT VS LI CS SP L L mb md Vb Mb Pb Vd Md Pd f)];
    try assumption; try lia.
  - intros o N (x & E & PR). apply N. exists x. rewrite WR. auto.
  - replace (fun o => contents (disk o) b) with (fun o => series_at c (ds o) L nb); [exact PB|]. apply functional_extensionality. intro o. symmetry. apply C1.
  - replace (fun o => contents (disk o) d) with (fun o => series_at c (ds o) L nd); [exact PD|]. apply functional_extensionality. intro o. symmetry. apply C2.
Qed.

Lemma run_electrons k eta K q s e : random_run C c ds L p bs T V M -> near_law T (listed_light li bs) k eta K q s -> 0 <= s -> 0 < e ->
  clear_points T (length bs) k (e + 2 * s) ->
  let g := gain_error (listed_light li bs 0) eta K (q + K * s) (e + s) in g < K ->
  unlikely C (fun o => ~ exists x, emva (disk o) visit_t visit_s file (Some (written (es o))) = Ok (Some x) /\ pattern_right x vd vb u f /\
      reports (DSNU1288 x) (sqrt vd / K) (quotient_error (sqrt vd) (f / sqrt vd) K g))
    (INR (length bs) / INR (h * w) * ((V + 2 * M) / (e * e) + 4 * V / e) + total_odds L L h w Vb Mb Pb Vd Md Pd f).
Proof.
  intros RR NL s0 e0 CL g GK.
  destruct (run_files nb nd SS) as (t & ents & ps & b & d & WR & LI & CS & PS & LN & LE & RF & SP & C1 & C2).
  pose proof (ur_size _ _ _ _ _ _ _ _ _ _ UR) as (HW & _). pose proof (ur_images _ _ _ _ _ _ _ _ _ _ UR) as HL.
  assert (ME := whole_measurement C disk h w file t ents ps visit_t visit_s T V M VT VS LI CS PS (RF T V M RR)).
  rewrite LN, LE in ME.
  pose proof (slack_gain C _ _ _ _ h w k T _ V M eta K q s e ME NL s0 e0 CL HW) as U1.
  assert (EB : (fun o => contents (disk_of h w (es o)) b) = fun o => series_at c (ds o) L nb)
    by (apply functional_extensionality; intro o; apply C1).
  assert (ED : (fun o => contents (disk_of h w (es o)) d) = fun o => series_at c (ds o) L nd)
    by (apply functional_extensionality; intro o; apply C2).
  assert (U2 : unlikely C (fun o => ~ pattern_right (the_obj disk file t visit_t visit_s o) vd vb u f) (total_odds L L h w Vb Mb Pb Vd Md Pd f)).
  { apply (obj_pattern C disk h w file t ents visit_t visit_s b d VT VS LI CS SP L L mb md Vb Mb Pb Vd Md Pd f); try assumption; try lia.
    - rewrite EB. exact PB.
    - rewrite ED. exact PD. }
  eapply unlikely_mono; [|apply Rle_refl|apply (obj_event C disk h w file t ents visit_t visit_s VT VS LI CS
    (fun x => pattern_right x vd vb u f /\ reports (DSNU1288 x) (sqrt vd / K) (quotient_error (sqrt vd) (f / sqrt vd) K g)))].
  - intros o N (x & E & PR). apply N. exists x. rewrite WR. auto.
  - eapply unlikely_mono; [|apply Rle_refl|apply (unlikely_or C _ _ _ _ U1 U2)].
    intros o N. set (x := the_obj _ _ _ _ _ o) in *.
    destruct (classic (gain_within x K g)) as [G|G]; [right|left; exact G].
    intro PR. apply N. split; [exact PR|]. eapply electrons_quotient; eauto.
Qed.
End Usable.
