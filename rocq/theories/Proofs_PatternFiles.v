(** The fixed pattern figures of a whole data set. *)
From Coq Require Import List Bool Arith ZArith QArith Qreals Reals Lia Lra FunctionalExtensionality Classical_Prop.
From Verif Require Import Base_Prelude Base_Str Base_Num Base_Order Base_Sum Base_SumR Base_Xreal Model_Parser Model_Images
  Model_Loader Model_Data Model_Results Model_Emva Spec_Parser Spec_Images Spec_Data Spec_Results Spec_Chance Spec_Linear Spec_Any Spec_Near Spec_Pattern
  Spec_Emva Spec_Whole Spec_Figures Spec_PatternFiles
  Proofs_Emva2 Proofs_Emva3 Proofs_Emva4 Proofs_Near Proofs_Near2 Proofs_Near3 Proofs_Figures Proofs_Figures2 Proofs_Figures3 Proofs_Pattern2 Proofs_Whole.
Import ListNotations.
Open Scope R_scope.
Set Bullet Behavior "Strict Subproofs".

(** The gain is right up to [gain_error]. *)
Definition gain_within (o : robj) (K g : R) : Prop := exists k, gain o = Ok k /\ Rabs (Q2R k - K) <= g.

Lemma electrons_quotient o vd vb u f K g : g < K -> gain_within o K g -> pattern_right o vd vb u f ->
  reports (DSNU1288 o) (sqrt vd / K) (quotient_error (sqrt vd) (f / sqrt vd) K g).
Proof.
  intros GK (k & Ek & NK) (d & p & Ed & Nd & _ & _ & E). pose proof (near_low _ _ _ NK) as LO.
  exists (d / Q2R k). split; [apply E; [exact Ek|lra]|]. apply quotient_near; assumption.
Qed.

Section Measured.
Context {W : Type} (C : chance W) (O : W -> robj) (B D : nat -> W -> list image) (n h w p : nat).
Variables (T : truth) (x : nat -> R) (V M eta K q e : R).
Hypothesis ME : measurement C O B D n h w T x V M.
Hypothesis HL : linear_law T x p eta K q.
Hypothesis HC : clear_points T n p e.
Hypothesis HN : (2 <= h * w)%nat.
Hypothesis e0 : 0 < e.

Lemma gain_unlikely : unlikely C (fun o => ~ gain_within (O o) K (gain_error (x 0%nat) eta K q e))
    (INR n / INR (h * w) * ((V + 2 * M) / (e * e) + 4 * V / e)).
Proof.
  eapply unlikely_mono; [|apply Rle_refl|eapply within_unlikely; eassumption].
  intros o N MW. apply N. pose proof (cl_points _ _ _ _ HC) as PN.
  destruct (stable_errors (O o) T n p eta K q e) as (r & k & _ & Ek & _ & NK).
  - apply (law_ext T x); [|exact HL]. intros i Hi. symmetry. apply (me_light _ _ _ _ _ _ _ _ _ _ _ ME). lia.
  - exact HC.
  - exact MW.
  - apply (me_shape _ _ _ _ _ _ _ _ _ _ _ ME).
  - apply (me_unforced _ _ _ _ _ _ _ _ _ _ _ ME).
  - apply Forall_forall. intros v Hv. apply (In_nth _ _ 0%Q) in Hv. destruct Hv as (i & Hi & <-).
    destruct (me_shape _ _ _ _ _ _ _ _ _ _ _ ME o) as (_ & _ & _ & EL & _). rewrite EL in Hi.
    destruct (me_computed _ _ _ _ _ _ _ _ _ _ _ ME o i Hi) as (CB & _).
    destruct (me_bright _ _ _ _ _ _ _ _ _ _ _ ME i Hi) as (OK & mu & s2 & NP & _).
    apply (computed_nonneg h w (B i o) (at_ (r_uy (o_t (O o))) i)); [apply OK| |lia|exact CB].
    apply (rs_length _ _ _ _ _ _ _ _ (np_series _ _ _ _ _ _ _ _ NP)).
  - intros i Hi. apply (me_clipped _ _ _ _ _ _ _ _ _ _ _ ME o i Hi).
  - exists k. split; [exact Ek|]. rewrite <- (me_light _ _ _ _ _ _ _ _ _ _ _ ME o 0%nat) by lia. exact NK.
Qed.
End Measured.

Section Files.
Context {W : Type} (C : chance W) (fs : W -> fsys) (h w : nat) (fname t : str) (es : list entry)
  (visit_t visit_s : exposure_dict -> exposure_dict) (b d : entry).
Hypothesis VT : any_order visit_t.
Hypothesis VS : any_order visit_s.
Hypothesis LI : lists fname t es.
Hypothesis CS : forall o, complete_set (fs o) h w es.
Hypothesis SP : spatial_pair es b d.
Local Notation obj := (the_obj fs fname t visit_t visit_s).

Lemma obj_chain o : exists rows, emva (fs o) visit_t visit_s fname (Some t) = Ok (Some (obj o)) /\
  object_ok (fs o) h w es (obj o) rows.
Proof.
  destruct (emva_chain (fs o) h w visit_t visit_s fname t es VT VS LI (CS o)) as (x & rows & E & OK).
  exists rows. unfold the_obj. rewrite E. auto.
Qed.
Lemma obj_event (P : robj -> Prop) bound : unlikely C (fun o => ~ P (obj o)) bound ->
  unlikely C (fun o => ~ exists x, emva (fs o) visit_t visit_s fname (Some t) = Ok (Some x) /\ P x) bound.
Proof.
  intro U. eapply unlikely_mono; [|apply Rle_refl|exact U]. intros o N H. apply N.
  destruct (obj_chain o) as (rows & E & _). eauto.
Qed.

Lemma obj_series o : spatial_data_of h w (contents (fs o) b) (sp_bright (o_s (obj o))) /\
  spatial_data_of h w (contents (fs o) d) (sp_dark (o_s (obj o))).
Proof.
  destruct (obj_chain o) as (rows & _ & OK).
  destruct OK as (_ & _ & _ & _ & _ & _ & _ & (x & y & dk & br & Hx & Hy & Sx & Sy & Dx & Dy & _ & _ & Ix & Iy & _ & _ & R1 & R2) & _).
  destruct SP as (Hb & Hd & Sb & Sd & Db & Dd).
  destruct (cs_spatial _ _ _ _ (CS o)) as (d' & b' & _ & _ & _ & _ & Dd' & Db' & _ & U).
  assert (y = b) by (destruct (U y Hy Sy), (U b Hb Sb); subst; auto; contradiction).
  assert (x = d) by (destruct (U x Hx Sx), (U d Hd Sd); subst; auto; contradiction).
  subst x y. rewrite (images_contents _ _ _ Ix), (images_contents _ _ _ Iy). split; assumption.
Qed.

Variables (L L' : nat) (mb md : nat -> nat -> R) (V M D V' M' D' f : R).
Hypothesis PB : patterned C (fun o => contents (fs o) b) L h w mb V M D.
Hypothesis PD : patterned C (fun o => contents (fs o) d) L' h w md V' M' D'.
Hypothesis L2 : (2 <= L)%nat.
Hypothesis L2' : (2 <= L')%nat.
Hypothesis f0 : 0 < f.
Local Notation vd := (spatial_varianceR h w md).
Local Notation vb := (spatial_varianceR h w mb).
Local Notation u := (pixel_meanR h w mb - pixel_meanR h w md).
Hypothesis H1 : f <= vd.
Hypothesis H2 : 2 * f <= vb - vd.
Hypothesis H3 : 2 * f < u.

Lemma obj_pattern : (2 <= h * w)%nat -> unlikely C (fun o => ~ pattern_right (obj o) vd vb u f) (total_odds L L' h w V M D V' M' D' f).
Proof.
  intro HW. apply (pattern_unlikely C obj (fun o => contents (fs o) b) (fun o => contents (fs o) d)); try assumption;
    intro o; apply obj_series.
Qed.
Lemma files_pattern : (2 <= h * w)%nat ->
  unlikely C (fun o => ~ exists x, emva (fs o) visit_t visit_s fname (Some t) = Ok (Some x) /\ pattern_right x vd vb u f)
    (total_odds L L' h w V M D V' M' D' f).
Proof. intro HW. apply obj_event, obj_pattern, HW. Qed.

Lemma files_electrons ps T Vt Mt p eta K q e : Spec_Whole.points_of es ps -> random_files C fs ps h w T Vt Mt ->
  linear_law T (stated_light ps) p eta K q -> clear_points T (length ps) p e -> (2 <= h * w)%nat -> 0 < e ->
  gain_error (stated_light ps 0) eta K q e < K ->
  unlikely C (fun o => ~ exists x, emva (fs o) visit_t visit_s fname (Some t) = Ok (Some x) /\ pattern_right x vd vb u f /\
      reports (DSNU1288 x) (sqrt vd / K) (quotient_error (sqrt vd) (f / sqrt vd) K (gain_error (stated_light ps 0) eta K q e)))
    (INR (length ps) / INR (h * w) * ((Vt + 2 * Mt) / (e * e) + 4 * Vt / e) + total_odds L L' h w V M D V' M' D' f).
Proof.
  intros PS RF LL CP HW e0 SK. apply (obj_event (fun x => pattern_right x vd vb u f /\ _)).
  assert (ME := whole_measurement C fs h w fname t es ps visit_t visit_s T Vt Mt VT VS LI CS PS RF).
  pose proof (gain_unlikely C _ _ _ _ h w p T _ Vt Mt eta K q e ME LL CP HW e0) as U1.
  eapply unlikely_mono; [|apply Rle_refl|apply (unlikely_or C _ _ _ _ U1 (obj_pattern HW))].
  intros o N. destruct (classic (gain_within (obj o) K (gain_error (stated_light ps 0) eta K q e))) as [G|G]; [right|left; exact G].
  intro PR. apply N. split; [exact PR|]. eapply electrons_quotient; eauto.
Qed.
End Files.
