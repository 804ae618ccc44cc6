(** Proofs for C116: how unlikely wrong figures are, from random pairs and from random files. *)
From Coq Require Import List Bool Arith ZArith QArith Qreals Reals Lia Lra.
From Verif Require Import Base_Prelude Base_Str Base_Num Base_Order Base_Sum Base_SumR Base_Xreal Model_Images Model_Loader Model_Data
  Model_Parser Model_Results Model_Emva Spec_Parser
  Spec_Images Spec_Data Spec_Results Spec_Chance Spec_Linear Spec_Any Spec_Near Spec_Figures Spec_Emva Spec_Whole Proofs_Results Proofs_Fit
  Proofs_Results2 Proofs_Near Proofs_Near2 Proofs_Near3 Proofs_Emva2 Proofs_Emva3 Proofs_Whole Proofs_Figures Proofs_Figures2.
Import ListNotations.
Open Scope R_scope.
Set Bullet Behavior "Strict Subproofs".

(** Data of which all means and variances are near the truth, with all that is needed of them. *)
Lemma within_unlikely W (C : chance W) O B D n h w T x V M e :
  measurement C O B D n h w T x V M -> (2 <= h * w)%nat -> 0 < e ->
  unlikely C (fun o => ~ measured_within (O o) T n e)
    (INR n / INR (h * w) * ((V + 2 * M) / (e * e) + 4 * V / e)).
Proof.
  intros ME HN e0. assert (N0 : 0 < INR (h * w)) by (apply lt_0_INR; lia).
  set (dm := V / (2 * INR (h * w) * (e * e))).
  set (dv := M / (INR (h * w) * (e * e)) + 2 * V / (INR (h * w) * e)).
  eapply unlikely_mono; [|apply Req_le; symmetry|apply (unlikely_some C n (fun i o =>
     (e < Rabs (Q2R (at_ (r_uy (o_t (O o))) i) - tr_mean T i) \/ e < Rabs (Q2R (at_ (r_s2y (o_t (O o))) i) - tr_var T i)) \/
     (e < Rabs (Q2R (at_ (r_uydark (o_t (O o))) i) - tr_dark_mean T i) \/
      e < Rabs (Q2R (at_ (r_s2ydark (o_t (O o))) i) - tr_dark_var T i))) ((dm + dv) + (dm + dv)))].
  - intros o. apply (not_within O n h w T e HN).
  - unfold dm, dv. field. lra.
  - intros i Hi.
    assert (CB : forall o, exists u s, computed h w (B i o) u s).
    { intros o. destruct (me_computed _ _ _ _ _ _ _ _ _ _ _ ME o i Hi) as (A & _). eauto. }
    assert (CD : forall o, exists u s, computed h w (D i o) u s).
    { intros o. destruct (me_computed _ _ _ _ _ _ _ _ _ _ _ ME o i Hi) as (_ & A). eauto. }
    destruct (true_pair_unlikely W C (B i) h w V M _ _ e (me_bright _ _ _ _ _ _ _ _ _ _ _ ME i Hi) HN CB e0) as (U1 & U2).
    destruct (true_pair_unlikely W C (D i) h w V M _ _ e (me_dark _ _ _ _ _ _ _ _ _ _ _ ME i Hi) HN CD e0) as (U3 & U4).
    eapply unlikely_mono; [|apply Rle_refl|apply (unlikely_or C _ _ _ _ (unlikely_or C _ _ _ _ U1 U2) (unlikely_or C _ _ _ _ U3 U4))].
    intros o E. destruct (me_computed _ _ _ _ _ _ _ _ _ _ _ ME o i Hi) as (A1 & A2).
    destruct E as [[E|E]|[E|E]].
    + left. left. eauto.
    + left. right. eauto.
    + right. left. eauto.
    + right. right. eauto.
Qed.

Section Measured.
Context {W : Type} (C : chance W) (O : W -> robj) (B D : nat -> W -> list image) (n h w p : nat).
Variables (T : truth) (x : nat -> R) (V M eta K q e v0 d : R) (ts : list Q).
Hypothesis ME : measurement C O B D n h w T x V M.
Hypothesis HL : linear_law T x p eta K q.
Hypothesis HC : clear_points T n p e.
Hypothesis HN : (2 <= h * w)%nat.
Hypothesis e0 : 0 < e.
Hypothesis TS : forall o, times (O o) = ts.
Hypothesis SR : responsivity_error (x 0%nat) e < K * eta.
Hypothesis SK : gain_error (x 0%nat) eta K q e < K.

Let L0 o i : (i < n)%nat -> photonsR (O o) i = x i.
Proof. apply (me_light _ _ _ _ _ _ _ _ _ _ _ ME). Qed.
Let HLo o : linear_law T (photonsR (O o)) p eta K q.
Proof. apply (law_ext T x); [|exact HL]. intros i Hi. symmetry. apply L0. pose proof (cl_points _ _ _ _ HC). lia. Qed.
Let HVo o : List.Forall (fun v => (0 <= v)%Q) (r_s2y (o_t (O o))).
Proof.
  apply Forall_forall. intros v Hv. apply (In_nth _ _ 0%Q) in Hv. destruct Hv as (i & Hi & <-).
  destruct (me_shape _ _ _ _ _ _ _ _ _ _ _ ME o) as (_ & _ & _ & EL & _). rewrite EL in Hi.
  destruct (me_computed _ _ _ _ _ _ _ _ _ _ _ ME o i Hi) as (CB & _).
  destruct (me_bright _ _ _ _ _ _ _ _ _ _ _ ME i Hi) as (OK & mu & s2 & NP & _).
  apply (computed_nonneg h w (B i o) (at_ (r_uy (o_t (O o))) i)); [apply OK| |lia|exact CB].
  apply (rs_length _ _ _ _ _ _ _ _ (np_series _ _ _ _ _ _ _ _ NP)).
Qed.
Let X0 o : photonsR (O o) 0 = x 0%nat.
Proof. apply L0. pose proof (cl_points _ _ _ _ HC). lia. Qed.

Lemma figures_within o : dark_truth ts T n e v0 d -> d < Rmax (24 / 100) v0 ->
  measured_within (O o) T n e -> figures_right (O o) p eta K q e v0 d.
Proof.
  intros DT SD MW. apply (stable_all (O o) T n p eta K q e v0 d); try assumption.
  - apply HLo.
  - apply (me_shape _ _ _ _ _ _ _ _ _ _ _ ME).
  - apply (me_unforced _ _ _ _ _ _ _ _ _ _ _ ME).
  - apply HVo.
  - intros i Hi. apply (me_clipped _ _ _ _ _ _ _ _ _ _ _ ME o i Hi).
  - rewrite TS. exact DT.
  - rewrite X0. exact SR.
  - rewrite X0. exact SK.
Qed.

Lemma current_within o a b : dark_rises ts T n a b ->
  measured_within (O o) T n e -> current_right (O o) n K (gain_error (x 0%nat) eta K q e) e a b.
Proof.
  intros DR MW.
  destruct (stable_errors (O o) T n p eta K q e (HLo o) HC MW (me_shape _ _ _ _ _ _ _ _ _ _ _ ME o)
    (me_unforced _ _ _ _ _ _ _ _ _ _ _ ME o) (HVo o) (fun i Hi => me_clipped _ _ _ _ _ _ _ _ _ _ _ ME o i Hi)) as (r & k & _ & Ek & _ & NK).
  rewrite X0 in NK. apply (dark_current (O o) T n e K _ a b); try assumption.
  - apply (me_shape _ _ _ _ _ _ _ _ _ _ _ ME).
  - rewrite TS. exact DR.
  - exists k. split; assumption.
Qed.

Lemma figures_unlikely : dark_truth ts T n e v0 d -> d < Rmax (24 / 100) v0 ->
  unlikely C (fun o => ~ figures_right (O o) p eta K q e v0 d)
    (INR n / INR (h * w) * ((V + 2 * M) / (e * e) + 4 * V / e)).
Proof.
  intros DT SD. eapply unlikely_mono; [|apply Rle_refl|eapply within_unlikely; eassumption].
  intros o N MW. apply N, figures_within; assumption.
Qed.
Lemma current_unlikely a b : dark_rises ts T n a b ->
  unlikely C (fun o => ~ current_right (O o) n K (gain_error (x 0%nat) eta K q e) e a b)
    (INR n / INR (h * w) * ((V + 2 * M) / (e * e) + 4 * V / e)).
Proof.
  intros DR. eapply unlikely_mono; [|apply Rle_refl|eapply within_unlikely; eassumption].
  intros o N MW. apply N, current_within; assumption.
Qed.
End Measured.

(** ** From files *)
Section Files.
Context {W : Type} (C : chance W) (fs : W -> fsys) (h w : nat) (fname t : str) (es : list entry)
  (ps : list (entry * entry)) (visit_t visit_s : exposure_dict -> exposure_dict) (T : truth) (V M : R).
Hypothesis VT : any_order visit_t.
Hypothesis VS : any_order visit_s.
Hypothesis L : lists fname t es.
Hypothesis CS : forall o, complete_set (fs o) h w es.
Hypothesis PS : points_of es ps.
Hypothesis RF : random_files C fs ps h w T V M.
Variables (p : nat) (eta K q e : R).
Hypothesis HL : linear_law T (stated_light ps) p eta K q.
Hypothesis HC : clear_points T (length ps) p e.
Hypothesis HN : (2 <= h * w)%nat.
Hypothesis e0 : 0 < e.
Hypothesis SR : responsivity_error (stated_light ps 0) e < K * eta.
Hypothesis SK : gain_error (stated_light ps 0) eta K q e < K.

Lemma file_times o : times (the_obj fs fname t visit_t visit_s o) = stated_times ps.
Proof.
  destruct (the_chain fs h w fname t es ps visit_t visit_s VT VS L CS PS o) as (rows & _ & OK & F).
  unfold times. destruct OK as (_ & -> & _). unfold stated_times.
  clear - F. induction F as [|r p l l' (E & _) F IH]; cbn [map]; [reflexivity|]. rewrite IH. unfold w_exposure. rewrite E. reflexivity.
Qed.

Lemma file_figures v0 d : dark_truth (stated_times ps) T (length ps) e v0 d -> d < Rmax (24 / 100) v0 ->
  unlikely C (fun o => ~ exists x, emva (fs o) visit_t visit_s fname (Some t) = Ok (Some x) /\ figures_right x p eta K q e v0 d)
    (INR (length ps) / INR (h * w) * ((V + 2 * M) / (e * e) + 4 * V / e)).
Proof.
  intros DT SD. apply (whole_event C fs h w fname t es ps visit_t visit_s VT VS L CS PS).
  eapply figures_unlikely; [eapply whole_measurement; eassumption|exact HL|exact HC|exact HN|exact e0|exact file_times|exact SR|exact SK|exact DT|exact SD].
Qed.
Lemma file_current a b : dark_rises (stated_times ps) T (length ps) a b ->
  unlikely C (fun o => ~ exists x, emva (fs o) visit_t visit_s fname (Some t) = Ok (Some x) /\
      current_right x (length ps) K (gain_error (stated_light ps 0) eta K q e) e a b)
    (INR (length ps) / INR (h * w) * ((V + 2 * M) / (e * e) + 4 * V / e)).
Proof.
  intros DR. apply (whole_event C fs h w fname t es ps visit_t visit_s VT VS L CS PS).
  eapply current_unlikely; [eapply whole_measurement; eassumption|exact HL|exact HC|exact HN|exact e0|exact file_times|exact SK|exact DR].
Qed.
End Files.
