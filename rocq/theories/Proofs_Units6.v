(** Black level, grey scale and units: the statements of the properties. *)
From Coq Require Import Ascii String List Bool Arith ZArith QArith Reals Qreals Permutation Lia Lra.
From Verif Require Import Base_Prelude Base_Str Base_Num Base_Order Base_Sum Base_Xreal Model_Path Model_Parser
  Model_Images Model_Loader Model_Data Model_Results Model_Emva Spec_Parser Spec_Images Spec_Data Spec_Results
  Spec_Emva Spec_Units Proofs_Parser Proofs_Parser2 Proofs_Results2 Proofs_Results4 Proofs_Emva2 Proofs_Emva3 Proofs_Emva4
  Proofs_Units Proofs_Units4 Proofs_Units5 Props_Emva.
Import ListNotations.
Open Scope Q_scope.

Section Master.
Context (fs fs' : fsys) (h w : nat) (fname fname' d d' : str) (es es' : list entry)
  (visit_t visit_s visit_t' visit_s' : exposure_dict -> exposure_dict).
Hypothesis VT : any_order visit_t.
Hypothesis VS : any_order visit_s.
Hypothesis VT' : any_order visit_t'.
Hypothesis VS' : any_order visit_s'.
Hypothesis L : lists fname d es.
Hypothesis L' : lists fname' d' es'.
Hypothesis CS : complete_set fs h w es.
Hypothesis CS' : complete_set fs' h w es'.

Lemma black_level0 c : Forall2 (restated fs fs' (regraded 1 c) 1 1) es es' ->
  exists o o', emva fs visit_t visit_s fname (Some d) = Ok (Some o) /\
    emva fs' visit_t' visit_s' fname' (Some d') = Ok (Some o') /\
    forall f, same_value (value_of f o) (value_of f o').
Proof.
  intro RE. destruct (restated_figures fs fs' h w 1 c 1 1 fname fname' d d' es es' visit_t visit_s visit_t' visit_s'
    VT VS VT' VS' L L' CS CS' eq_refl eq_refl eq_refl RE) as (o & o' & E & E' & F).
  exists o, o'. split; [auto|]. split; [auto|]. intro f. apply follows_same. apply (F f); auto.
Qed.

Lemma grey_scale0 g : (0 < g)%Z -> Forall2 (restated fs fs' (regraded g 0) 1 1) es es' ->
  exists o o', emva fs visit_t visit_s fname (Some d) = Ok (Some o) /\
    emva fs' visit_t' visit_s' fname' (Some d') = Ok (Some o') /\
    (has_signal o -> forall f,
       uses_dark_noise f = false \/
       (is_sigma_d f = false /\ above_floor (inject_Z g) o (length (r_texp (o_t o)))) ->
       follows (inject_Z g) 1 1 f o o').
Proof.
  intros G RE. destruct (restated_figures fs fs' h w g 0 1 1 fname fname' d d' es es' visit_t visit_s visit_t' visit_s'
    VT VS VT' VS' L L' CS CS' G eq_refl eq_refl RE) as (o & o' & E & E' & F).
  exists o, o'. split; [auto|]. split; [auto|]. intros S f D. apply (F f); tauto.
Qed.

Lemma other_units0 t p : 0 < t -> 0 < p -> Forall2 (restated fs fs' (regraded 1 0) t p) es es' ->
  exists o o', emva fs visit_t visit_s fname (Some d) = Ok (Some o) /\
    emva fs' visit_t' visit_s' fname' (Some d') = Ok (Some o') /\
    forall f, follows 1 p t f o o'.
Proof.
  intros T P RE. destruct (restated_figures fs fs' h w 1 0 t p fname fname' d d' es es' visit_t visit_s visit_t' visit_s'
    VT VS VT' VS' L L' CS CS' eq_refl T P RE) as (o & o' & E & E' & F).
  exists o, o'. split; [auto|]. split; [auto|]. intro f. apply (F f); auto.
Qed.
End Master.

Lemma black_level : forall fs fs' h w c fname fname' d d' es es' visit_t visit_s visit_t' visit_s',
  any_order visit_t -> any_order visit_s -> any_order visit_t' -> any_order visit_s' ->
  lists fname d es -> lists fname' d' es' -> complete_set fs h w es -> complete_set fs' h w es' ->
  Forall2 (restated fs fs' (regraded 1 c) 1 1) es es' ->
  exists o o', emva fs visit_t visit_s fname (Some d) = Ok (Some o) /\
    emva fs' visit_t' visit_s' fname' (Some d') = Ok (Some o') /\
    forall f, same_value (value_of f o) (value_of f o').
Proof. intros. eapply black_level0; eauto. Qed.

Lemma grey_scale : forall fs fs' h w g fname fname' d d' es es' visit_t visit_s visit_t' visit_s',
  any_order visit_t -> any_order visit_s -> any_order visit_t' -> any_order visit_s' ->
  lists fname d es -> lists fname' d' es' -> complete_set fs h w es -> complete_set fs' h w es' ->
  (0 < g)%Z -> Forall2 (restated fs fs' (regraded g 0) 1 1) es es' ->
  exists o o', emva fs visit_t visit_s fname (Some d) = Ok (Some o) /\
    emva fs' visit_t' visit_s' fname' (Some d') = Ok (Some o') /\
    (has_signal o -> forall f,
       uses_dark_noise f = false \/
       (is_sigma_d f = false /\ above_floor (inject_Z g) o (length (r_texp (o_t o)))) ->
       follows (inject_Z g) 1 1 f o o').
Proof. intros. eapply grey_scale0 with (es := es) (es' := es'); eauto. Qed.

Lemma other_units : forall fs fs' h w t p fname fname' d d' es es' visit_t visit_s visit_t' visit_s',
  any_order visit_t -> any_order visit_s -> any_order visit_t' -> any_order visit_s' ->
  lists fname d es -> lists fname' d' es' -> complete_set fs h w es -> complete_set fs' h w es' ->
  0 < t -> 0 < p -> Forall2 (restated fs fs' (regraded 1 0) t p) es es' ->
  exists o o', emva fs visit_t visit_s fname (Some d) = Ok (Some o) /\
    emva fs' visit_t' visit_s' fname' (Some d') = Ok (Some o') /\
    forall f, follows 1 p t f o o'.
Proof. intros. eapply other_units0 with (es := es) (es' := es'); eauto. Qed.

Lemma dark_value_fun o n v v' : dark_value o n v -> dark_value o n v' -> v == v'.
Proof.
  intros [(U & A)|(U & a & A)] [(U' & B)|(U' & b & B)]; try contradiction; [rewrite A, B; reflexivity|].
  symmetry. eapply best_line_unique; eauto.
Qed.

Lemma set_object : exists o rows, object_of set_fs = Ok (Some o) /\ object_ok set_fs 1 2 set_entries o rows.
Proof.
  destruct (emva_chain set_fs 1 2 (fun m => m) (fun m => m) set_file set_text set_entries any_id any_id set_listed
    set_complete) as (o & rows & E & OK). eauto.
Qed.

Lemma doubled_case : complete_set (graded_fs set_fs 2 0) 1 2 set_entries /\
  Forall2 (restated set_fs (graded_fs set_fs 2 0) (regraded 2 0) 1 1) set_entries set_entries /\
  exists o, emva set_fs (fun m => m) (fun m => m) set_file (Some set_text) = Ok (Some o) /\ has_signal o /\
    above_floor 2 o (length (r_texp (o_t o))) /\
    exists k s x, value_of F_K o = VQ (Ok k) /\ ~ k == 0 /\ value_of F_sigma_y_dark o = VX (Ok (XR s)) /\
      (24 / 100 <= s * s)%R /\ value_of F_sigma_d o = VX (Ok (XR x)).
Proof.
  split; [exact doubled_complete|]. split; [apply graded_all|]. destruct set_object as (o & rows & E & OK).
  exists o. split; [exact E|]. pose proof (fun A f => value_in A f _ _ E) as V.
  pose proof (ok_shaped _ _ _ _ _ _ OK) as SH.
  assert (LT : length (r_texp (o_t o)) = length rows) by (unfold shaped in SH; tauto). rewrite LT.
  assert (LE : Ok (length (r_texp (o_t o))) = value_in_of (fun o => Ok (length (r_texp (o_t o)))) set_fs)
    by (rewrite <- V; reflexivity).
  rewrite LT in LE. assert (LL : (0 < length rows)%nat).
  { assert (X : length rows = match value_in_of (fun o => Ok (length (r_texp (o_t o)))) set_fs with Ok m => m | Err _ => 0%nat end)
      by (rewrite <- LE; auto). rewrite X. vm_compute. lia. }
  split.
  { intros m M. injection M as M. rewrite V in M. vm_compute in M. injection M as <-. exists 1%nat. split; [lia|].
    assert (S : sig o 1 = match value_in_of (fun o => Ok (sig o 1)) set_fs with Ok q => q | Err _ => 0 end)
      by (rewrite <- V; reflexivity).
    rewrite S. vm_compute. discriminate. }
  assert (DV : exists q, dark_variance o = Ok q /\ q == 2).
  { rewrite V. eexists. split; [vm_compute; reflexivity|reflexivity]. }
  destruct DV as (q & DV & Q2). destruct (dark_variance_value o _ SH LL) as (v & Dv & EV).
  assert (V2 : v == 2).
  { rewrite EV in DV. injection DV as DV. destruct (Qle_bool (24 # 100) v) eqn:B.
    - rewrite DV. auto.
    - rewrite <- DV in Q2. discriminate Q2. }
  split.
  { intros v' D'. rewrite (dark_value_fun _ _ _ _ D' Dv), V2. split; discriminate. }
  destruct (sigma_y_dark_value o _ SH LL) as (v' & s & D' & S1 & S2 & S3).
  assert (K : exists k, gain o = Ok k /\ ~ k == 0).
  { rewrite V. eexists. split; [vm_compute; reflexivity|discriminate]. }
  destruct K as (k & K & NK).
  assert (S4 : (24 / 100 <= s * s)%R) by (rewrite S3; apply Rmax_l).
  destruct (sigma_d_value o s k S1 S4 K NK) as (x & X & _).
  exists k, s, x. cbn [value_of]. rewrite K, S1, X. auto.
Qed.
