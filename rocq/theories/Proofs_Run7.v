(** The other figures of a generated data set. *)
From Coq Require Import List Bool Arith ZArith QArith Qabs Qreals Reals Lia Lra.
From Verif Require Import Base_Prelude Base_Str Base_Num Base_Order Base_Float Base_SumR Base_Xreal Model_Parser Model_Images Model_Data Model_Results
  Model_Emva Model_Camera Model_Points Model_Dataset Model_Generated Spec_Parser Spec_Camera Spec_Dataset Spec_Data Spec_Results Spec_Generated
  Spec_Chance Spec_Linear Spec_Any Spec_Near Spec_Emva Spec_Figures Spec_Straight Spec_RandomRun
  Proofs_Near Proofs_Near2 Proofs_Near3 Proofs_Near4 Proofs_Figures Proofs_Figures2 Proofs_Figures3 Proofs_Straight Proofs_Straight2 Proofs_Straight3 Proofs_Run Proofs_Run6.
Import ListNotations.
Open Scope R_scope.
Set Bullet Behavior "Strict Subproofs".

Section Slack.
Context {W : Type} (C : chance W) (O : W -> robj) (B D : nat -> W -> list image) (n h w p : nat) (T : truth) (x : nat -> R)
  (V M eta K q s e : R).
Hypothesis ME : measurement C O B D n h w T x V M.
Hypothesis NL : near_law T x p eta K q s.
Hypothesis s0 : 0 <= s.
Hypothesis e0 : 0 < e.
Hypothesis CL : clear_points T n p (e + 2 * s).
Hypothesis HN : (2 <= h * w)%nat.
Local Notation T' := (moved T x p eta K).

Let PN : (2 <= p < n)%nat.
Proof. exact (cl_points _ _ _ _ CL). Qed.
Let LAW o : linear_law T' (photonsR (O o)) p eta K (q + K * s).
Proof.
  apply (law_ext _ x); [|eapply moved_law; eassumption]. intros i Hi. symmetry. apply (me_light _ _ _ _ _ _ _ _ _ _ _ ME). lia.
Qed.
Let CLR : clear_points T' n p (e + s).
Proof. eapply moved_clear; eauto. lra. Qed.
Let WI o : measured_within (O o) T n e -> measured_within (O o) T' n (e + s).
Proof. intro H. eapply moved_within; eassumption. Qed.
Let NON o : List.Forall (fun v => (0 <= v)%Q) (r_s2y (o_t (O o))).
Proof.
  apply Forall_forall. intros v Hv. apply (In_nth _ _ 0%Q) in Hv. destruct Hv as (i & Hi & <-).
  destruct (me_shape _ _ _ _ _ _ _ _ _ _ _ ME o) as (_ & _ & _ & EL & _). rewrite EL in Hi.
  destruct (me_computed _ _ _ _ _ _ _ _ _ _ _ ME o i Hi) as (CB & _).
  destruct (me_bright _ _ _ _ _ _ _ _ _ _ _ ME i Hi) as (OK & mu & s2 & NP & _).
  apply (computed_nonneg h w (B i o) (at_ (r_uy (o_t (O o))) i)); [apply OK| |lia|exact CB].
  apply (rs_length _ _ _ _ _ _ _ _ (np_series _ _ _ _ _ _ _ _ NP)).
Qed.
Let ZER o i : (i < n)%nat -> tr_var T' i = 0 -> (at_ (r_s2y (o_t (O o))) i == 0)%Q.
Proof. intros Hi. cbn [moved tr_var]. apply (me_clipped _ _ _ _ _ _ _ _ _ _ _ ME o i Hi). Qed.
Let X0 o : photonsR (O o) 0 = x 0%nat.
Proof. apply (me_light _ _ _ _ _ _ _ _ _ _ _ ME). lia. Qed.
Local Notation bound := (INR n / INR (h * w) * ((V + 2 * M) / (e * e) + 4 * V / e)).

Lemma slack_figures ts v0 d : (forall o, times (O o) = ts) ->
  responsivity_error (x 0%nat) (e + s) < K * eta -> gain_error (x 0%nat) eta K (q + K * s) (e + s) < K ->
  dark_truth ts T n (e + s) v0 d -> d < Rmax (24 / 100) v0 ->
  unlikely C (fun o => ~ figures_right (O o) p eta K (q + K * s) (e + s) v0 d) bound.
Proof.
  intros TS SR SK DT SD. eapply unlikely_mono; [|apply Rle_refl|eapply within_unlikely; eassumption].
  intros o N MW. apply N. apply (stable_all (O o) T' n p eta K (q + K * s) (e + s) v0 d).
  - apply LAW.
  - exact CLR.
  - apply WI, MW.
  - apply (me_shape _ _ _ _ _ _ _ _ _ _ _ ME).
  - apply (me_unforced _ _ _ _ _ _ _ _ _ _ _ ME).
  - apply NON.
  - apply ZER.
  - rewrite TS. exact DT.
  - rewrite X0. exact SR.
  - rewrite X0. exact SK.
  - exact SD.
Qed.

Lemma slack_current ts a b : (forall o, times (O o) = ts) -> gain_error (x 0%nat) eta K (q + K * s) (e + s) < K ->
  dark_rises ts T n a b ->
  unlikely C (fun o => ~ current_right (O o) n K (gain_error (x 0%nat) eta K (q + K * s) (e + s)) (e + s) a b) bound.
Proof.
  intros TS SK DR. eapply unlikely_mono; [|apply Rle_refl|eapply within_unlikely; eassumption].
  intros o N MW. apply N.
  destruct (stable_errors (O o) T' n p eta K (q + K * s) (e + s) (LAW o) CLR (WI o MW) (me_shape _ _ _ _ _ _ _ _ _ _ _ ME o)
    (me_unforced _ _ _ _ _ _ _ _ _ _ _ ME o) (NON o) (ZER o)) as (r & k & _ & Ek & _ & NK).
  rewrite X0 in NK. apply (dark_current (O o) T' n (e + s) K _ a b); try assumption.
  - apply (me_shape _ _ _ _ _ _ _ _ _ _ _ ME).
  - apply WI, MW.
  - rewrite TS. exact DR.
  - exists k. split; assumption.
Qed.

Lemma slack_straight : clear_range T x p (e + 2 * s) -> sqrt (INR p) * signal_part (x 0%nat) eta K (e + s) < 1 ->
  let d := signal_part (x 0%nat) eta K (e + s) in
  unlikely C (fun o => ~ straight_within (O o) (low_error p d) (high_error p d)) bound.
Proof.
  intros CR SM. cbv zeta. eapply unlikely_mono; [|apply Rle_refl|eapply within_unlikely; eassumption].
  intros o N MW. apply N. rewrite <- (X0 o) in *.
  apply (stable_straight (O o) T' n p eta K (q + K * s) (e + s)).
  - apply LAW.
  - exact CLR.
  - apply WI, MW.
  - apply (me_shape _ _ _ _ _ _ _ _ _ _ _ ME).
  - apply (me_unforced _ _ _ _ _ _ _ _ _ _ _ ME).
  - apply NON.
  - apply ZER.
  - assert (NE : forall i, (i <= p)%nat -> tr_mean T i - tr_dark_mean T i - s <= tr_mean T' i - tr_dark_mean T' i <= tr_mean T i - tr_dark_mean T i + s).
    { intros i Hi. rewrite moved_sig by exact Hi. pose proof (abs_inv _ _ (na_signal _ _ _ _ _ _ _ NL i Hi)). lra. }
    destruct CR as (C1 & i & j & L & XX & C2 & C3).
    assert (PX : forall k, (k <= p)%nat -> photonsR (O o) k = x k).
    { intros k Hk. apply (me_light _ _ _ _ _ _ _ _ _ _ _ ME). lia. }
    pose proof (NE p (le_n p)) as NP. pose proof (NE i ltac:(lia)) as NI. pose proof (NE j ltac:(lia)) as NJ.
    split; [cbv zeta in *; lra|]. exists i, j. split; [exact L|]. rewrite !PX by lia. split; [exact XX|]. cbv zeta in *. lra.
  - exact SM.
Qed.
End Slack.

From Coq Require Import FunctionalExtensionality.
From Verif Require Import Spec_Whole Proofs_Whole Proofs_Run2 Proofs_Run3.
Open Scope R_scope.
Section Usable.
Context {W : Type} (C : chance W).
Variables (li : Model_Dataset.light) (c : camera) (ds : W -> nat -> draws) (version format outdir : str) (L : nat)
  (p : points) (es : W -> list event) (file : str) (bs : list (shot * shot))
  (visit_t visit_s : exposure_dict -> exposure_dict) (T : truth) (V M : R).
Hypothesis VT : any_order visit_t.
Hypothesis VS : any_order visit_s.
Hypothesis UR : usable_run li c ds version format outdir L p es file.
Hypothesis ORD : in_order li p bs.
Hypothesis RR : random_run C c ds L p bs T V M.
Local Notation h := (c_height c).
Local Notation w := (c_width c).
Local Notation bound e := (INR (length bs) / INR (h * w) * ((V + 2 * M) / (e * e) + 4 * V / e)).

Lemma usable_measurement : exists O B D, measurement C O B D (length bs) h w T (listed_light li bs) V M /\
  (forall i b d n, nth_error bs i = Some (b, d) -> first_image L p b n -> forall o, B i o = pair_at c (ds o) n) /\
  (forall i b d n, nth_error bs i = Some (b, d) -> first_image L p d n -> forall o, D i o = pair_at c (ds o) n).
Proof.
  destruct UR as [EXT VER HL SEP CAM DRAWS BITS SIZE RUN DIFF COMP].
  destruct (run_set C li c ds version format outdir L p es file bs EXT VER HL SEP CAM DRAWS BITS SIZE RUN DIFF COMP ORD)
    as (t & ents & ps & WR & LI & CS & PS & F & _).
  pose proof (run_random C li c ds L p es file bs T V M RR t ents ps LI F) as RF.
  assert (LE : stated_light ps = listed_light li bs /\ length ps = length bs).
  { split; [|clear - F; induction F; cbn [length]; auto].
    apply functional_extensionality. intro i. unfold stated_light, listed_light. clear - F.
    revert i. induction F as [|(b, d) (x, y) bs ps H F IH]; intros [|i]; cbn [nth_error]; auto.
    destruct H as (_ & E & _). cbn [fst] in E. rewrite E. reflexivity. }
  destruct LE as (LE & LN).
  assert (FI : forall s, In s (shots p) -> finite (listed_exposure s) /\ finite (listed_photons li s)).
  { intros s Hs. destruct (cp_finite _ _ COMP s Hs) as (A & B & _). auto. }
  pose proof (whole_measurement C (fun o => disk_of h w (es o)) h w file t ents ps visit_t visit_s T V M VT VS LI CS PS RF) as ME.
  rewrite LN, LE in ME. do 3 eexists. split; [exact ME|]. split.
  - intros i b d n E N o. destruct (Forall2_nth_error_l _ _ _ _ _ F E) as ((x, y) & -> & _ & _ & nb & nd & N1 & N2 & CC).
    rewrite (first_image_unique li L p FI DIFF b n nb); auto. apply CC.
  - intros i b d n E N o. destruct (Forall2_nth_error_l _ _ _ _ _ F E) as ((x, y) & -> & _ & _ & nb & nd & N1 & N2 & CC).
    rewrite (first_image_unique li L p FI DIFF d n nd); auto. apply CC.
Qed.

(** The law of a simulated camera in terms of the listed photons. *)
Lemma usable_law k eta K (a b : nat -> setting) (ph : nat -> Q) s : 0 < eta -> 0 < K -> (k < length bs)%nat ->
  s = K * (eta * (6 / 10000)) ->
  (forall i sb sd nb nd, nth_error bs i = Some (sb, sd) -> (i <= k)%nat -> first_image L p sb nb -> first_image L p sd nd ->
     simulated C (a i) (fun o => pair_at c (ds o) nb) 2 h w /\ simulated C (b i) (fun o => pair_at c (ds o) nd) 2 h w /\
     same_but_light (a i) (b i) /\ st_K (a i) = K /\
     l_photons li (s_exposure sb) (s_radiance sb) = FFin (ph i) /\ (Qabs (ph i * 1000) <= inject_Z (2 ^ 44))%Q /\
     pixel_meanR h w (fun r q => st_light (a i) r q - st_light (b i) r q) = eta * Q2R (ph i)) ->
  (forall i, (i <= k)%nat -> listed_light li bs 0 <= listed_light li bs i) ->
  near_law T (listed_light li bs) k eta K (1 / 4) s.
Proof.
  intros E0 K0 PN Es SI OR. destruct usable_measurement as (O & B & D & ME & EB & ED).
  apply (simulated_near W C O B D (length bs) h w T _ V M k eta K s a b ME); auto.
  { apply (ur_size _ _ _ _ _ _ _ _ _ _ UR). }
  intros i Hi. destruct (nth_error bs i) as [(sb, sd)|] eqn:N; [|apply nth_error_None in N; lia].
  destruct ORD as (_ & O1 & O2). pose proof (nth_error_In _ _ N) as IN.
  destruct (proj1 (O1 sb) (in_map fst _ _ IN)) as (Ib & _ & ND). destruct (O2 sb sd IN) as (Id & _).
  assert (FE : forall x, In x (shots p) -> exists n, first_image L p x n).
  { intros x Hx. apply in_split in Hx. destruct Hx as (l1 & l2 & E). exists (list_sum (map (images_in L) l1)), l1, l2. auto. }
  destruct (FE sb Ib) as (nb & Nb). destruct (FE sd Id) as (nd & Nd).
  destruct (SI i sb sd nb nd N Hi Nb Nd) as (S1 & S2 & S3 & S4 & S5 & S6 & S7).
  replace (B i) with (fun o => pair_at c (ds o) nb) by (apply functional_extensionality; intro o; symmetry; eapply EB; eauto).
  replace (D i) with (fun o => pair_at c (ds o) nd) by (apply functional_extensionality; intro o; symmetry; eapply ED; eauto).
  repeat (split; [assumption|]). rewrite S7.
  destruct (listed_close li sb (ph i) ND S5 S6) as (_ & LC).
  unfold listed_light. rewrite N. set (l := Q2R (Spec_Emva.number (listed_photons li sb))) in *.
  replace (eta * Q2R (ph i) - eta * l) with (- (eta * (l - Q2R (ph i)))) by lra.
  rewrite Rabs_Ropp, Rabs_mult, (Rabs_right eta) by lra. subst s.
  apply Rmult_le_compat_l; [lra|]. apply Rmult_le_compat_l; [lra|exact LC].
Qed.

Section Law.
Variables (k : nat) (eta K q s e : R).
Hypothesis NL : near_law T (listed_light li bs) k eta K q s.
Hypothesis s0 : 0 <= s.
Hypothesis e0 : 0 < e.
Hypothesis CL : clear_points T (length bs) k (e + 2 * s).
Let SZ : (2 <= h * w)%nat.
Proof. apply (ur_size _ _ _ _ _ _ _ _ _ _ UR). Qed.

Lemma usable_figures v0 d :
  responsivity_error (listed_light li bs 0) (e + s) < K * eta -> gain_error (listed_light li bs 0) eta K (q + K * s) (e + s) < K ->
  dark_truth (listed_times bs) T (length bs) (e + s) v0 d -> d < Rmax (24 / 100) v0 ->
  unlikely C (fun o => ~ exists x, emva (disk_of h w (es o)) visit_t visit_s file (Some (written (es o))) = Ok (Some x) /\
       figures_right x k eta K (q + K * s) (e + s) v0 d) (bound e).
Proof.
  intros SR SK DT SD. eapply usable_event; eauto. intros O B D ME _ _ TS. eapply slack_figures; eauto.
Qed.
Lemma usable_current a b : gain_error (listed_light li bs 0) eta K (q + K * s) (e + s) < K ->
  dark_rises (listed_times bs) T (length bs) a b ->
  unlikely C (fun o => ~ exists x, emva (disk_of h w (es o)) visit_t visit_s file (Some (written (es o))) = Ok (Some x) /\
       current_right x (length bs) K (gain_error (listed_light li bs 0) eta K (q + K * s) (e + s)) (e + s) a b) (bound e).
Proof.
  intros SK DR. apply (usable_event C li c ds version format outdir L p es file bs visit_t visit_s T V M VT VS UR ORD RR
    (fun x => current_right x (length bs) K (gain_error (listed_light li bs 0) eta K (q + K * s) (e + s)) (e + s) a b)).
  intros O B D ME _ _ TS. eapply slack_current; eauto.
Qed.
Lemma usable_straight : clear_range T (listed_light li bs) k (e + 2 * s) ->
  sqrt (INR k) * signal_part (listed_light li bs 0) eta K (e + s) < 1 ->
  let d := signal_part (listed_light li bs 0) eta K (e + s) in
  unlikely C (fun o => ~ exists x, emva (disk_of h w (es o)) visit_t visit_s file (Some (written (es o))) = Ok (Some x) /\
       straight_within x (low_error k d) (high_error k d)) (bound e).
Proof.
  intros CR SM. cbv zeta. apply (usable_event C li c ds version format outdir L p es file bs visit_t visit_s T V M VT VS UR ORD RR
    (fun x => straight_within x (low_error k (signal_part (listed_light li bs 0) eta K (e + s)))
                (high_error k (signal_part (listed_light li bs 0) eta K (e + s))))).
  intros O B D ME _ _ TS. eapply slack_straight; eauto.
Qed.
End Law.
End Usable.

(** ** In double precision *)
From Verif Require Import Base_Sum Model_Loader Model_Rounded Model_RoundedSpatial Model_RoundedEmva Spec_Rounded Spec_RoundedSpatial Spec_RoundedEmva
  Proofs_Camera Proofs_REmva3.
Open Scope R_scope.

(** The figures of any data near the moved truth. *)
Section Any_data.
Variables (T : truth) (x : nat -> R) (n p : nat) (eta K q s e : R) (y : robj).
Hypothesis NL : near_law T x p eta K q s.
Hypothesis s0 : 0 <= s.
Hypothesis e0 : 0 <= e.
Hypothesis CL : clear_points T n p (e + 2 * s).
Hypothesis MW : measured_within y T n e.
Hypothesis SH : shaped y n.
Hypothesis UF : unforced y.
Hypothesis NN : List.Forall (fun v => (0 <= v)%Q) (r_s2y (o_t y)).
Hypothesis ZZ : forall i, (i < n)%nat -> tr_var T i = 0 -> (at_ (r_s2y (o_t y)) i == 0)%Q.
Hypothesis LG : forall i, (i < n)%nat -> photonsR y i = x i.
Let LAW : linear_law (moved T x p eta K) (photonsR y) p eta K (q + K * s).
Proof.
  pose proof (cl_points _ _ _ _ CL). apply (law_ext _ x); [|eapply moved_law; eassumption]. intros i Hi. symmetry. apply LG. lia.
Qed.
Lemma data_gain : right_within y p eta K (q + K * s) (e + s).
Proof.
  apply (stable_figures y (moved T x p eta K) n p eta K (q + K * s) (e + s)); auto.
  - eapply moved_clear; eassumption.
  - eapply moved_within; eassumption.
Qed.
Lemma data_figures v0 d :
  responsivity_error (x 0%nat) (e + s) < K * eta -> gain_error (x 0%nat) eta K (q + K * s) (e + s) < K ->
  dark_truth (times y) T n (e + s) v0 d -> d < Rmax (24 / 100) v0 -> figures_right y p eta K (q + K * s) (e + s) v0 d.
Proof.
  intros SR SK DT SD. pose proof (cl_points _ _ _ _ CL). rewrite <- (LG 0%nat) in SR, SK by lia.
  apply (stable_all y (moved T x p eta K) n p eta K (q + K * s) (e + s) v0 d); auto.
  - eapply moved_clear; eassumption.
  - eapply moved_within; eassumption.
Qed.
End Any_data.

Section Float.
Context {W : Type} (C : chance W).
Variables (li : Model_Dataset.light) (c : camera) (ds : W -> nat -> draws) (version format outdir : str) (L : nat)
  (p : points) (es : W -> list event) (file : str) (bs : list (shot * shot))
  (visit_t visit_s : exposure_dict -> exposure_dict) (T : truth) (V M : R) (ad : additions) (n : nat).
Hypothesis VT : any_order visit_t.
Hypothesis VS : any_order visit_s.
Hypothesis UR : usable_run li c ds version format outdir L p es file.
Hypothesis ORD : in_order li p bs.
Hypothesis RR : random_run C c ds L p bs T V M.
Local Notation h := (c_height c).
Local Notation w := (c_width c).
Hypothesis SA : sound_additions ad n h w.
Variables (k : nat) (eta K q s e : R).
Let b := Z.of_nat (c_bits c).
Let E := e + Q2R (variance_error b).
Hypothesis NL : near_law T (listed_light li bs) k eta K q s.
Hypothesis s0 : 0 <= s.
Hypothesis e0 : 0 < e.
Hypothesis NS : noise_resolved c ds L p bs T E.
Hypothesis CL : clear_points T (length bs) k (E + 2 * s).
Local Notation bound := (INR (length bs) / INR (h * w) * ((V + 2 * M) / (e * e) + 4 * V / e)).

Lemma picture_range o m r j : (r < h)%nat -> (j < w)%nat -> (0 <= px (picture c (ds o m)) r j < 2 ^ b)%Z.
Proof.
  intros Hr Hj. destruct (grab_range c (ds o m)) as (img & G & LN & F);
    [pose proof (ur_bits _ _ _ _ _ _ _ _ _ _ UR); lia|apply (ur_camera _ _ _ _ _ _ _ _ _ _ UR)|apply (ur_draws _ _ _ _ _ _ _ _ _ _ UR)|].
  unfold picture. rewrite G. cbn [image_of px].
  assert (IN : (r * w + j < length img)%nat) by (rewrite LN; nia).
  rewrite Forall_forall in F. destruct (F _ (nth_In img None IN)) as (z & -> & Hz & _). cbn. fold b in Hz. lia.
Qed.

Lemma usable_float (P : robj -> Prop) :
  (forall y, measured_within y T (length bs) E -> shaped y (length bs) -> unforced y ->
     List.Forall (fun v => (0 <= v)%Q) (r_s2y (o_t y)) ->
     (forall i, (i < length bs)%nat -> tr_var T i = 0 -> (at_ (r_s2y (o_t y)) i == 0)%Q) ->
     (forall i, (i < length bs)%nat -> photonsR y i = listed_light li bs i) -> times y = listed_times bs -> P y) ->
  unlikely C (fun o => ~ exists y, emva_f ad (disk_of h w (es o)) visit_t visit_s file (Some (written (es o))) = Ok (Some y) /\ P y) bound.
Proof.
  intro H. destruct UR as [EXT VER HL SEP CAM DRAWS BITS SIZE RUN DIFF COMP].
  destruct (run_set C li c ds version format outdir L p es file bs EXT VER HL SEP CAM DRAWS BITS SIZE RUN DIFF COMP ORD)
    as (t & ents & ps & WR & LI & CS & PS & F & FB & _).
  pose proof (run_random C li c ds L p es file bs T V M RR t ents ps LI F) as RF.
  assert (LE : stated_light ps = listed_light li bs /\ length ps = length bs /\ stated_times ps = listed_times bs).
  { split; [|clear - F; split; [induction F; cbn [length]; auto|]].
    - apply functional_extensionality. intro i. unfold stated_light, listed_light. clear - F.
      revert i. induction F as [|(b, d) (x, y) bs ps H F IH]; intros [|i]; cbn [nth_error]; auto.
      destruct H as (_ & E & _). cbn [fst] in E. rewrite E. reflexivity.
    - unfold stated_times, listed_times.
      induction F as [|(b, d) (x, y) bs ps (E & _) F IH]; cbn [map]; [reflexivity|]. cbn [fst] in *. rewrite IH, E. reflexivity. }
  destruct LE as (LE & LN & TE).
  assert (FI : forall s, In s (shots p) -> finite (listed_exposure s) /\ finite (listed_photons li s)).
  { intros s' Hs. destruct (cp_finite _ _ COMP s' Hs) as (A & B & _). auto. }
  assert (FIB : forall o, files_bits (disk_of h w (es o)) ents h w b).
  { intro o. split; [unfold b; lia|]. intros x f im r j Hx Hf D Hr Hj. destruct (FB x f o Hx Hf) as (m & Em).
    rewrite Em in D. injection D as <-. apply picture_range; assumption. }
  assert (NSF : noise_seen (fun o => disk_of h w (es o)) ps h w T E).
  { intros i x y N. destruct (f2_nth_error _ _ _ _ _ F N) as ((sb, sd) & Hb & _ & _ & nb & nd & N1 & N2 & CC).
    destruct (NS i sb sd nd Hb N2) as (A & B). split; [exact A|]. destruct B as [B|B]; [left; exact B|]. right.
    intros o X Y EQ. destruct (CC o) as (_ & CD). cbn [fst snd] in CD. rewrite CD in EQ. injection EQ as <- <-.
    intros r j Hr Hj. apply B; assumption. }
  rewrite <- LN in *.
  eapply unlikely_mono; [|apply Rle_refl|eapply (good_likely C (fun o => disk_of h w (es o)) h w file t ents ps visit_t visit_s T V M ad n b);
    [exact VT|exact VS|exact LI|exact CS|exact PS|exact RF|exact SA|exact FIB|exact e0|exact NSF|apply SIZE|]].
  - intros o N (y & Ey & Py). apply N. exists y. rewrite WR. split; [exact Ey|exact Py].
  - intros y [G1 G2 G3 G4 G5 G6 G7]. rewrite TE in G7. rewrite LE in G6. apply H; auto.
Qed.

Let E0 : 0 <= E.
Proof. unfold E. pose proof (error_pos b). lra. Qed.

Lemma usable_float_gain :
  unlikely C (fun o => ~ exists y, emva_f ad (disk_of h w (es o)) visit_t visit_s file (Some (written (es o))) = Ok (Some y) /\
      right_within y k eta K (q + K * s) (E + s)) bound.
Proof. apply usable_float. intros y G1 G2 G3 G4 G5 G6 _. eapply data_gain; eauto. Qed.

Lemma usable_float_figures v0 d :
  responsivity_error (listed_light li bs 0) (E + s) < K * eta -> gain_error (listed_light li bs 0) eta K (q + K * s) (E + s) < K ->
  dark_truth (listed_times bs) T (length bs) (E + s) v0 d -> d < Rmax (24 / 100) v0 ->
  unlikely C (fun o => ~ exists y, emva_f ad (disk_of h w (es o)) visit_t visit_s file (Some (written (es o))) = Ok (Some y) /\
      figures_right y k eta K (q + K * s) (E + s) v0 d) bound.
Proof.
  intros SR SK DT SD. apply usable_float. intros y G1 G2 G3 G4 G5 G6 G7. rewrite <- G7 in DT. eapply data_figures; eauto.
Qed.
End Float.
