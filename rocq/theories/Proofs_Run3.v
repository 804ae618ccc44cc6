(** A generated data set with random deliveries: its evaluation. *)
From Coq Require Import Ascii String List Bool Arith ZArith QArith Qreals Reals Lia Lra Permutation Sorting.Sorted FunctionalExtensionality Classical_Prop.
From Verif Require Import Base_Prelude Base_Str Base_Num Base_Order Base_Float Base_Sum Base_SumR Base_Xreal Model_Path Model_Parser Model_Images
  Model_Loader Model_Data Model_Results Model_Emva Model_Camera Model_Points Model_Dataset Model_Generated
  Spec_Parser Spec_Images Spec_Data Spec_Results Spec_Camera Spec_Dataset Spec_Points Spec_Generated
  Spec_Chance Spec_Linear Spec_Any Spec_Near Spec_Emva Spec_Whole Spec_Figures Spec_RandomRun
  Proofs_Str Proofs_Parser Proofs_Parser2 Proofs_Camera Proofs_Camera2 Proofs_Dataset Proofs_Dataset2 Proofs_Dataset3 Proofs_Emva Proofs_Emva3 Proofs_Emva4 Proofs_Emva5
  Proofs_Near2 Proofs_Near3 Proofs_Near4 Proofs_Figures3 Proofs_Whole Proofs_Run Proofs_Run2.
Import ListNotations.
Set Bullet Behavior "Strict Subproofs".
Local Arguments feq : simpl never.

Lemma chance_inhabited {W} (C : chance W) : exists o : W, True.
Proof.
  apply NNPP. intro N. assert (E : (fun _ : W => 1%R) = (fun _ => 0%R)).
  { apply functional_extensionality. intro o. exfalso. apply N. exists o. auto. }
  pose proof (expect_const W C 1%R) as A. rewrite E, (expect_const W C 0%R) in A. lra.
Qed.

Lemma points_in es1 es2 ps : (forall e, In e es1 <-> In e es2) -> Spec_Whole.points_of es1 ps -> Spec_Whole.points_of es2 ps.
Proof.
  intros I (A & B & D). split; [auto|]. split.
  - intro e. rewrite B, I. tauto.
  - intros b d H. rewrite <- I. apply D. auto.
Qed.

Lemma Forall2_nth_error_l {A B} (R : A -> B -> Prop) l l' i x : Forall2 R l l' -> nth_error l i = Some x ->
  exists y, nth_error l' i = Some y /\ R x y.
Proof.
  intro F. revert i. induction F as [|a b l l' E F IH]; intros [|i] H; try discriminate; simpl in *; eauto.
  injection H as <-. eauto.
Qed.

Section Random.
Context {W : Type} (C : chance W) (li : light) (c : camera) (ds : W -> nat -> draws) (version format outdir : str)
  (L : nat) (p : points) (es : W -> list event) (file : str) (bs : list (shot * shot))
  (visit_t visit_s : exposure_dict -> exposure_dict) (T : truth) (V M : R).
Let h := c_height c.
Let w := c_width c.
Hypothesis EXT : extension format.
Hypothesis VER : is_word version.
Hypothesis HL : (3 <= L <= 1000)%nat.
Hypothesis SEP : ends_with_sep outdir = false.
Hypothesis CAM : good_camera c.
Hypothesis DRAWS : forall o n, good_draws c (ds o n).
Hypothesis BITS : (c_bits c <= 16)%nat.
Hypothesis SIZE : (2 <= h * w)%nat /\ (Z.of_nat (h * w) <= 2 ^ 29)%Z.
Hypothesis RUN : forall o, run_test li c (ds o) version format outdir L p = (es o, Ok file).
Hypothesis DIFF : ForallOrdPairs (fun s s' => ~ listed_alike li s s') (shots p).
Hypothesis COMP : complete_points li p.
Hypothesis VT : any_order visit_t.
Hypothesis VS : any_order visit_s.
Hypothesis ORD : in_order li p bs.
Hypothesis RR : random_run C c ds L p bs T V M.

Let fs o := disk_of h w (es o).

Lemma run_set : exists t ents ps,
  (forall o, written (es o) = t) /\ lists file t ents /\ (forall o, complete_set (fs o) h w ents) /\
  Spec_Whole.points_of ents ps /\
  Forall2 (fun bd xy => e_exposure (fst xy) = listed_exposure (fst bd) /\ e_photons (fst xy) = listed_photons li (fst bd) /\
    exists nb nd, first_image L p (fst bd) nb /\ first_image L p (snd bd) nd /\
    forall o, contents (fs o) (fst xy) = pair_at c (ds o) nb /\ contents (fs o) (snd xy) = pair_at c (ds o) nd) bs ps /\
  (forall e f o, In e ents -> In f (e_files e) -> exists n, fs o f = Some (picture c (ds o n))) /\
  (forall s, In s (shots p) -> exists e n, In e ents /\ records li L s e /\ first_image L p s n /\
     forall o, contents (fs o) e = series_at c (ds o) (images_in L s) n).
Proof.
  destruct (chance_inhabited C) as (o0 & _).
  destruct (generated_listed li c (ds o0) version format outdir L p (es o0) file EXT VER HL SEP BITS SIZE (RUN o0) DIFF)
    as (listed & ents & LI & I & F & CC).
  assert (WR : forall o, written (es o) = the_text li c version format L p) by (intro o; eapply run_written; eauto).
  assert (SV : forall o, saved (es o) = map (path_at format outdir) (seq 0 (count L p))) by (intro o; eapply run_saved; eauto).
  assert (FIN : forall s, In s (shots p) -> finite (listed_exposure s) /\ finite (listed_photons li s)).
  { intros s Hs. destruct (cp_finite _ _ COMP s Hs) as (A & B & _). auto. }
  rewrite SV in CC.
  assert (TP : forall b d, In (b, d) bs -> In b (shots p) /\ In d (shots p)).
  { intros b d H. destruct ORD as (_ & O1 & O2). split; [apply O1, (in_map fst _ _ H)|apply (O2 b d H)]. }
  destruct (pairs_exist li L p listed (path_at format outdir) F CC bs TP) as (ps & P).
  exists (the_text li c version format L p), ents, ps. split; [auto|]. split; [rewrite <- (WR o0); auto|].
  split; [|split; [|split; [|split]]].
  - intro o. apply (complete_in c (fs o) listed); [intro e; symmetry; apply I|].
    eapply generated_complete; eauto. rewrite CC, SV. reflexivity.
  - apply (points_in listed); [intro e; symmetry; apply I|].
    eapply ordered_points; eauto.
  - assert (KT : forall bd, In bd bs -> s_kind (fst bd) = Temporal /\ s_kind (snd bd) = Temporal).
    { intros (b, d) H. destruct ORD as (_ & O1 & O2). split; [apply O1, (in_map fst _ _ H)|apply (O2 b d H)]. }
    assert (CO : forall s e o n, s_kind s = Temporal -> (n + images_in L s <= count L p)%nat ->
      e_files e = map (path_at format outdir) (seq n (images_in L s)) -> contents (fs o) e = pair_at c (ds o) n).
    { intros s e o n K B E. unfold contents. rewrite E. unfold images_in in *. rewrite K in *. cbn [seq map].
      unfold fs. rewrite !(run_disk li c (ds o) version format outdir L p (es o) file); auto; lia. }
    clear - P KT CO. induction P as [|bd xy bs ps (A & B) P IH]; constructor.
    + destruct A as (_ & (_ & A2 & A3 & _) & nb & A4 & A5 & A6). destruct B as (_ & _ & nd & B4 & B5 & B6).
      destruct (KT bd (or_introl eq_refl)) as (K1 & K2). split; [exact A2|]. split; [exact A3|]. exists nb, nd. split; [auto|]. split; [auto|].
      intro o. split; [exact (CO (fst bd) _ o nb K1 A5 A6)|exact (CO (snd bd) _ o nd K2 B5 B6)].
    + apply IH. intros; apply KT; right; auto.
  - intros e f o He Hf. apply I in He. assert (IN : In f (concat (map e_files listed))) by (rewrite <- flat_map_concat_map; apply in_flat_map; eauto).
    rewrite CC in IN. apply in_map_iff in IN. destruct IN as (n & <- & Hn). apply in_seq in Hn. exists n.
    unfold fs. apply (run_disk li c (ds o) version format outdir L p (es o) file); auto; lia.
  - intros s Hs. destruct (entry_exists li L p listed (path_at format outdir) F CC s Hs) as (e & He & R & n & FN & B & EF).
    exists e, n. split; [apply I, He|]. split; [exact R|]. split; [exact FN|]. intro o.
    unfold contents, series_at. rewrite EF, map_map. apply map_ext_in. intros i Hi. apply in_seq in Hi.
    unfold fs. rewrite (run_disk li c (ds o) version format outdir L p (es o) file); auto; lia.
Qed.

Lemma run_random t ents ps : lists file t ents ->
  Forall2 (fun bd xy => e_exposure (fst xy) = listed_exposure (fst bd) /\ e_photons (fst xy) = listed_photons li (fst bd) /\
    exists nb nd, first_image L p (fst bd) nb /\ first_image L p (snd bd) nd /\
    forall o, contents (fs o) (fst xy) = pair_at c (ds o) nb /\ contents (fs o) (snd xy) = pair_at c (ds o) nd) bs ps ->
  random_files C fs ps h w T V M.
Proof.
  intros _ F.
  constructor.
  - intros i x y E. destruct (f2_nth_error _ _ _ _ _ F E) as ((b, d) & H & _ & _ & nb & nd & N1 & N2 & CC).
    replace (fun o => contents (fs o) x) with (fun o => pair_at c (ds o) nb)
      by (apply functional_extensionality; intro o; symmetry; apply CC).
    eapply rr_bright; eauto.
  - intros i x y E. destruct (f2_nth_error _ _ _ _ _ F E) as ((b, d) & H & _ & _ & nb & nd & N1 & N2 & CC).
    replace (fun o => contents (fs o) y) with (fun o => pair_at c (ds o) nd)
      by (apply functional_extensionality; intro o; symmetry; apply CC).
    eapply rr_dark; eauto.
  - intros i x y o A B E Z D. destruct (f2_nth_error _ _ _ _ _ F E) as ((b, d) & H & _ & _ & nb & nd & N1 & N2 & CC).
    destruct (CC o) as (CB & _). cbn [fst snd] in CB. rewrite CB in D. injection D as <- <-.
    intros r q Hr Hq. eapply rr_clipped; eauto.
Qed.

(** Any event of the evaluation. *)
Lemma run_event (P : robj -> Prop) bound :
  (forall O B D, measurement C O B D (length bs) h w T (listed_light li bs) V M ->
     (forall i b d n, nth_error bs i = Some (b, d) -> first_image L p b n -> forall o, B i o = pair_at c (ds o) n) ->
     (forall i b d n, nth_error bs i = Some (b, d) -> first_image L p d n -> forall o, D i o = pair_at c (ds o) n) ->
     (forall o, times (O o) = listed_times bs) ->
     unlikely C (fun o => ~ P (O o)) bound) ->
  unlikely C (fun o => ~ exists x, emva (disk_of h w (es o)) visit_t visit_s file (Some (written (es o))) = Ok (Some x) /\ P x) bound.
Proof.
  intro H. destruct run_set as (t & ents & ps & WR & LI & CS & PS & F & _).
  pose proof (run_random t ents ps LI F) as RF.
  assert (LE : stated_light ps = listed_light li bs /\ length ps = length bs).
  { split; [|clear - F; induction F; cbn [length]; auto].
    apply functional_extensionality. intro i. unfold stated_light, listed_light. clear - F.
    revert i. induction F as [|(b, d) (x, y) bs ps H F IH]; intros [|i]; cbn [nth_error]; auto.
    destruct H as (_ & E & _). cbn [fst] in E. rewrite E. reflexivity. }
  destruct LE as (LE & LN).
  assert (FI : forall s, In s (shots p) -> finite (listed_exposure s) /\ finite (listed_photons li s)).
  { intros s Hs. destruct (cp_finite _ _ COMP s Hs) as (A & B & _). auto. }
  pose proof (whole_measurement C fs h w file t ents ps visit_t visit_s T V M VT VS LI CS PS RF) as ME.
  rewrite LN, LE in ME.
  pose proof (H _ _ _ ME) as U.
  eapply unlikely_mono; [|apply Rle_refl|apply (whole_event C fs h w file t ents ps visit_t visit_s VT VS LI CS PS P bound); apply U].
  - intros o N (x & E & Px). apply N. exists x. rewrite WR. auto.
  - intros i b d n E N o. destruct (Forall2_nth_error_l _ _ _ _ _ F E) as ((x, y) & -> & _ & _ & nb & nd & N1 & N2 & CC).
    rewrite (first_image_unique li L p FI DIFF b n nb); auto. apply CC.
  - intros i b d n E N o. destruct (Forall2_nth_error_l _ _ _ _ _ F E) as ((x, y) & -> & _ & _ & nb & nd & N1 & N2 & CC).
    rewrite (first_image_unique li L p FI DIFF d n nd); auto. apply CC.
  - intro o. rewrite (file_times fs h w file t ents ps visit_t visit_s VT VS LI CS PS o). unfold stated_times, listed_times.
    clear - F. induction F as [|(b, d) (x, y) bs ps (E & _) F IH]; cbn [map]; [reflexivity|]. cbn [fst] in *. rewrite IH, E. reflexivity.
Qed.

Lemma run_unlikely k eta K q s e : near_law T (listed_light li bs) k eta K q s -> (0 <= s)%R -> (0 < e)%R ->
  clear_points T (length bs) k (e + 2 * s) ->
  unlikely C (fun o => ~ exists x, emva (disk_of h w (es o)) visit_t visit_s file (Some (written (es o))) = Ok (Some x) /\
       right_within x k eta K (q + K * s) (e + s))
    (INR (length bs) / INR (h * w) * ((V + 2 * M) / (e * e) + 4 * V / e)).
Proof.
  intros NL s0 e0 CL. apply run_event. intros O B D ME _ _ _. eapply slack_unlikely; eauto. apply SIZE.
Qed.

Lemma run_simulated k eta K (a b : nat -> setting) s e : (0 < eta)%R -> (0 < K)%R -> (0 <= s)%R -> (0 < e)%R ->
  (forall i sb sd nb nd, nth_error bs i = Some (sb, sd) -> (i <= k)%nat -> first_image L p sb nb -> first_image L p sd nd ->
     simulated C (a i) (fun o => pair_at c (ds o) nb) 2 h w /\ simulated C (b i) (fun o => pair_at c (ds o) nd) 2 h w /\
     same_but_light (a i) (b i) /\ st_K (a i) = K /\
     (K * Rabs (pixel_meanR h w (fun r q => st_light (a i) r q - st_light (b i) r q) - eta * listed_light li bs i) <= s)%R) ->
  (forall i, (i <= k)%nat -> (listed_light li bs 0 <= listed_light li bs i)%R) ->
  clear_points T (length bs) k (e + 2 * s) ->
  unlikely C (fun o => ~ exists x, emva (disk_of h w (es o)) visit_t visit_s file (Some (written (es o))) = Ok (Some x) /\
       right_within x k eta K (1 / 4 + K * s) (e + s))
    (INR (length bs) / INR (h * w) * ((V + 2 * M) / (e * e) + 4 * V / e)).
Proof.
  intros E0 K0 s0 e0 SI OR CL. apply run_event. intros O B D ME EB ED _. pose proof (cl_points _ _ _ _ CL) as PN.
  eapply slack_unlikely; eauto; [|apply SIZE].
  apply (simulated_near W C O B D (length bs) h w T _ V M k eta K s a b ME); auto; [apply SIZE|lia|].
  intros i Hi. destruct (nth_error bs i) as [(sb, sd)|] eqn:N; [|apply nth_error_None in N; lia].
  destruct ORD as (_ & O1 & O2). pose proof (nth_error_In _ _ N) as IN.
  destruct (proj1 (O1 sb) (in_map fst _ _ IN)) as (Ib & _). destruct (O2 sb sd IN) as (Id & _).
  assert (FE : forall x, In x (shots p) -> exists n, first_image L p x n).
  { intros x Hx. apply in_split in Hx. destruct Hx as (l1 & l2 & E). exists (list_sum (map (images_in L) l1)), l1, l2. auto. }
  destruct (FE sb Ib) as (nb & Nb). destruct (FE sd Id) as (nd & Nd).
  destruct (SI i sb sd nb nd N Hi Nb Nd) as (S1 & S2 & S3).
  replace (B i) with (fun o => pair_at c (ds o) nb) by (apply functional_extensionality; intro o; symmetry; eapply EB; eauto).
  replace (D i) with (fun o => pair_at c (ds o) nd) by (apply functional_extensionality; intro o; symmetry; eapply ED; eauto).
  auto.
Qed.
End Random.
