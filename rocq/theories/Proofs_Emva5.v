(** Evaluation of generated data sets. *)
From Coq Require Import Ascii String List Bool Arith ZArith QArith Lia Permutation Sorting.Sorted.
From Verif Require Import Base_Prelude Base_Str Base_Num Base_Order Base_Float Base_Sum Model_Path Model_Parser
  Model_Images Model_Loader Model_Data Model_Results Model_Emva Model_Camera Model_Points Model_Dataset
  Model_Generated Spec_Parser Spec_Images Spec_Data Spec_Results Spec_Emva Spec_Camera Spec_Dataset Spec_Points
  Spec_Generated Proofs_Str Proofs_Parser Proofs_Parser2 Proofs_Camera Proofs_Camera2 Proofs_Dataset
  Proofs_Dataset2 Proofs_Points3 Proofs_Dataset3 Proofs_Emva Proofs_Emva3 Proofs_Emva4.
Import ListNotations.
Open Scope nat_scope.
Local Arguments feq : simpl never.

Lemma disk_last h w es path : In path (saved es) ->
  exists px, In (ESave path px) es /\ disk_of h w es path = Some (image_of h w px).
Proof.
  induction es as [|e es IH]; [contradiction|]. unfold saved. cbn [map concat].
  rewrite in_app_iff. intro H. cbn [disk_of].
  destruct (disk_of h w es path) as [im|] eqn:D.
  - assert (I : In path (saved es)).
    { clear - D. induction es as [|e es IH]; [discriminate|]. cbn [disk_of] in D. unfold saved. cbn [map concat].
      apply in_app_iff. destruct (disk_of h w es path); [right; apply IH; auto|].
      left. destruct e; [discriminate|]. destruct (str_eqb path0 path) eqn:E; [|discriminate].
      apply str_eqb_eq in E. left. auto. }
    destruct (IH I) as (px & A & B). exists px. split; [right; auto|]. congruence.
  - destruct H as [H|H].
    + destruct e as [t|p px]; [contradiction|]. destruct H as [->|[]]. exists px. split; [left; auto|].
      rewrite (proj2 (str_eqb_eq path path) eq_refl). auto.
    + destruct (IH H) as (px & A & B). congruence.
Qed.

Section Generated.
Context (li : light) (c : camera) (ds : nat -> draws) (version format outdir : str) (L : nat) (p : points)
  (es : list event) (file : str).
Let h := c_height c.
Let w := c_width c.
Hypothesis EXT : extension format.
Hypothesis VER : is_word version.
Hypothesis HL : 3 <= L <= 1000.
Hypothesis SEP : ends_with_sep outdir = false.
Hypothesis CAM : good_camera c.
Hypothesis DRAWS : forall n, good_draws c (ds n).
Hypothesis BITS : c_bits c <= 16.
Hypothesis SIZE : 2 <= h * w /\ (Z.of_nat (h * w) <= 2 ^ 29)%Z.
Hypothesis RUN : run_test li c ds version format outdir L p = (es, Ok file).
Hypothesis DIFF : ForallOrdPairs (fun s s' => ~ listed_alike li s s') (shots p).
Hypothesis COMP : complete_points li p.

Lemma file_is : file = descriptor_path outdir.
Proof.
  unfold run_test, then_ in RUN. cbn [write] in RUN.
  destruct (for_each _ _ _) as (ev & [n|e]) in RUN; injection RUN; auto; discriminate.
Qed.

Lemma saved_good path : In path (saved es) ->
  exists im, disk_of h w es path = Some im /\ good_image h w im.
Proof.
  intro H. destruct (disk_last h w es path H) as (px & I & D). exists (image_of h w px). split; auto.
  destruct (saved_pixels c ds format outdir li version L p es (Ok file) path px CAM DRAWS ltac:(lia) RUN I)
    as (n & s & _ & _ & G).
  destruct (grab_range (set_exposure c (s_exposure s)) (ds n)) as (img & G' & Len & R); auto.
  { simpl. lia. }
  { apply DRAWS. }
  rewrite G in G'. injection G' as <-. unfold good_image, image_of. simpl ih; simpl iw.
  split; auto. split; auto. intros r k Hr Hk. cbn [Model_Images.px]. simpl c_height in Len. simpl c_width in Len. fold h w in Len.
  assert (B : r * w + k < length px) by (rewrite Len; nia).
  rewrite Forall_forall in R. destruct (R (nth (r * w + k) px None) (nth_In _ _ B)) as (z & -> & Hz & _).
  simpl c_bits in Hz. assert (2 ^ Z.of_nat (c_bits c) <= 2 ^ 16)%Z by (apply Z.pow_le_mono_r; lia). lia.
Qed.

Lemma files_good files : incl files (saved es) ->
  exists ims, images (disk_of h w es) files ims /\ Forall (good_image h w) ims.
Proof.
  induction files as [|f files IH]; intro I.
  - exists []. split; constructor.
  - destruct IH as (ims & A & B); [intros x Hx; apply I; right; auto|].
    destruct (saved_good f) as (im & D & G); [apply I; left; auto|].
    exists (im :: ims). split; constructor; auto.
Qed.

Lemma f2_in_l {A B} (R : A -> B -> Prop) l l' x : Forall2 R l l' -> In x l -> exists y, In y l' /\ R x y.
Proof.
  induction 1 as [|a b l l' H F IH]; [contradiction|]. intros [->|Hx]; [exists b; split; [left|]; auto|].
  destruct (IH Hx) as (y & Hy & Ry). exists y. split; [right|]; auto.
Qed.
Lemma f2_in_r {A B} (R : A -> B -> Prop) l l' y : Forall2 R l l' -> In y l' -> exists x, In x l /\ R x y.
Proof.
  induction 1 as [|a b l l' H F IH]; [contradiction|]. intros [->|Hx]; [exists a; split; [left|]; auto|].
  destruct (IH Hx) as (x & Hy & Ry). exists x. split; [right|]; auto.
Qed.

Lemma records_apart ss l : Forall2 (records li L) ss l ->
  ForallOrdPairs (fun s s' => ~ listed_alike li s s') ss -> Proofs_Emva4.apart l.
Proof.
  induction 1 as [|s e ss l R F IH]; intro P; [constructor|]. inversion P as [|? ? P1 P2]; subst.
  constructor; [|apply IH; auto]. rewrite Forall_forall in *. intros e' He' (C1 & C2 & C3).
  destruct (f2_in_r _ _ _ _ F He') as (s' & Hs' & R'). apply (P1 s' Hs').
  destruct R as (R1 & R2 & R3 & _). destruct R' as (S1 & S2 & S3 & _).
  split; [congruence|]. rewrite <- R2, <- R3, <- S2, <- S3. auto.
Qed.

Lemma generated_complete listed : Forall2 (records li L) (shots p) listed ->
  concat (map e_files listed) = saved es -> complete_set (disk_of h w es) h w listed.
Proof.
  intros F CC. pose proof (records_apart _ _ F DIFF) as AP.
  assert (FIN : forall e, In e listed -> finite (e_exposure e) /\ finite (e_photons e) /\
            (0 <= number (e_photons e))%Q).
  { intros e He. destruct (f2_in_r _ _ _ _ F He) as (s & Hs & (R1 & R2 & R3 & R4)).
    rewrite R2, R3. apply (cp_finite _ _ COMP). auto. }
  assert (SAME : forall s e e', In e listed -> In e' listed -> records li L s e -> records li L s e' -> e = e').
  { intros s e e' He He' (R1 & R2 & R3 & _) (S1 & S2 & S3 & _). eapply apart_eq; eauto.
    destruct (FIN e He) as (A & B & _). split; [congruence|]. rewrite S2, S3, <- R2, <- R3.
    split; apply feq_refl, finite_not_nan; auto. }
  constructor.
  - exact SIZE.
  - intros e He. destruct (FIN e He) as (A & B & _). auto.
  - intros e He. apply FIN; auto.
  - intros e He. destruct (f2_in_r _ _ _ _ F He) as (s & Hs & (R1 & R2 & R3 & R4)). split.
    + rewrite R4. unfold images_in. destruct (s_kind s); lia.
    + apply files_good. rewrite <- CC. intros x Hx. apply in_concat. exists (e_files e).
      split; auto. apply in_map. auto.
  - intros e He T. destruct (f2_in_r _ _ _ _ F He) as (s & Hs & (R1 & R2 & R3 & R4)).
    destruct (cp_dark _ _ COMP s Hs) as (d & Hd & Kd & Dd & Ed); [unfold temporal_entry in T; congruence|].
    destruct (f2_in_l _ _ _ _ F Hd) as (x & Hx & (S1 & S2 & S3 & S4)). exists x. split; auto.
    split; [unfold temporal_entry; congruence|]. unfold dark_entry. rewrite S3. split; auto.
    rewrite S2, R2. unfold listed_exposure. congruence.
  - intros e He T. destruct (f2_in_r _ _ _ _ F He) as (s & Hs & (R1 & R2 & R3 & R4)).
    destruct (cp_bright _ _ COMP s Hs) as (d & Hd & Kd & Dd & Ed); [unfold temporal_entry in T; congruence|].
    destruct (f2_in_l _ _ _ _ F Hd) as (x & Hx & (S1 & S2 & S3 & S4)). exists x. split; auto.
    split; [unfold temporal_entry; congruence|]. unfold dark_entry. rewrite S3. split; auto.
    rewrite S2, R2. unfold listed_exposure. congruence.
  - destruct (cp_aligned _ _ COMP) as [A|A]; [left|right].
    + intros e e' He He' T T'. destruct (f2_in_r _ _ _ _ F He) as (s & Hs & (R1 & R2 & _)).
      destruct (f2_in_r _ _ _ _ F He') as (s' & Hs' & (S1 & S2 & _)). rewrite R2, S2. unfold listed_exposure.
      rewrite (A s s'); auto; unfold temporal_entry in *; congruence.
    + intros e e' He He' T T' D D' E. destruct (f2_in_r _ _ _ _ F He) as (s & Hs & R).
      destruct (f2_in_r _ _ _ _ F He') as (s' & Hs' & S).
      assert (s = s').
      { destruct R as (R1 & R2 & R3 & _). destruct S as (S1 & S2 & S3 & _).
        apply A; auto; try (unfold temporal_entry in *; congruence); unfold dark_entry, dark_shot in *; congruence. }
      subst s'. eapply SAME; eauto.
  - destruct (cp_spatial _ _ COMP) as (d & b & Hd & Hb & Kd & Kb & Dd & Db & E & U).
    destruct (f2_in_l _ _ _ _ F Hd) as (x & Hx & X). destruct (f2_in_l _ _ _ _ F Hb) as (y & Hy & Y).
    exists x, y. pose proof X as (X1 & X2 & X3 & _). pose proof Y as (Y1 & Y2 & Y3 & _).
    split; auto. split; auto. split; [unfold spatial_entry; congruence|].
    split; [unfold spatial_entry; congruence|]. unfold dark_entry. rewrite X3, Y3. split; auto. split; auto.
    split; [rewrite X2, Y2; unfold listed_exposure; congruence|].
    intros e He S. destruct (f2_in_r _ _ _ _ F He) as (s & Hs & R).
    destruct (U s Hs) as [->| ->]; [destruct R; unfold spatial_entry in S; congruence|left|right]; eapply SAME; eauto.
Qed.

Lemma complete_in fs es1 es2 : (forall e, In e es1 <-> In e es2) -> complete_set fs h w es1 -> complete_set fs h w es2.
Proof.
  intros I C. destruct C as [C1 C2 C3 C4 C5 C6 C7 C8]. constructor; auto.
  - intros e He. apply C2, I, He.
  - intros e He. apply C3, I, He.
  - intros e He. apply C4, I, He.
  - intros e He T. destruct (C5 e (proj2 (I e) He) T) as (d & Hd & R). exists d. rewrite <- I. auto.
  - intros e He T. destruct (C6 e (proj2 (I e) He) T) as (d & Hd & R). exists d. rewrite <- I. auto.
  - destruct C7 as [C7|C7]; [left|right]; intros e e' He He'; apply C7; apply I; auto.
  - destruct C8 as (d & b & Hd & Hb & A1 & A2 & A3 & A4 & A5 & A6). exists d, b.
    rewrite <- !I. repeat (split; auto). intros e He. apply A6. apply I. auto.
Qed.

Lemma rows_in fs es1 es2 rows : (forall e, In e es1 <-> In e es2) -> rows_of fs es1 rows -> rows_of fs es2 rows.
Proof.
  intros I (A & B & C & D). split; [|split; [auto|split; [auto|]]].
  - eapply Forall_impl; [|exact A]. intros r (R1 & R2 & R). split; auto. split; [apply I; auto|auto].
  - intro e. rewrite D, I. tauto.
Qed.

Lemma generated_listed : exists listed entries',
  lists file (written es) entries' /\ (forall e, In e entries' <-> In e listed) /\
  Forall2 (records li L) (shots p) listed /\ concat (map e_files listed) = saved es.
Proof.
  assert (FD : found outdir file None) by (right; split; auto; split; auto using file_is).
  destruct (parses_back li c ds version format outdir L p es file file None EXT VER ltac:(lia) RUN FD DIFF)
    as (d & listed & PE & _ & _ & P & F & CC).
  destruct (text_content_exists (written es)) as (toks & TC).
  destruct (parse_file_cases file None (written es) toks TC) as [(es0 & d' & W & B & E & P0 & _)|(_ & e & E & _)];
    [|congruence].
  assert (d' = d) by congruence. subst d'.
  exists listed, es0. split; [exists toks; auto|]. split; [|auto].
  intro e. split; apply Permutation_in; [|symmetry]; transitivity (entries d); auto; symmetry; auto.
Qed.

Lemma generated_evaluates visit_t visit_s : any_order visit_t -> any_order visit_s ->
  (exists s, In s (shots p) /\ s_kind s = Temporal) ->
  exists o listed rows i,
    emva (disk_of h w es) visit_t visit_s file (Some (written es)) = Ok (Some o) /\
    Forall2 (records li L) (shots p) listed /\ concat (map e_files listed) = saved es /\
    rows_of (disk_of h w es) listed rows /\
    value_of F_index_u_ysat o = VZ (Ok (Z.of_nat i)) /\ i < length rows /\
    (forall m, value_of F_index_sensitivity_max o = VN (Ok m) ->
       exists r, value_of F_R o = VQ (Ok r) /\ best_slope (m_photons rows) (m_signal h w rows) m r).
Proof.
  intros VT VS (s & Hs & Ts). destruct generated_listed as (listed & ents & LI & I & F & CC).
  pose proof (generated_complete listed F CC) as CS.
  assert (CS' : complete_set (disk_of h w es) h w ents) by (eapply complete_in; [|exact CS]; intro; symmetry; apply I).
  destruct (end_to_end (disk_of h w es) h w visit_t visit_s file (written es) ents VT VS LI CS')
    as (o & rows & i & E & R & V & Li & _ & _ & _ & FR).
  { destruct (f2_in_l _ _ _ _ F Hs) as (e & He & (K & _)). exists e. split; [apply I; auto|].
    unfold temporal_entry. congruence. }
  exists o, listed, rows, i. split; auto. split; auto. split; auto.
  split; [eapply rows_in; eauto|]. split; auto. split; auto. intros m M. apply (FR m M).
Qed.
End Generated.

(** ** An exposure series *)
Lemma in_shots_of k d s : In s (shots_of k d) <->
  exists t rs r, In (t, rs) d /\ In r rs /\ s = mkShot k t r.
Proof.
  unfold shots_of. rewrite in_flat_map. split.
  - intros ((t & rs) & H & I). apply in_map_iff in I. destruct I as (r & <- & Hr). exists t, rs, r. auto.
  - intros (t & rs & r & H & Hr & ->). exists (t, rs). split; auto. apply in_map. auto.
Qed.

Lemma series_complete li env c a c' p lo hi :
  make_points env c a = (c', Ok p) -> a_exposure_fixed a = None ->
  limit (a_exposure_min a) (e_min env) (FFin lo) -> limit (a_exposure_max a) (e_max env) (FFin hi) ->
  Spec_Points.apart lo hi (a_steps a) ->
  feq (l_mean li (repeat (FFin 0) (e_size env))) fzero = true ->
  (forall t bright rs, In (t, bright :: rs) (p_temporal p) ->
     feq (l_mean li bright) fzero = false /\
     exists q, as_printed 3 (np_round 3 (l_photons li t bright)) = FFin q /\ (0 < q)%Q) ->
  complete_points li p.
Proof.
  intros M FX Lo Hi AP Z B.
  destruct (exposure_mode env c a c' p M FX) as (top & bright & _ & _ & (ts & SP) & T & _).
  { destruct AP. lia. }
  destruct (exposure_mode_count env c a c' p lo hi M FX Lo Hi AP) as (Len & Nth & _ & (x0 & rs0 & N0 & SP0)).
  set (zero := repeat (FFin 0) (e_size env)) in *.
  rewrite Forall_forall in T.
  assert (TE : forall t rs, In (t, rs) (p_temporal p) -> rs = [bright; zero] /\
            (exists x, t = FFin x /\ as_printed 1 t = t)).
  { intros t rs H. split; [apply (T _ H)|]. apply In_nth_error in H. destruct H as (i & H).
    destruct (Nth i) as (x & rs' & E & P & _).
    { rewrite <- Len. apply nth_error_Some. congruence. }
    rewrite H in E. injection E as -> _. exists x. auto. }
  assert (ST : In (ts, [bright; zero]) (p_temporal p)).
  { apply nth_error_In in N0. rewrite SP0 in SP. injection SP as -> ->. auto. }
  assert (LZ : forall k t, listed_photons li (mkShot k t zero) = FFin 0).
  { intros k t. unfold listed_photons. cbn [s_radiance]. rewrite Z. auto. }
  assert (LB : forall k t rs, In (t, rs) (p_temporal p) -> exists q,
            listed_photons li (mkShot k t bright) = FFin q /\ (0 < q)%Q).
  { intros k t rs H. destruct (TE t rs H) as (-> & _). destruct (B t bright _ H) as (B1 & q & B2 & B3).
    exists q. unfold listed_photons. cbn [s_radiance s_exposure]. rewrite B1. auto. }
  assert (SH : forall s, In s (shots p) -> exists t, In (t, [bright; zero]) (p_temporal p) /\
            (s_kind s = Spatial -> t = ts) /\ (s = mkShot (s_kind s) t bright \/ s = mkShot (s_kind s) t zero)).
  { intros s H. unfold shots in H. rewrite in_app_iff, !in_shots_of in H.
    destruct H as [(t & rs & r & H & Hr & ->)|(t & rs & r & H & Hr & ->)].
    - destruct (TE t rs H) as (-> & _). exists t. split; auto. split; [discriminate|]. simpl.
      destruct Hr as [<-|[<-|[]]]; auto.
    - rewrite SP in H. destruct H as [H|[]]. injection H as <- <-. exists ts. split; auto. split; auto. simpl.
      destruct Hr as [<-|[<-|[]]]; auto. }
  assert (TS : forall t r, In (t, [bright; zero]) (p_temporal p) -> r = bright \/ r = zero ->
            In (mkShot Temporal t r) (shots p)).
  { intros t r H Hr. unfold shots. apply in_app_iff. left. apply in_shots_of. exists t, [bright; zero], r.
    split; auto. split; auto. destruct Hr as [->| ->]; simpl; auto. }
  assert (SS : forall r, r = bright \/ r = zero -> In (mkShot Spatial ts r) (shots p)).
  { intros r Hr. unfold shots. apply in_app_iff. right. apply in_shots_of. exists ts, [bright; zero], r.
    split; [rewrite SP; left; auto|]. split; auto. destruct Hr as [->| ->]; simpl; auto. }
  assert (DZ : forall k t, dark_shot li (mkShot k t zero)).
  { intros k t. unfold dark_shot, is_dark. rewrite LZ. reflexivity. }
  assert (DB : forall k t rs, In (t, rs) (p_temporal p) -> ~ dark_shot li (mkShot k t bright)).
  { intros k t rs H. destruct (LB k t rs H) as (q & E & P). unfold dark_shot, is_dark. rewrite E.
    unfold feq, fzero. intro X. apply Qeq_bool_eq in X. rewrite <- X in P. discriminate P. }
  constructor.
  - intros s H. destruct (SH s H) as (t & Ht & _ & Hs). destruct (TE t _ Ht) as (_ & x & -> & P).
    destruct Hs as [->| ->].
    + destruct (LB (s_kind s) _ _ Ht) as (q & E & Pq). rewrite E. unfold listed_exposure. cbn [s_exposure].
      rewrite P. split; [eexists; reflexivity|]. split; [eexists; reflexivity|]. simpl. apply Qlt_le_weak. auto.
    + rewrite LZ. unfold listed_exposure. cbn [s_exposure].
      rewrite P. split; [eexists; reflexivity|]. split; [eexists; reflexivity|]. simpl. apply Qle_refl.
  - intros s H K. destruct (SH s H) as (t & Ht & _ & Hs). exists (mkShot Temporal t zero).
    split; [apply TS; auto|]. split; auto. split; auto. destruct Hs as [->| ->]; auto.
  - intros s H K. destruct (SH s H) as (t & Ht & _ & Hs). exists (mkShot Temporal t bright).
    split; [apply TS; auto|]. split; auto. split; eauto. destruct Hs as [->| ->]; auto.
  - right. intros s s' H H' K K' D D' E. destruct (SH s H) as (t & Ht & _ & Hs).
    destruct (SH s' H') as (t' & Ht' & _ & Hs'). rewrite K in Hs. rewrite K' in Hs'.
    destruct Hs as [->| ->]; [|exfalso; apply D; auto]. destruct Hs' as [->| ->]; [|exfalso; apply D'; auto].
    unfold listed_exposure in E. cbn [s_exposure] in E.
    destruct (TE t _ Ht) as (_ & x & -> & P). destruct (TE t' _ Ht') as (_ & x' & -> & P'). congruence.
  - exists (mkShot Spatial ts zero), (mkShot Spatial ts bright). split; [apply SS; auto|].
    split; [apply SS; auto|]. split; auto. split; auto. split; auto. split; [eapply DB; eauto|]. split; auto.
    intros s H K. destruct (SH s H) as (t & Ht & Et & Hs). rewrite (Et K), K in Hs. destruct Hs; auto.
Qed.

Definition bright_temporal_shot (li : light) (s : shot) : bool :=
  match s_kind s with Temporal => negb (feq fzero (listed_photons li s)) | Spatial => false end.

Lemma row_count fs li L p listed rows : Forall2 (records li L) (shots p) listed -> NoDup listed ->
  rows_of fs listed rows -> length rows = length (filter (bright_temporal_shot li) (shots p)).
Proof.
  intros F ND (_ & _ & N & R).
  pose (g := fun e => match e_kind e with Temporal => negb (feq fzero (e_photons e)) | Spatial => false end).
  assert (E : length (filter (bright_temporal_shot li) (shots p)) = length (filter g listed)).
  { clear ND R. induction F as [|s e ss l (R1 & R2 & R3 & _) F IH]; auto. simpl.
    replace (g e) with (bright_temporal_shot li s) by (unfold g, bright_temporal_shot; rewrite R1, R3; auto).
    destruct (bright_temporal_shot li s); simpl; auto. }
  rewrite E, <- (map_length w_bright). apply Permutation_length, NoDup_Permutation; auto.
  - apply NoDup_filter. auto.
  - intro e. rewrite R, filter_In. unfold g, temporal_entry, dark_entry, is_dark.
    destruct (e_kind e).
    + destruct (feq fzero (e_photons e)); simpl; intuition congruence.
    + intuition congruence.
Qed.

Lemma apart_nodup l : (forall e, In e l -> finite (e_exposure e) /\ finite (e_photons e)) ->
  Proofs_Emva4.apart l -> NoDup l.
Proof.
  intros F A. induction A as [|e l H A IH]; constructor.
  - intro I. rewrite Forall_forall in H. apply (H e I). destruct (F e (or_introl eq_refl)) as (F1 & F2).
    split; auto. split; apply feq_refl, finite_not_nan; auto.
  - apply IH. intros x Hx. apply F. right. auto.
Qed.

Lemma series_bright_count li env c a c' p lo hi :
  make_points env c a = (c', Ok p) -> a_exposure_fixed a = None ->
  limit (a_exposure_min a) (e_min env) (FFin lo) -> limit (a_exposure_max a) (e_max env) (FFin hi) ->
  Spec_Points.apart lo hi (a_steps a) ->
  feq (l_mean li (repeat (FFin 0) (e_size env))) fzero = true ->
  (forall t bright rs, In (t, bright :: rs) (p_temporal p) ->
     feq (l_mean li bright) fzero = false /\
     exists q, as_printed 3 (np_round 3 (l_photons li t bright)) = FFin q /\ (0 < q)%Q) ->
  length (filter (bright_temporal_shot li) (shots p)) = a_steps a.
Proof.
  intros M FX Lo Hi AP Z B.
  destruct (exposure_mode env c a c' p M FX) as (top & bright & _ & _ & (ts & SP) & T & _).
  { destruct AP. lia. }
  destruct (exposure_mode_count env c a c' p lo hi M FX Lo Hi AP) as (Len & _).
  set (zero := repeat (FFin 0) (e_size env)) in *. rewrite <- Len. unfold shots. rewrite filter_app, app_length.
  replace (length (filter (bright_temporal_shot li) (shots_of Spatial (p_spatial p)))) with 0.
  - rewrite Nat.add_0_r. clear - T B Z. revert T B. generalize (p_temporal p) as d.
    induction d as [|(t & rs) d IH]; intros T B; auto. apply Forall_cons_iff in T. destruct T as (T0 & T). cbn [snd] in T0. subst rs.
    unfold shots_of. cbn [flat_map fst snd map]. rewrite filter_app, app_length.
    fold (shots_of Temporal d). rewrite IH; auto; [|intros; eapply B; right; eauto]. cbn [length].
    destruct (B t bright [zero] (or_introl eq_refl)) as (B1 & q & B2 & B3).
    assert (X1 : bright_temporal_shot li (mkShot Temporal t bright) = true).
    { unfold bright_temporal_shot, listed_photons. cbn [s_kind s_radiance s_exposure]. rewrite B1, B2.
      apply negb_true_iff. unfold feq, fzero. destruct (Qeq_bool 0 q) eqn:E; auto.
      apply Qeq_bool_eq in E. rewrite <- E in B3. discriminate B3. }
    assert (X2 : bright_temporal_shot li (mkShot Temporal t zero) = false).
    { unfold bright_temporal_shot, listed_photons. cbn [s_kind s_radiance s_exposure]. rewrite Z. reflexivity. }
    cbn [filter]. rewrite X1, X2. reflexivity.
  - rewrite SP. reflexivity.
Qed.

Lemma series_evaluates li env c a c' p lo hi ds version format outdir L es file visit_t visit_s :
  make_points env c a = (c', Ok p) -> a_exposure_fixed a = None ->
  limit (a_exposure_min a) (e_min env) (FFin lo) -> limit (a_exposure_max a) (e_max env) (FFin hi) ->
  Spec_Points.apart lo hi (a_steps a) ->
  feq (l_mean li (repeat (FFin 0) (e_size env))) fzero = true ->
  (forall t bright rs, In (t, bright :: rs) (p_temporal p) ->
     feq (l_mean li bright) fzero = false /\
     exists q, as_printed 3 (np_round 3 (l_photons li t bright)) = FFin q /\ (0 < q)%Q) ->
  good_camera c' -> (forall n, good_draws c' (ds n)) -> c_bits c' <= 16 ->
  2 <= c_height c' * c_width c' /\ (Z.of_nat (c_height c' * c_width c') <= 2 ^ 29)%Z ->
  extension format -> is_word version -> 3 <= L <= 1000 -> ends_with_sep outdir = false ->
  run_test li c' ds version format outdir L p = (es, Ok file) ->
  any_order visit_t -> any_order visit_s ->
  exists o listed rows i,
    emva (disk_of (c_height c') (c_width c') es) visit_t visit_s file (Some (written es)) = Ok (Some o) /\
    Forall2 (records li L) (shots p) listed /\ concat (map e_files listed) = saved es /\
    rows_of (disk_of (c_height c') (c_width c') es) listed rows /\ length rows = a_steps a /\
    value_of F_index_u_ysat o = VZ (Ok (Z.of_nat i)) /\ i < a_steps a.
Proof.
  intros M FX Lo Hi AP Z B CAM DR BI SZ EX VE HL SE RUN VT VS.
  pose proof (series_complete li env c a c' p lo hi M FX Lo Hi AP Z B) as COMP.
  destruct (series_different li env c a c' p lo hi M FX Lo Hi AP Z) as (DIFF & LS).
  { intros t b rs H. destruct (B t b rs H) as (B1 & q & B2 & B3). split; auto. rewrite B2.
    unfold feq, fzero. destruct (Qeq_bool q 0) eqn:E; auto. apply Qeq_bool_eq in E. rewrite E in B3. discriminate B3. }
  pose proof (series_bright_count li env c a c' p lo hi M FX Lo Hi AP Z B) as BC.
  destruct (generated_evaluates li c' ds version format outdir L p es file EX VE HL SE CAM DR BI SZ RUN DIFF COMP
              visit_t visit_s VT VS) as (o & listed & rows & i & E & F & CC & R & V & I & _).
  { assert (N : 0 < length (filter (bright_temporal_shot li) (shots p))) by (rewrite BC; destruct AP; lia).
    destruct (filter (bright_temporal_shot li) (shots p)) as [|s l] eqn:EF; [simpl in N; lia|].
    assert (H : In s (filter (bright_temporal_shot li) (shots p))) by (rewrite EF; left; auto).
    apply filter_In in H. destruct H as (H & K). exists s. split; auto. unfold bright_temporal_shot in K.
    destruct (s_kind s); auto. discriminate. }
  assert (LR : length rows = a_steps a).
  { rewrite <- BC. eapply row_count; eauto. apply apart_nodup.
    - intros e He. destruct (f2_in_r _ _ _ _ F He) as (s & Hs & (R1 & R2 & R3 & R4)). rewrite R2, R3.
      destruct (cp_finite _ _ COMP s Hs) as (A1 & A2 & _). auto.
    - eapply records_apart; eauto. }
  exists o, listed, rows, i. rewrite <- LR. auto 10.
Qed.
