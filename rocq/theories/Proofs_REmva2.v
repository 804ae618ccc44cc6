(** Proofs for C119: the object of computed numbers is near the exact one. *)
From Coq Require Import Ascii String List Bool Arith ZArith QArith Qabs Lia Permutation.
From Verif Require Import Base_Prelude Base_Str Base_Num Base_Order Base_Sum Model_Path Model_Parser Model_Images Model_Loader Model_Data
  Model_Results Model_Emva Model_Rounded Model_RoundedSpatial Model_RoundedEmva Spec_Num Spec_Parser Spec_Images Spec_Loader Spec_Data
  Spec_Results Spec_Emva Spec_Rounded Spec_RoundedSpatial Spec_RoundedEmva Proofs_Parser Proofs_Parser2 Proofs_Images Proofs_Loader Proofs_Data
  Proofs_Data2 Proofs_Rounded3 Proofs_Rounded4 Proofs_RSpatial4 Proofs_REmva Proofs_Emva Proofs_Emva2 Proofs_Emva3.
Import ListNotations.
Open Scope nat_scope.
Local Arguments feq : simpl never.
Local Arguments flt : simpl never.

Lemma table2_eq {A} (d e : dict pyfloat A) : table2 eq d e -> e = d.
Proof. induction 1 as [|(k & x) (k' & y) d e (E & F) _ IH]; [reflexivity|]. cbn [fst snd] in *. subst. reflexivity. Qed.
Lemma table22_eq {A} (d e : dict pyfloat (dict pyfloat A)) : table2 (table2 eq) d e -> e = d.
Proof.
  induction 1 as [|(k & x) (k' & y) d e (E & F) _ IH]; [reflexivity|]. cbn [fst snd] in *. subst.
  apply table2_eq in F. subst. reflexivity.
Qed.

Lemma numbers_apart (P : pyfloat -> Q -> Prop) (R : Q -> Q -> Prop) :
  (forall x q, P x q -> exists v, x = FFin v /\ R v q) ->
  forall l m, Forall2 P l m -> exists vs, all_some (map q_of l) = Some vs /\ Forall2 R vs m.
Proof.
  intros H l m. induction 1 as [|x q l m K _ IH]; [exists []; split; [reflexivity|constructor]|].
  destruct (H x q K) as (v & -> & V). destruct IH as (vs & E & F). exists (v :: vs). cbn [map all_some q_of]. rewrite E.
  split; [reflexivity|constructor; assumption].
Qed.

Lemma f2_and {A B} (P S : A -> B -> Prop) l m : Forall2 (fun a b => P a b /\ S a b) l m -> Forall2 P l m /\ Forall2 S l m.
Proof. induction 1 as [|a b l m (X & Y) _ (IH1 & IH2)]; split; constructor; auto. Qed.

Lemma series_numbers_near b n s f : computed b n s f -> exists g, series_numbers f = Some g /\ series_near b n g s.
Proof.
  intros (S & L & M & N & (m & Em & Km) & vm & v & cav & rav & E1 & E2 & E3 & E4 & (vm' & F1 & K1) & (v' & F2 & K2) & (c' & F3 & K3) & (r' & F4 & K4)).
  unfold series_numbers. rewrite Em, F1, F2, F3, F4. cbn [q_of]. eexists. split; [reflexivity|].
  unfold series_near. cbn [sd_sum sd_L sd_M sd_N sd_avg_mean sd_var_mean sd_avg_var sd_avg_var_cav sd_avg_var_rav].
  rewrite E1, E2, E3, E4. unfold same_opt. repeat split; assumption.
Qed.

Section Chain.
Context (fs : fsys) (h w : nat) (es : list entry) (d : desc)
        (visit_t visit_s : exposure_dict -> exposure_dict).
Hypothesis VT : Permutation (ptemp d) (visit_t (ptemp d)).
Hypothesis VS : Permutation (pspat d) (visit_s (pspat d)).
Hypothesis PE : Permutation (entries d) es.
Hypothesis DI : desc_inv d.
Hypothesis NC : ForallOrdPairs (fun x y => ~ clash x y) (entries d).
Hypothesis KT : forall e, In e es -> Spec_Emva.temporal_entry e -> length (e_files e) = 2.
Hypothesis KS : forall e, In e es -> spatial_entry e -> 2 < length (e_files e).
Hypothesis CS : complete_set fs h w es.
Context (ad : additions) (n : nat) (b : Z).
Hypothesis SA : sound_additions ad n h w.
Hypothesis FB : files_bits fs es h w b.

Definition near_quiet (x : pyfloat) (q : Q) : Prop :=
  within (variance_error b) q x /\ (quiet_pairs_equal fs es h w -> q == 0 -> within 0 0 x)%Q.

Lemma all_bits e ims : In e es -> images fs (e_files e) ims -> bits b h w ims.
Proof.
  intros He I. destruct FB as (_ & K). unfold bits. rewrite Forall_forall. intros im Hm r c Hr Hc.
  assert (G : exists f, In f (e_files e) /\ fs f = Some im).
  { clear - I Hm. unfold images in I. induction I as [|f im' l l' E I IH]; cbn [In] in *; [tauto|].
    destruct Hm as [->|Hm]; [exists f; auto|]. destruct (IH Hm) as (g & G1 & G2). exists g. auto. }
  destruct G as (f & Hf & Ef). exact (K e f im r c He Hf Ef Hr Hc).
Qed.

Lemma temporal_pair e ims : In e es -> Spec_Emva.temporal_entry e -> images fs (e_files e) ims ->
  exists A B, ims = [A; B] /\ pair_bits b h w A B.
Proof.
  intros He Te I. pose proof (KT e He Te) as L.
  destruct (good_documented fs h w es CS e ims He I ltac:(lia)) as ((_ & _ & SS & _) & LI). rewrite L in LI.
  destruct ims as [|A [|B [|C t]]]; cbn [length] in LI; try lia. exists A, B. split; [reflexivity|].
  pose proof (all_bits e _ He I) as BT. destruct (cs_size _ _ _ _ CS) as (S1 & S2). destruct FB as (Hb & _).
  inversion SS as [|? ? (A1 & A2) SS']; subst. inversion SS' as [|? ? (B1 & B2) _]; subst.
  unfold pair_bits. repeat split; try assumption; lia.
Qed.

Lemma temporal_item e : In e es -> Spec_Emva.temporal_entry e ->
  item_ok temporal_summary (Model_Rounded.temporal_entry (ad_mean ad)) (agree (h * w) (near_var b) near_quiet) fs [] (e_files e).
Proof.
  intros He Te ims r S G. rewrite series_images in S. destruct (temporal_pair e ims He Te S) as (A & B & -> & PB).
  destruct SA as (SO & _ & _).
  destruct (pair_estimators h w A B (pair_bits_ok _ _ _ _ _ PB)) as (r' & G' & M & V). rewrite G in G'. injection G' as <-.
  destruct (mean_within _ b h w A B SO PB) as (f & F & MW).
  destruct (variance_rounded _ b h w A B SO PB) as (f' & F' & RV). rewrite F in F'. injection F' as <-.
  exists f. split; [exact F|]. split; [|split].
  - eapply within_eq; [|exact MW]. symmetry. exact M.
  - eapply within_eq; [|exact RV]. symmetry. exact V.
  - intros QP Z. rewrite V in Z.
    destruct (quiet_pair _ b h w A B SO PB (QP e A B He Te S Z)) as (f' & F' & W). rewrite F in F'. injection F' as <-. exact W.
Qed.

Lemma spatial_item fnames : item_ok (fun r => r) get_int_imgs eq fs [] fnames.
Proof. intros ims r _ G. exists r. auto. Qed.

(** The series behind the spatial data. *)
Lemma spatial_images : forall m data, (forall e, In e (entries_of Spatial m) -> In e es) -> (forall e, In e (entries_of Spatial m) -> spatial_entry e) ->
  holds (fun r => r) fs [] m data ->
  exists imgs, every (stack_bits b h w) imgs /\ table2 (table2 series_entry) imgs data.
Proof.
  intros m data Hin Hsp H. induction H as [|(t & inner) (t' & di) m data (Et & F) H IH].
  { exists []. split; constructor. }
  cbn [fst snd] in *. subst t'.
  destruct IH as (imgs & I1 & I2).
  { intros e He. apply Hin. unfold entries_of in *. cbn [flat_map]. apply in_or_app. auto. }
  { intros e He. apply Hsp. unfold entries_of in *. cbn [flat_map]. apply in_or_app. auto. }
  assert (G : exists ii, Forall (fun x => stack_bits b h w (snd x)) ii /\ table2 series_entry ii di).
  { assert (HI : forall p f, In (p, f) inner -> exists e, In e es /\ spatial_entry e /\ e_files e = f).
    { intros p f Hf. exists (mkEntry Spatial t p f).
      assert (In (mkEntry Spatial t p f) (entries_of Spatial ((t, inner) :: m))).
      { apply in_entries. cbn. split; auto. exists inner. split; auto. }
      auto. }
    clear - F HI FB CS KS. induction F as [|(p & f) (p' & r) inner di (Ep & ims & r' & S & G & X) F IH].
    { exists []. split; constructor. }
    cbn [fst snd] in *. subst. destruct IH as (ii & I1 & I2). { intros q g Hg. apply (HI q). right. exact Hg. }
    destruct (HI p f (or_introl eq_refl)) as (e & He & Se & <-). rewrite series_images in S.
    exists ((p, ims) :: ii). split; [constructor; [|exact I1]|constructor; [split; [reflexivity|exact G]|exact I2]].
    cbn [snd]. pose proof (KS e He Se) as L.
    destruct (good_documented fs h w es CS e ims He S ltac:(lia)) as ((_ & L1 & SS & _) & LI).
    pose proof (all_bits e _ He S) as BT. destruct (cs_size _ _ _ _ CS) as (S1 & S2). destruct FB as (Hb & _).
    destruct (cs_files _ _ _ _ CS e He) as (L2 & _).
    unfold stack_bits. repeat split; try assumption; lia. }
  destruct G as (ii & G1 & G2). exists ((t, ii) :: imgs). split; constructor; auto.
Qed.

Lemma chain_f : exists l dat o rows fl fdat fo,
  load_data fs [] (visit_t (ptemp d)) (visit_s (pspat d)) = Ok l /\ make_data None l = Ok dat /\
  results_object dat = Some o /\ object_ok fs h w es o rows /\
  load_data_f ad fs [] (visit_t (ptemp d)) (visit_s (pspat d)) = Ok fl /\ make_data_f ad fl = Ok fdat /\
  results_object_f fdat = Some fo /\ object_near b n fo o /\ (quiet_pairs_equal fs es h w -> zeros_kept fo o).
Proof.
  destruct (chain fs h w es d visit_t visit_s VT VS PE DI NC KT KS CS) as (l & dat & o & rows & L & MD & RO & OK).
  exists l, dat, o, rows.
  destruct (loads fs h w es d visit_t visit_s VT VS PE DI NC KS CS) as (l' & L' & Lh & Lw & Ht & Hs).
  rewrite L in L'. injection L' as <-.
  unfold load_data in L.
  destruct (load_exposures temporal_summary fs [] [] (visit_t (ptemp d))) as [(dt & s1)|] eqn:LT; [|discriminate]. cbn [bind] in L.
  destruct (load_exposures (fun r => r) fs [] s1 (visit_s (pspat d))) as [(ds & s2)|] eqn:LS; [|discriminate]. cbn [bind] in L.
  assert (IT : Forall (fun e => Forall (fun x => item_ok temporal_summary (Model_Rounded.temporal_entry (ad_mean ad))
     (agree (h * w) (near_var b) near_quiet) fs [] (snd x)) (snd e)) (visit_t (ptemp d))).
  { rewrite Forall_forall. intros (t & inner) Hi. rewrite Forall_forall. intros (p & f) Hf. cbn [snd] in *.
    assert (J : In (mkEntry Temporal t p f) (entries_of Temporal (visit_t (ptemp d)))) by (apply in_entries; cbn; eauto).
    apply (entries_perm _ _ _ _ VT) in J. apply (in_t es d PE) in J. destruct J as (J & TJ). exact (temporal_item _ J TJ). }
  destruct (exposures_f _ _ _ _ _ _ _ _ _ IT LT) as (fdt & FT & TT).
  assert (IS : Forall (fun e => Forall (fun x => item_ok (fun r => r) get_int_imgs eq fs [] (snd x)) (snd e)) (visit_s (pspat d))).
  { rewrite Forall_forall. intros (t & inner) Hi. rewrite Forall_forall. intros (p & f) Hf. apply spatial_item. }
  destruct (exposures_f _ _ _ _ _ _ _ _ _ IS LS) as (fds & FS & TS).
  apply table22_eq in TS. subst fds.
  destruct s2 as [|sh s2]; [discriminate|]. injection L as <-. cbn [l_height l_width l_temporal l_spatial] in *.
  exists (mkFLoaded fdt ds (fst sh) (snd sh)).
  unfold make_data in MD. cbn [l_height l_width l_temporal l_spatial] in MD. rewrite Lh, Lw, (Nat.mul_comm w h) in MD.
  destruct (get_temporal (h * w) dt) as [T|] eqn:GT; [|discriminate]. cbn [bind] in MD.
  destruct (get_spatial h w ds) as [s|] eqn:GS; [|discriminate]. cbn [bind] in MD. injection MD as <-.
  destruct (temporal2 (h * w) (near_var b) near_quiet dt fdt TT) as [(e & X & _)|(T' & F & X & GF & T1 & T2 & T3 & T4 & T5 & T6)];
    [congruence|]. rewrite GT in X. injection X as <-.
  destruct (spatial_images _ _ (fun e He => proj1 (proj1 (in_s es d PE e) (entries_perm _ _ _ _ VS He)))
              (fun e He => proj2 (proj1 (in_s es d PE e) (entries_perm _ _ _ _ VS He))) Hs) as (imgs & I1 & I2).
  destruct SA as (_ & SD & SB).
  destruct (whole_spatial b h w n _ _ imgs ds SD SB I1 I2) as [(e & X & _)|(s' & f & X & GF' & S1 & S2 & S3 & S4)];
    [congruence|]. rewrite GS in X. injection X as <-.
  exists (F, f).
  destruct (series_numbers_near _ _ _ _ S3) as (g & Eg & Ng). destruct (series_numbers_near _ _ _ _ S4) as (g' & Eg' & Ng').
  assert (P1 : forall x q, near_var b x q -> exists v, x = FFin v /\ (Qabs (v - q) <= variance_error b)%Q) by (intros x q K; exact K).
  set (R2 := fun v q => (Qabs (v - q) <= variance_error b)%Q /\ (quiet_pairs_equal fs es h w -> q == 0 -> v == 0)%Q).
  assert (P2 : forall x q, near_quiet x q -> exists v, x = FFin v /\ R2 v q).
  { intros x q ((v & -> & V) & K). exists v. split; [reflexivity|]. split; [exact V|]. intros QP Z. destruct (K QP Z) as (v' & E & V').
    injection E as <-. assert (V0 : (Qabs v <= 0)%Q) by (eapply Qle_trans; [|exact V']; apply Qle_lteq; right; apply Qabs_wd; ring).
    destruct (Qlt_le_dec v 0) as [N|N]; [rewrite Qabs_neg in V0 by (apply Qlt_le_weak; exact N)|rewrite Qabs_pos in V0 by exact N].
    - exfalso. apply (Qlt_not_le _ _ N). apply Qopp_le_compat in V0. rewrite Qopp_involutive in V0. exact V0.
    - apply Qle_antisym; assumption. }
  destruct (numbers_apart _ _ P1 _ _ T3) as (uy & E3 & N3). destruct (numbers_apart _ _ P2 _ _ T4) as (sy & E4 & N4).
  destruct (numbers_apart _ _ P1 _ _ T5) as (ud & E5 & N5). destruct (numbers_apart _ _ P2 _ _ T6) as (sd & E6 & N6).
  unfold results_object in RO. cbn [Model_Data.d_temporal Model_Data.d_spatial] in RO.
  destruct (all_some (map q_of (tp_texp T))) as [texp|] eqn:Et; [|discriminate].
  destruct (all_some (map q_of (tp_up T))) as [up|] eqn:Eu; [|discriminate]. injection RO as <-.
  eexists.
  split. { unfold load_data. rewrite LT. cbn [bind]. rewrite LS. reflexivity. }
  split. { unfold make_data. cbn [l_height l_width l_temporal l_spatial]. rewrite Lh, Lw, (Nat.mul_comm w h), GT. cbn [bind]. rewrite GS. reflexivity. }
  split. { unfold results_object. cbn [Model_Data.d_temporal Model_Data.d_spatial]. rewrite Et, Eu. reflexivity. }
  split; [exact OK|].
  split. { unfold load_data_f. rewrite FT. cbn [bind]. rewrite FS. cbn [bind]. reflexivity. }
  split. { unfold make_data_f. cbn [fl_height fl_width fl_temporal fl_spatial]. rewrite Lh, Lw, (Nat.mul_comm w h), GF. cbn [bind]. rewrite GF'. reflexivity. }
  split. { unfold results_object_f. rewrite T1, T2, Et, Eu, E3, E4, E5, E6, Eg, Eg'. reflexivity. }
  apply f2_and in N4. apply f2_and in N6. destruct N4 as (N4 & Z4). destruct N6 as (N6 & _).
  split.
  - constructor; cbn [o_t o_s o_area o_sat r_texp r_up r_uy r_s2y r_uydark r_s2ydark sp_dark sp_bright sp_texp sp_up]; auto.
  - intro QP. unfold zeros_kept. cbn [o_t r_s2y]. clear - Z4 QP. induction Z4; constructor; auto.
Qed.
End Chain.

Lemma emva_near fs h w visit_t visit_s fname t es ad n b :
  any_order visit_t -> any_order visit_s -> lists fname t es -> complete_set fs h w es ->
  sound_additions ad n h w -> files_bits fs es h w b ->
  exists o rows fo, emva fs visit_t visit_s fname (Some t) = Ok (Some o) /\ object_ok fs h w es o rows /\
    emva_f ad fs visit_t visit_s fname (Some t) = Ok (Some fo) /\ object_near b n fo o /\
    (quiet_pairs_equal fs es h w -> zeros_kept fo o).
Proof.
  intros VT VS (toks & TC & W & B) CS SA FB.
  destruct (parse_file_cases fname None t toks TC) as [(es' & d & _ & B' & E & P & _ & _ & DI)|(N & _)];
    [|contradiction].
  assert (es' = es).
  { eapply denotes_unique; [apply blocks_header|exact B'|exact B]. }
  subst es'.
  assert (NC : ForallOrdPairs (fun x y => ~ clash x y) (entries d)).
  { eapply FOP_perm; [apply nclash_sym|symmetry; exact P|]. destruct W as (_ & _ & _ & _ & W). auto. }
  pose proof (entry_kinds fname None t toks d TC E) as K.
  assert (K' : forall e, In e es -> 2 <= length (e_files e) /\
                   (e_kind e = Temporal <-> length (e_files e) = 2) /\
                   (e_kind e = Spatial <-> 2 < length (e_files e))).
  { rewrite Forall_forall in K. intros e He. apply K. apply (Permutation_in _ (Permutation_sym P)). auto. }
  destruct (chain_f fs h w es d visit_t visit_s (VT _) (VS _) P DI NC
              ltac:(intros e He; apply (K' e He)) ltac:(intros e He; apply (K' e He)) CS ad n b SA FB)
    as (l & dat & o & rows & fl & fdat & fo & L & M & O & OK & FL & FM & FO & ON & ZK).
  exists o, rows, fo. split.
  { unfold emva, emva_data. rewrite E. cbn [bind]. rewrite L. cbn [bind]. rewrite M. cbn [bind]. rewrite O. reflexivity. }
  split; [exact OK|]. split; [|split; assumption].
  unfold emva_f. rewrite E. cbn [bind]. rewrite FL. cbn [bind]. rewrite FM. cbn [bind]. rewrite FO. reflexivity.
Qed.

Lemma emva_close fs h w visit_t visit_s fname t es ad n b :
  any_order visit_t -> any_order visit_s -> lists fname t es -> complete_set fs h w es ->
  sound_additions ad n h w -> files_bits fs es h w b ->
  exists x y, emva fs visit_t visit_s fname (Some t) = Ok (Some x) /\
    emva_f ad fs visit_t visit_s fname (Some t) = Ok (Some y) /\ object_near b n y x /\
    (quiet_pairs_equal fs es h w -> zeros_kept y x).
Proof.
  intros. destruct (emva_near fs h w visit_t visit_s fname t es ad n b) as (x & rows & y & A & _ & B); auto. exists x, y. auto.
Qed.
