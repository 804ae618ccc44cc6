(** The whole chain on a complete measurement. *)
From Coq Require Import Ascii String List Bool Arith ZArith QArith Lia Permutation Sorting.Sorted.
From Verif Require Import Base_Prelude Base_Str Base_Num Base_Order Base_Sum Model_Path Model_Images
  Model_Loader Model_Data Model_Parser Model_Results Model_Emva Spec_Parser Spec_Images Spec_Loader
  Spec_Data Spec_Results Spec_Emva Proofs_Parser Proofs_Parser2 Proofs_Images Proofs_Loader
  Proofs_Data Proofs_Data2 Proofs_Results Proofs_Results2 Proofs_Same Proofs_Emva.
Import ListNotations.
Open Scope nat_scope.
Local Arguments feq : simpl never.
Local Arguments flt : simpl never.

Notation ptemp := Model_Parser.d_temporal.
Notation pspat := Model_Parser.d_spatial.

Lemma finite_nonneg x : finite x -> (0 <= number x)%Q -> flt x fzero = false.
Proof.
  intros (q & ->). simpl. intro H. destruct (flt (FFin q) fzero) eqn:E; auto.
  apply qlt_bool in E. exfalso. apply (Qlt_not_le _ _ E). auto.
Qed.

Lemma all_some_finite l : Forall finite l -> all_some (map q_of l) = Some (map number l).
Proof. induction 1 as [|x l (q & ->) H IH]; simpl; auto. rewrite IH. reflexivity. Qed.

Section Chain.
Context (fs : fsys) (h w : nat) (es : list entry) (d : desc)
        (visit_t visit_s : exposure_dict -> exposure_dict).
Hypothesis VT : Permutation (ptemp d) (visit_t (ptemp d)).
Hypothesis VS : Permutation (pspat d) (visit_s (pspat d)).
Hypothesis PE : Permutation (entries d) es.
Hypothesis DI : desc_inv d.
Hypothesis NC : ForallOrdPairs (fun x y => ~ clash x y) (entries d).
Hypothesis KT : forall e, In e es -> temporal_entry e -> length (e_files e) = 2.
Hypothesis KS : forall e, In e es -> spatial_entry e -> 2 < length (e_files e).
Hypothesis CS : complete_set fs h w es.

Lemma in_t e : In e (entries_of Temporal (ptemp d)) <-> In e es /\ temporal_entry e.
Proof.
  split.
  - intro H. split; [|apply in_entries in H; apply H].
    apply (Permutation_in _ PE). apply in_or_app. auto.
  - intros (H & K). apply (Permutation_in _ (Permutation_sym PE)) in H. apply in_app_or in H.
    destruct H as [H|H]; auto. apply in_entries in H. unfold temporal_entry in K. destruct H; congruence.
Qed.
Lemma in_s e : In e (entries_of Spatial (pspat d)) <-> In e es /\ spatial_entry e.
Proof.
  split.
  - intro H. split; [|apply in_entries in H; apply H].
    apply (Permutation_in _ PE). apply in_or_app. auto.
  - intros (H & K). apply (Permutation_in _ (Permutation_sym PE)) in H. apply in_app_or in H.
    destruct H as [H|H]; auto. apply in_entries in H. unfold spatial_entry in K. destruct H; congruence.
Qed.

Lemma nc_t : ForallOrdPairs (fun x y => ~ clash x y) (entries_of Temporal (ptemp d)).
Proof. unfold entries in NC. apply fop_app_l in NC. tauto. Qed.
Lemma nc_s : ForallOrdPairs (fun x y => ~ clash x y) (entries_of Spatial (pspat d)).
Proof. unfold entries in NC. apply fop_app_l in NC. tauto. Qed.
Lemma fn_t e : In e (entries_of Temporal (ptemp d)) -> finite (e_exposure e) /\ finite (e_photons e).
Proof. intro H. apply in_t in H. apply (cs_finite _ _ _ _ CS). tauto. Qed.
Lemma fn_s e : In e (entries_of Spatial (pspat d)) -> finite (e_exposure e) /\ finite (e_photons e).
Proof. intro H. apply in_s in H. apply (cs_finite _ _ _ _ CS). tauto. Qed.

Lemma keyed_t : well_keyed (visit_t (ptemp d)).
Proof.
  eapply well_keyed_perm; [exact VT|]. destruct DI as (D & _).
  exact (dict_well_keyed Temporal _ D nc_t fn_t).
Qed.
Lemma keyed_s : well_keyed (visit_s (pspat d)).
Proof.
  eapply well_keyed_perm; [exact VS|]. destruct DI as (_ & D).
  exact (dict_well_keyed Spatial _ D nc_s fn_s).
Qed.

Lemma complete_t : all_complete (visit_t (ptemp d)).
Proof.
  unfold all_complete. eapply Permutation_Forall; [exact VT|]. rewrite Forall_forall.
  intros (t & inner) H. simpl. destruct DI as (D & _).
  destruct (exposure_has_entry Temporal _ D _ _ H) as (p & f & _ & He).
  apply in_t in He. destruct He as (He & Te).
  destruct (cs_dark _ _ _ _ CS _ He Te) as (x & Hx & Tx & Dx & Ex).
  destruct (cs_bright _ _ _ _ CS _ He Te) as (y & Hy & Ty & Dy & Ey). simpl in Ex, Ey.
  apply (exposure_complete Temporal _ D nc_t fn_t t inner H).
  - exists x. split; [apply in_t; auto|auto].
  - exists y. split; [apply in_t; auto|auto].
Qed.

(** The one spatial exposure. *)
Lemma spatial_shape : exists x y, In x es /\ In y es /\ spatial_entry x /\ spatial_entry y /\
  dark_entry x /\ ~ dark_entry y /\
  exists inner, visit_s (pspat d) = [(e_exposure x, inner)] /\ e_exposure y = e_exposure x /\
    dark_and_bright inner /\ length inner = 2 /\
    In (e_photons x, e_files x) inner /\ In (e_photons y, e_files y) inner.
Proof.
  destruct (cs_spatial _ _ _ _ CS) as (x & y & Hx & Hy & Sx & Sy & Dx & Dy & E & U).
  exists x, y. do 6 (split; [assumption|]). destruct DI as (_ & D).
  assert (Ix : In x (entries_of Spatial (pspat d))) by (apply in_s; auto).
  assert (Iy : In y (entries_of Spatial (pspat d))) by (apply in_s; auto).
  assert (L : length (pspat d) <= 1).
  { apply (one_exposure Spatial _ D nc_s fn_s). intros e e' He He'. apply in_s in He, He'.
    destruct He as (He & Se), He' as (He' & Se').
    destruct (U e He Se) as [->| ->], (U e' He' Se') as [->| ->]; congruence. }
  pose proof Ix as Jx. apply in_entries in Jx. destruct Jx as (_ & inner & Hm & Hi).
  pose proof Iy as Jy. apply in_entries in Jy. destruct Jy as (_ & inner' & Hm' & Hi').
  rewrite <- E in Hm'.
  rewrite (same_exposure Spatial _ D nc_s fn_s _ _ _ _ Hm' Hm eq_refl) in Hi'. clear inner' Hm'.
  assert (M : pspat d = [(e_exposure x, inner)]).
  { destruct (pspat d) as [|z [|z' l]]; simpl in *; try lia; try tauto. destruct Hm as [->|[]]. auto. }
  exists inner.
  assert (DB : dark_and_bright inner).
  { apply (exposure_complete Spatial _ D nc_s fn_s (e_exposure x) inner Hm); eauto. }
  split. { rewrite M in VS |- *. apply Permutation_length_1_inv in VS. exact VS. }
  split; [auto|]. split; [exact DB|]. split; [|auto].
  apply (two_entries Spatial _ D nc_s fn_s (e_exposure x) inner Hm DB).
  intros e e' He He' De De' _. apply in_s in He, He'. destruct He as (He & Se), He' as (He' & Se').
  destruct (U e He Se) as [->| ->], (U e' He' Se') as [->| ->]; auto; contradiction.
Qed.

Lemma file_entry k m f : In f (files_of m) -> exists e, In e (entries_of k m) /\ In f (e_files e).
Proof.
  unfold files_of. rewrite in_flat_map. intros ((t & inner) & Hm & Hf). simpl in Hf.
  rewrite in_flat_map in Hf. destruct Hf as ((p & fl) & Hp & Hf). simpl in Hf.
  exists (mkEntry k t p fl). split; auto. apply in_entries. simpl. eauto.
Qed.

Lemma entries_perm k m m' e : Permutation m m' -> In e (entries_of k m') -> In e (entries_of k m).
Proof.
  intros P H. apply in_entries in H. apply in_entries. destruct H as (K & inner & Hm & Hi).
  split; auto. exists inner. split; auto. apply (Permutation_in _ (Permutation_sym P)). auto.
Qed.

Lemma file_good f : In f (files_of (visit_t (ptemp d)) ++ files_of (visit_s (pspat d))) ->
  exists im, fs f = Some im /\ good_image h w im.
Proof.
  intro H. assert (G : exists e, In e es /\ In f (e_files e)).
  { apply in_app_or in H. destruct H as [H|H].
    - destruct (file_entry Temporal _ _ H) as (e & He & Hf). exists e. split; auto.
      apply in_t. eapply entries_perm; eauto.
    - destruct (file_entry Spatial _ _ H) as (e & He & Hf). exists e. split; auto.
      apply in_s. eapply entries_perm; eauto. }
  destruct G as (e & He & Hf). destruct (cs_files _ _ _ _ CS e He) as (_ & ims & I & F).
  clear - Hf I F. unfold images in I. induction I as [|g im l l' E I IH]; simpl in *; [tauto|].
  inversion F; subst. destruct Hf as [->|Hf]; eauto.
Qed.

Lemma loads : exists l, load_data fs [] (visit_t (ptemp d)) (visit_s (pspat d)) = Ok l /\
  l_height l = h /\ l_width l = w /\
  holds temporal_summary fs [] (visit_t (ptemp d)) (l_temporal l) /\
  holds (fun r => r) fs [] (visit_s (pspat d)) (l_spatial l).
Proof.
  destruct spatial_shape as (x & y & Hx & Hy & Sx & Sy & Dx & Dy & inner & V & E & DB & L & Ix & Iy).
  assert (Ne : exists f, In f (files_of (visit_s (pspat d)))).
  { pose proof (KS _ Hx Sx) as Lx. destruct (e_files x) as [|f fl] eqn:Ef; [simpl in Lx; lia|].
    exists f. rewrite V. unfold files_of. simpl. rewrite app_nil_r. apply in_flat_map.
    exists (e_photons x, f :: fl). split; auto. left. auto. }
  assert (S : exists l, load_data fs [] (visit_t (ptemp d)) (visit_s (pspat d)) = Ok l).
  { apply success_iff. split; [|split; [|split]].
    - split; [apply complete_t|]. rewrite V. constructor; [exact DB|constructor].
    - intros f Hf. destruct (file_good f Hf) as (im & Ef & _). exists im.
      change (found fs [] f = Some im). rewrite found_nil. auto.
    - exists h, w. intros f im Hf Ef. change (found fs [] f = Some im) in Ef. rewrite found_nil in Ef.
      destruct (file_good f Hf) as (im' & Ef' & G1 & G2 & _). assert (im' = im) by congruence. subst. auto.
    - destruct Ne as (f & Hf). intro N. apply app_eq_nil in N. destruct N as (_ & N). rewrite N in Hf. tauto. }
  destruct S as (l & S). exists l. split; auto.
  destruct Ne as (f & Hf).
  assert (Hf' : In f (files_of (visit_t (ptemp d)) ++ files_of (visit_s (pspat d)))) by (apply in_or_app; auto).
  destruct (file_good f Hf') as (im & Ef & G1 & G2 & _).
  destruct (one_shape_reported fs [] _ _ l f im S (or_intror Hf)) as (A & B).
  { change (found fs [] f = Some im). rewrite found_nil. auto. }
  split; [congruence|]. split; [congruence|]. apply (load_holds _ _ _ _ _ S).
Qed.

Lemma one_or_two : length (visit_t (ptemp d)) = 1 \/ Forall (fun e => length (snd e) = 2) (visit_t (ptemp d)).
Proof.
  destruct DI as (D & _). destruct (cs_aligned _ _ _ _ CS) as [A|A].
  - assert (L : length (ptemp d) <= 1).
    { apply (one_exposure Temporal _ D nc_t fn_t). intros e e' He He'. apply in_t in He, He'.
      destruct He, He'. apply A; auto. }
    rewrite (Permutation_length VT) in L.
    destruct (visit_t (ptemp d)) as [|x [|y l]]; simpl in *; try lia; auto.
  - right. rewrite Forall_forall. intros (t & inner) H. simpl.
    pose proof complete_t as C. unfold all_complete in C. rewrite Forall_forall in C.
    specialize (C _ H). simpl in C.
    apply (Permutation_in _ (Permutation_sym VT)) in H.
    apply (two_entries Temporal _ D nc_t fn_t t inner H C).
    intros e e' He He' De De' E. apply in_t in He, He'. destruct He, He'. apply A; auto.
Qed.

Lemma nonneg_t t inner p f : In (t, inner) (visit_t (ptemp d)) -> In (p, f) inner -> flt p fzero = false.
Proof.
  intros H G. apply (Permutation_in _ (Permutation_sym VT)) in H.
  assert (I : In (mkEntry Temporal t p f) (entries_of Temporal (ptemp d))) by (apply in_entries; simpl; eauto).
  apply in_t in I. destruct I as (I & _). apply finite_nonneg.
  - apply (cs_finite _ _ _ _ CS _ I).
  - apply (cs_nonneg _ _ _ _ CS _ I).
Qed.
Lemma nonneg_s t inner p f : In (t, inner) (visit_s (pspat d)) -> In (p, f) inner -> flt p fzero = false.
Proof.
  intros H G. apply (Permutation_in _ (Permutation_sym VS)) in H.
  assert (I : In (mkEntry Spatial t p f) (entries_of Spatial (pspat d))) by (apply in_entries; simpl; eauto).
  apply in_s in I. destruct I as (I & _). apply finite_nonneg.
  - apply (cs_finite _ _ _ _ CS _ I).
  - apply (cs_nonneg _ _ _ _ CS _ I).
Qed.

Lemma size_pos : 0 < h /\ 0 < w /\ 2 <= h * w.
Proof. destruct (cs_size _ _ _ _ CS) as (S & _). destruct h, w; simpl in *; lia. Qed.

Definition temporal_ok (T : temporal) (rows : list row) : Prop :=
  rows_of fs es rows /\
  tp_texp T = map (fun r => e_exposure (w_bright r)) rows /\
  tp_up T = map (fun r => e_photons (w_bright r)) rows /\
  Forall2 Qeq (tp_uy T) (map (w_mean h w) rows) /\
  Forall2 Qeq (tp_s2y T) (map (w_var h w) rows) /\
  Forall2 Qeq (tp_uydark T) (map (w_dark_mean h w) rows) /\
  Forall2 Qeq (tp_s2ydark T) (map (w_dark_var h w) rows).

Lemma temporal_chain l :
  holds temporal_summary fs [] (visit_t (ptemp d)) (l_temporal l) ->
  exists T rows, get_temporal (h * w) (l_temporal l) = Ok T /\ temporal_ok T rows.
Proof.
  intro H. pose proof (holds_well_keyed _ _ _ _ _ H keyed_t) as K.
  pose proof (holds_nonneg _ _ _ _ _ H nonneg_t) as NN.
  assert (G : exists T, get_temporal (h * w) (l_temporal l) = Ok T).
  { destruct (get_temporal (h * w) (l_temporal l)) as [T|e] eqn:G; eauto. exfalso.
    apply (temporal_error_iff _ _ _ K) in G. destruct G as (_ & X). apply Exists_exists in X.
    destruct X as ((t & inner) & Hin & X). simpl in X. apply X.
    destruct (holds_in _ _ _ _ _ _ _ H Hin) as (i0 & Hi0 & F).
    pose proof complete_t as C. unfold all_complete in C. rewrite Forall_forall in C.
    destruct (C _ Hi0) as ((p & Hp & Dp) & L). simpl in Hp, L. split.
    - rewrite <- (held_keys _ _ _ _ _ F) in Hp. apply in_map_iff in Hp. destruct Hp as (x & <- & Hx).
      apply Exists_exists. exists x. split; auto.
    - rewrite <- (Forall2_length' _ _ _ F). auto. }
  destruct G as (T & G). exists T.
  assert (L : length (l_temporal l) = 1 \/ Forall (fun e => length (snd e) = 2) (l_temporal l)).
  { destruct one_or_two as [L|L].
    - left. transitivity (length (visit_t (ptemp d))); [symmetry; exact (Forall2_length' _ _ _ H)|exact L].
    - right. exact (holds_lengths _ _ _ _ _ (fun n => n = 2) H L). }
  destruct (dark_aligned _ _ _ K NN G L) as (pts & darks & P & S & T1 & T2 & T3 & T4 & DA & T5 & T6).
  destruct (Forall2_perm _ _ _ _ (Permutation_sym P) (points_entries _ _ _ H)) as (bs & B1 & B2).
  assert (Bin : forall b, In b bs <-> In b es /\ temporal_entry b /\ ~ dark_entry b).
  { intro b. split.
    - intro Hb. apply (Permutation_in _ (Permutation_sym B2)) in Hb. apply filter_In in Hb.
      destruct Hb as (Hb & Br). apply brightb_iff in Br.
      apply (entries_perm _ _ _ _ VT) in Hb. apply in_t in Hb. tauto.
    - intros (Hb & Tb & Db). apply (Permutation_in _ B2). apply filter_In.
      split; [|apply brightb_iff; auto]. apply (entries_perm _ _ _ _ (Permutation_sym VT)).
      apply in_t. auto. }
  destruct (rows_exist fs h w es CS KT pts bs darks B1) as (rows & R1 & R2 & R3 & R4 & R5 & R6 & R7 & R8).
  { clear - DA H VT PE. induction DA as [|x dd pts darks X DA IH]; constructor; auto.
    destruct (dark_entries _ _ _ _ _ H X) as (e & He & Ee & De & R).
    apply (entries_perm _ _ _ _ VT) in He. apply in_t in He. exists e. tauto. }
  { intros b Hb. apply Bin in Hb. tauto. }
  exists rows. split; auto. unfold temporal_ok, rows_of. rewrite T1, T2, T3, T4, T5, T6.
  split; [|repeat split; auto]. split; auto. split; [eapply rows_sorted; eauto|]. rewrite R1. split; auto.
  eapply Permutation_NoDup; [exact B2|]. apply NoDup_filter.
  assert (N : NoDup (entries_of Temporal (ptemp d))) by (apply entries_nodup; [apply nc_t|apply fn_t]).
  eapply Permutation_NoDup; [|exact N]. unfold entries_of. apply Permutation_flat_map. exact VT.
Qed.

Lemma good_documented e ims : In e es -> images fs (e_files e) ims -> 0 < length (e_files e) ->
  documented h w ims /\ length ims = length (e_files e).
Proof.
  intros He I Lp. destruct (cs_files _ _ _ _ CS e He) as (L & ims' & I' & F).
  assert (ims' = ims) by (eapply images_fun; eauto). subst ims'.
  assert (E : length ims = length (e_files e)).
  { symmetry. exact (Forall2_length' _ _ _ I). }
  split; auto. unfold documented. split; [intros ->; simpl in E; lia|]. split; [lia|]. split.
  - eapply Forall_impl; [|exact F]. intros a (A & B & _). auto.
  - eapply Forall_impl; [|exact F]. intros a (_ & _ & A). exact A.
Qed.

Definition spatial_ok (s : spatial) : Prop :=
  exists x y dark bright, In x es /\ In y es /\ spatial_entry x /\ spatial_entry y /\
    dark_entry x /\ ~ dark_entry y /\
    sp_texp s = e_exposure x /\ sp_up s = e_photons y /\
    images fs (e_files x) dark /\ images fs (e_files y) bright /\
    series_stats h w dark (sp_dark s) /\ series_stats h w bright (sp_bright s) /\
    (exists r, get_int_imgs dark = Ok r /\ get_spatial_data h w r = Ok (sp_dark s)) /\
    exists r, get_int_imgs bright = Ok r /\ get_spatial_data h w r = Ok (sp_bright s).

Lemma series_figures e ims r s : In e es -> spatial_entry e -> images fs (e_files e) ims ->
  get_int_imgs ims = Ok r -> get_spatial_data h w r = Ok s -> series_stats h w ims s.
Proof.
  intros He Se I G S. pose proof (KS _ He Se) as L.
  destruct (good_documented e ims He I ltac:(lia)) as (D & E).
  destruct (spatial_statistics h w ims D ltac:(lia) ltac:(apply size_pos)) as (r' & s' & G' & S' & X).
  assert (r' = r) by congruence. subst r'. assert (s' = s) by congruence. subst s'. exact X.
Qed.

Lemma spatial_chain l :
  holds (fun r => r) fs [] (visit_s (pspat d)) (l_spatial l) ->
  exists s, get_spatial h w (l_spatial l) = Ok s /\ spatial_ok s.
Proof.
  intro H. pose proof (holds_well_keyed _ _ _ _ _ H keyed_s) as (_ & K).
  pose proof (holds_nonneg _ _ _ _ _ H nonneg_s) as NN.
  destruct spatial_shape as (x & y & Hx & Hy & Sx & Sy & Dx & Dy & inner & V & E & DB & L & Ix & Iy).
  destruct (size_pos) as (P1 & P2 & _).
  rewrite V in H. inversion H as [|? (t & inner') ? ? (Et & F) H']; subst. inversion H'; subst. clear H'.
  simpl in Et, F. subst t. rename H2 into El.
  assert (FL : forall e, In e es -> spatial_entry e -> In (e_photons e, e_files e) inner ->
     exists z, In (e_photons e, z) inner' /\ exists ims, images fs (e_files e) ims /\ get_int_imgs ims = Ok z).
  { intros e He Se Hin. clear - F Hin.
    induction F as [|a b l1 l2 (A & ims & r & S & G & X) F IH]; simpl in *; [tauto|].
    destruct Hin as [->|Hin].
    - destruct b as (b1 & b2). simpl in *. subst. exists r. split; auto. exists ims.
      rewrite series_images in S. auto.
    - destruct (IH Hin) as (z & Hz & R). exists z. auto. }
  assert (BL : forall p z, In (p, z) inner' -> exists f, In (p, f) inner /\
     exists ims, images fs f ims /\ get_int_imgs ims = Ok z).
  { intros p z Hz. destruct (f2_in_r _ _ _ _ F Hz) as ((p' & f) & Hf & A & ims & r & S & G & X).
    simpl in *. subst. exists f. split; auto. exists ims. rewrite series_images in S. auto. }
  assert (ENT : forall p f, In (p, f) inner -> exists e, In e es /\ spatial_entry e /\ e_photons e = p /\
     e_files e = f /\ e_exposure e = e_exposure x).
  { intros p f Hf. exists (mkEntry Spatial (e_exposure x) p f).
    assert (In (mkEntry Spatial (e_exposure x) p f) (entries_of Spatial (pspat d))) as J.
    { apply in_entries. simpl. split; auto. exists inner. split; auto.
      apply (Permutation_in _ (Permutation_sym VS)). rewrite V. left. auto. }
    apply in_s in J. simpl. tauto. }
  assert (LP : Forall (fun e => Forall (fun u => 0 < ii_L (snd u)) (snd e)) (l_spatial l)).
  { rewrite <- El. constructor; [|constructor]. simpl. rewrite Forall_forall. intros (p & z) Hz. simpl.
    destruct (BL p z Hz) as (f & Hf & ims & I & G). destruct (ENT p f Hf) as (e & He & Se & <- & <- & _).
    pose proof (KS _ He Se) as Lf. destruct (good_documented e ims He I ltac:(lia)) as ((Nn & _ & SS & _) & El').
    destruct (get_int_ok h w ims Nn SS) as (r & G' & A & _). assert (r = z) by congruence. subst.
    rewrite A, El'. lia. }
  assert (S : exists s, get_spatial h w (l_spatial l) = Ok s).
  { apply (spatial_accepts_iff h w (l_spatial l) P1 P2 K LP). rewrite <- El.
    exists (e_exposure x), inner'. split; auto. split.
    - rewrite <- (Forall2_length' _ _ _ F). auto.
    - destruct (FL x Hx Sx Ix) as (z & Hz & _). apply Exists_exists. eexists. split; [exact Hz|]. exact Dx. }
  destruct S as (s & S). exists s. split; [rewrite El; exact S|].
  destruct (spatial_roles h w (l_spatial l) s K NN S) as (i2 & z & d0 & d1 & E2 & P & Dz & Db & G0 & G1).
  rewrite <- El in E2. injection E2 as E2 <-.
  assert (I0 : In (z, d0) inner') by (eapply Permutation_in; [symmetry; exact P|]; left; auto).
  assert (I1 : In (sp_up s, d1) inner') by (eapply Permutation_in; [symmetry; exact P|]; right; left; auto).
  destruct (BL _ _ I0) as (f0 & Hf0 & ims0 & J0 & Q0). destruct (BL _ _ I1) as (f1 & Hf1 & ims1 & J1 & Q1).
  destruct (ENT _ _ Hf0) as (e0 & He0 & Se0 & Ep0 & <- & Ee0).
  destruct (ENT _ _ Hf1) as (e1 & He1 & Se1 & Ep1 & <- & Ee1).
  exists e0, e1, ims0, ims1. unfold dark_entry. rewrite Ep0, Ep1.
  do 6 (split; [assumption|]). split; [congruence|]. split; [congruence|]. split; [auto|]. split; [auto|].
  split; [exact (series_figures e0 ims0 d0 _ He0 Se0 J0 Q0 G0)|]. split; [exact (series_figures e1 ims1 d1 _ He1 Se1 J1 Q1 G1)|]. split; [exists d0|exists d1]; auto.
Qed.

(** The object. *)
Definition object_ok (o : robj) (rows : list row) : Prop :=
  rows_of fs es rows /\
  r_texp (o_t o) = map w_exposure rows /\ r_up (o_t o) = map w_photons rows /\
  Forall2 Qeq (r_uy (o_t o)) (map (w_mean h w) rows) /\
  Forall2 Qeq (r_s2y (o_t o)) (map (w_var h w) rows) /\
  Forall2 Qeq (r_uydark (o_t o)) (map (w_dark_mean h w) rows) /\
  Forall2 Qeq (r_s2ydark (o_t o)) (map (w_dark_var h w) rows) /\
  spatial_ok (o_s o) /\ o_area o = None /\ o_sat o = None.

Lemma chain : exists l dat o rows,
  load_data fs [] (visit_t (ptemp d)) (visit_s (pspat d)) = Ok l /\ make_data None l = Ok dat /\
  results_object dat = Some o /\ object_ok o rows.
Proof.
  destruct loads as (l & L & Lh & Lw & Ht & Hs). exists l.
  destruct (temporal_chain l Ht) as (T & rows & GT & R & T1 & T2 & T3 & T4 & T5 & T6).
  destruct (spatial_chain l Hs) as (s & GS & SO).
  unfold make_data. rewrite Lh, Lw, (Nat.mul_comm w h), GT. simpl bind. rewrite GS. simpl bind.
  eexists. assert (FE : Forall (fun e => finite (e_exposure e) /\ finite (e_photons e)) (map w_bright rows)).
  { destruct R as (_ & _ & _ & R). rewrite Forall_forall. intros e He. apply R in He.
    apply (cs_finite _ _ _ _ CS). tauto. }
  assert (X1 : all_some (map q_of (tp_texp T)) = Some (map w_exposure rows)).
  { rewrite T1, all_some_finite; [rewrite map_map; reflexivity|].
    clear - FE. induction rows; simpl in *; constructor; inversion FE; subst; [tauto|auto]. }
  assert (X2 : all_some (map q_of (tp_up T)) = Some (map w_photons rows)).
  { rewrite T2, all_some_finite; [rewrite map_map; reflexivity|].
    clear - FE. induction rows; simpl in *; constructor; inversion FE; subst; [tauto|auto]. }
  eexists. exists rows. split; [auto|]. split; [reflexivity|].
  split. { unfold results_object. cbn [Model_Data.d_temporal]. rewrite X1, X2. reflexivity. }
  unfold object_ok. simpl. split; [exact R|]. repeat split; auto.
Qed.
End Chain.
