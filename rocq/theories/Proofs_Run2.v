(** A generated data set with random deliveries: its files and its points. *)
From Coq Require Import Ascii String List Bool Arith ZArith QArith Qreals Reals Lia Lra Permutation Sorting.Sorted.
From Verif Require Import Base_Prelude Base_Str Base_Num Base_Order Base_Float Base_Sum Base_SumR Base_Xreal Model_Path Model_Parser Model_Images
  Model_Loader Model_Data Model_Results Model_Emva Model_Camera Model_Points Model_Dataset Model_Generated
  Spec_Parser Spec_Images Spec_Data Spec_Results Spec_Camera Spec_Dataset Spec_Points Spec_Generated
  Spec_Chance Spec_Linear Spec_Any Spec_Near Spec_Emva Spec_Whole Spec_RandomRun
  Proofs_Str Proofs_Parser Proofs_Parser2 Proofs_Camera Proofs_Camera2 Proofs_Dataset Proofs_Dataset2 Proofs_Dataset3 Proofs_Emva Proofs_Emva3 Proofs_Emva4 Proofs_Emva5
  Proofs_Near2 Proofs_Near3 Proofs_Near4 Proofs_Figures3 Proofs_Whole Proofs_Run.
Import ListNotations.
Open Scope nat_scope.
Set Bullet Behavior "Strict Subproofs".
Local Arguments feq : simpl never.

Lemma pixels_exposure c t ts : forall ls dn ns us, pixels (set_exposure c t) ts ls dn ns us = pixels c ts ls dn ns us.
Proof.
  induction ts as [|a ts IH]; intros [|b ls] [|d dn] [|n ns] [|u us]; auto. cbn [pixels]. rewrite IH. reflexivity.
Qed.
Lemma grab_exposure c t d : grab (set_exposure c t) d = grab c d.
Proof.
  unfold grab. destruct (d_therm d); auto. destruct (d_light d); auto. destruct (d_normal d); auto. cbn [bind].
  cbn [set_exposure c_dsnu c_height c_width]. destruct (_ =? _); auto. f_equal. apply pixels_exposure.
Qed.

Section Run.
Context (li : light) (c : camera) (ds : nat -> draws) (version format outdir : str) (L : nat) (p : points)
  (es : list event) (file : str).
Let h := c_height c.
Let w := c_width c.
Hypothesis EXT : extension format.
Hypothesis VER : is_word version.
Hypothesis CAM : good_camera c.
Hypothesis DRAWS : forall n, good_draws c (ds n).
Hypothesis BITS : c_bits c <= 16.
Hypothesis RUN : run_test li c ds version format outdir L p = (es, Ok file).

Definition the_text : str := text_of (vtoks version :: ntoks c :: all_toks format li L p).
Definition count : nat := list_sum (map (images_in L) (shots p)).
Definition path_at (n : nat) : str := save_path outdir (image_name n format).

Lemma run_written : written es = the_text.
Proof.
  destruct (run_test_trace li c ds version format outdir L p es (Ok file) EXT VER RUN) as (ls & m & T & R).
  destruct (R file eq_refl) as (_ & _ & ->). exact (trace_written format outdir _ _ _ _ T).
Qed.
Lemma run_saved : saved es = map path_at (seq 0 count).
Proof.
  destruct (text_content_exists (written es)) as (toks & TC).
  destruct (completed li c ds version format outdir L p es file toks EXT VER RUN TC) as (k & A & _ & ->). exact A.
Qed.
Lemma run_file : file = descriptor_path outdir.
Proof. eapply file_is; eassumption. Qed.
Lemma run_disk n : n < count -> disk_of h w es (path_at n) = Some (picture c (ds n)).
Proof.
  intro H. assert (I : In (path_at n) (saved es)).
  { rewrite run_saved. apply in_map, in_seq. lia. }
  destruct (disk_last h w es _ I) as (px & J & ->).
  destruct (saved_pixels c ds format outdir li version L p es (Ok file) _ px CAM DRAWS ltac:(lia) RUN J) as (m & s & _ & E & G).
  apply save_path_inj in E; [|reflexivity|reflexivity]. apply image_name_inj in E. subst m.
  unfold picture. rewrite <- (grab_exposure c (s_exposure s)), G. reflexivity.
Qed.
End Run.

(** The files of the k-th listed entry. *)
Lemma split_files (li : light) L (f : nat -> str) ss listed : Forall2 (records li L) ss listed -> forall n,
  concat (map e_files listed) = map f (seq n (list_sum (map (images_in L) ss))) ->
  forall k s, nth_error ss k = Some s -> exists e, nth_error listed k = Some e /\ records li L s e /\
    e_files e = map f (seq (n + list_sum (map (images_in L) (firstn k ss))) (images_in L s)).
Proof.
  induction 1 as [|s e ss listed R F IH]; intros n E k t H; [destruct k; discriminate|].
  cbn [map concat list_sum fold_right] in E. change (fold_right Nat.add 0 ?l) with (list_sum l) in E.
  rewrite seq_app, map_app in E.
  assert (LE : length (e_files e) = length (map f (seq n (images_in L s)))).
  { rewrite map_length, seq_length. apply R. }
  assert (E1 : e_files e = map f (seq n (images_in L s)) /\
               concat (map e_files listed) = map f (seq (n + images_in L s) (list_sum (map (images_in L) ss)))).
  { clear - E LE. revert E LE. generalize (concat (map e_files listed)) as A, (map f (seq (n + images_in L s) (list_sum (map (images_in L) ss)))) as B.
    generalize (e_files e) as a, (map f (seq n (images_in L s))) as b.
    induction a as [|x a IHa]; intros [|y b] A B E LE; try discriminate; auto.
    simpl in E. injection E as -> E. injection LE as LE. destruct (IHa _ _ _ E LE) as (-> & ->). auto. }
  destruct E1 as (E1 & E2). destruct k as [|k].
  - injection H as <-. exists e. split; [auto|]. split; [auto|]. simpl. rewrite Nat.add_0_r. exact E1.
  - destruct (IH _ E2 k t H) as (x & X1 & X2 & X3). exists x. split; [auto|]. split; [auto|].
    rewrite X3. cbn [firstn map list_sum fold_right]. f_equal. f_equal. unfold list_sum. lia.
Qed.

Lemma ordpairs_nodup {A} (R : A -> A -> Prop) l : (forall a, In a l -> R a a) ->
  ForallOrdPairs (fun a b => ~ R a b) l -> NoDup l.
Proof.
  intros RF. induction 1 as [|a l F O IH]; constructor.
  - intro I. rewrite Forall_forall in F. apply (F a I). apply RF. left. auto.
  - apply IH. intros b Hb. apply RF. right. auto.
Qed.

Section Points.
Context (li : light) (L : nat) (p : points) (listed : list entry) (f : nat -> str).
Hypothesis FIN : forall s, In s (shots p) -> finite (listed_exposure s) /\ finite (listed_photons li s).
Hypothesis DIFF : ForallOrdPairs (fun s s' => ~ listed_alike li s s') (shots p).
Hypothesis REC : Forall2 (records li L) (shots p) listed.
Hypothesis FILES : concat (map e_files listed) = map f (seq 0 (count L p)).

Lemma shots_nodup : NoDup (shots p).
Proof.
  apply (ordpairs_nodup (listed_alike li)); auto. intros s Hs. destruct (FIN s Hs) as (A & B).
  split; auto. split; apply feq_refl, finite_not_nan; auto.
Qed.

(** The entry of a shot. *)
Definition entry_of (s : shot) (e : entry) : Prop :=
  In e listed /\ records li L s e /\
  exists n, first_image L p s n /\ n + images_in L s <= count L p /\ e_files e = map f (seq n (images_in L s)).

Lemma entry_exists s : In s (shots p) -> exists e, entry_of s e.
Proof.
  intro H. apply In_nth_error in H. destruct H as (k & H).
  destruct (split_files li L f _ _ REC 0 FILES k s H) as (e & A & B & D). exists e.
  split; [eapply nth_error_In; eauto|]. split; [auto|]. eexists. split; [|split; [|exact D]].
  - destruct (nth_error_split _ _ H) as (l1 & l2 & E & Len). exists l1, l2. split; [auto|].
    rewrite E, <- Len, firstn_app, Nat.sub_diag, firstn_all, firstn_O, app_nil_r. reflexivity.
  - destruct (nth_error_split _ _ H) as (l1 & l2 & E & Len). unfold count.
    rewrite E, <- Len, firstn_app, Nat.sub_diag, firstn_all, firstn_O, app_nil_r.
    rewrite map_app, list_sum_app. cbn [map list_sum fold_right]. unfold list_sum. lia.
Qed.
Lemma first_image_unique s n m : first_image L p s n -> first_image L p s m -> n = m.
Proof.
  intros (b & a & E & ->) (b' & a' & E' & ->).
  assert (b = b'); [|congruence]. pose proof shots_nodup as ND. rewrite E in ND, E'. clear E.
  revert b' E'. induction b as [|x b IH]; intros [|y b'] E'; auto.
  - injection E' as <- E'. exfalso. inversion ND; subst. apply H1. apply in_or_app. right. left. auto.
  - injection E' as -> E'. exfalso. simpl in ND. inversion ND; subst. apply H1. apply in_or_app. right. left. auto.
  - injection E' as -> E'. f_equal. apply IH; auto. simpl in ND. inversion ND; auto.
Qed.
Lemma records_same s e e' : In e listed -> In e' listed -> records li L s e -> records li L s e' -> e = e'.
Proof.
  intros He He' (R1 & R2 & R3 & R4) (S1 & S2 & S3 & S4).
  destruct (f2_in_r _ _ _ _ REC He) as (t & Ht & (T1 & T2 & T3 & _)). destruct (FIN t Ht) as (A & B).
  eapply (apart_eq listed); auto.
  - eapply records_apart; eauto.
  - split; [congruence|]. rewrite S2, S3, <- R2, <- R3, T2, T3. split; apply feq_refl, finite_not_nan; auto.
Qed.

Lemma pairs_exist bs : (forall b d, In (b, d) bs -> In b (shots p) /\ In d (shots p)) ->
  exists ps, Forall2 (fun bd xy => entry_of (fst bd) (fst xy) /\ entry_of (snd bd) (snd xy)) bs ps.
Proof.
  induction bs as [|(b, d) bs IH]; intro H; [exists []; constructor|].
  destruct (H b d (or_introl eq_refl)) as (Hb & Hd).
  destruct (entry_exists b Hb) as (x & X). destruct (entry_exists d Hd) as (y & Y).
  destruct IH as (ps & P); [intros; apply H; right; auto|]. exists ((x, y) :: ps). constructor; auto.
Qed.

Lemma ordered_points bs ps : in_order li p bs ->
  Forall2 (fun bd xy => entry_of (fst bd) (fst xy) /\ entry_of (snd bd) (snd xy)) bs ps ->
  Spec_Whole.points_of listed ps.
Proof.
  intros (S & I & D) F. split; [|split].
  - clear I D. revert S. induction F as [|bd xy bs ps (A & B) F IH]; intro S; simpl; constructor.
    + apply IH. inversion S; auto.
    + inversion S as [|? ? S1 S2]; subst. clear - S2 F A. rewrite Forall_forall. intros y Hy.
      apply in_map_iff in Hy. destruct Hy as (xy' & <- & Hy).
      destruct (f2_in_r _ _ _ _ F Hy) as (bd' & Hbd & (A' & _)).
      rewrite Forall_forall in S2. specialize (S2 (fst bd') (in_map fst _ _ Hbd)).
      destruct A as (_ & (_ & A2 & A3 & _) & _). destruct A' as (_ & (_ & B2 & B3 & _) & _).
      unfold entry_lt. rewrite A2, A3, B2, B3. exact S2.
  - intro e. split.
    + intro H. apply in_map_iff in H. destruct H as (xy & <- & H).
      destruct (f2_in_r _ _ _ _ F H) as (bd & Hb & (A & _)). destruct A as (A0 & (A1 & A2 & A3 & _) & _).
      destruct (proj1 (I (fst bd)) (in_map fst _ _ Hb)) as (J1 & J2 & J3). split; [auto|].
      split; [unfold temporal_entry; congruence|]. unfold dark_entry. rewrite A3. exact J3.
    + intros (H & T & ND). destruct (f2_in_r _ _ _ _ REC H) as (s & Hs & R). pose proof R as (R1 & R2 & R3 & _).
      assert (J : In s (map fst bs)).
      { apply I. split; [auto|]. split; [unfold temporal_entry in T; congruence|]. unfold dark_shot. rewrite <- R3. exact ND. }
      apply in_map_iff in J. destruct J as (bd & <- & J). destruct (f2_in_l _ _ _ _ F J) as (xy & Hx & (A & _)).
      destruct A as (A0 & A1 & _). rewrite (records_same (fst bd) e (fst xy)); auto. apply in_map. auto.
  - intros x y H. destruct (f2_in_r _ _ _ _ F H) as ((b, d) & Hb & (A & B)). cbn [fst snd] in A, B.
    destruct (D b d Hb) as (D1 & D2 & D3 & D4). destruct A as (_ & (_ & A2 & A3 & _) & _). destruct B as (B0 & (B1 & B2 & B3 & _) & _).
    split; [auto|]. split; [unfold temporal_entry; congruence|]. split; [unfold dark_entry; rewrite B3; exact D3|].
    rewrite A2, B2. unfold listed_exposure. congruence.
Qed.
End Points.
