(** From random image files to the probability of wrong figures. *)
From Coq Require Import Ascii String List Bool Arith ZArith QArith Qreals Reals Lia Lra Permutation Sorting.Sorted.
From Verif Require Import Base_Prelude Base_Str Base_Num Base_Order Base_Sum Base_SumR Base_Xreal Model_Path Model_Images
  Model_Loader Model_Data Model_Parser Model_Results Model_Emva Spec_Parser Spec_Images Spec_Loader
  Spec_Data Spec_Results Spec_Chance Spec_Linear Spec_Any Spec_Near Spec_Emva Spec_Whole
  Proofs_Parser Proofs_Parser2 Proofs_Data Proofs_Data2 Proofs_Results Proofs_Results2 Proofs_Same
  Proofs_Emva Proofs_Emva2 Proofs_Emva3 Proofs_Emva4 Proofs_Units3 Proofs_Near Proofs_Near2 Proofs_Near3 Proofs_Near4.
Import ListNotations.

Lemma images_contents fs e ims : images fs (e_files e) ims -> contents fs e = ims.
Proof.
  unfold images, contents. induction 1 as [|f im l l' E H IH]; simpl; auto. rewrite E, IH. auto.
Qed.

Lemma entry_irr a : ~ entry_lt a a.
Proof. intros [H|(_ & H)]; rewrite flt_irrefl in H; discriminate. Qed.
Lemma entry_asym a b : entry_lt a b -> ~ entry_lt b a.
Proof.
  intros [H|(E & H)] [G|(F & G)].
  - rewrite (flt_asym _ _ H) in G. discriminate.
  - rewrite F, flt_irrefl in H. discriminate.
  - rewrite E, flt_irrefl in G. discriminate.
  - rewrite (flt_asym _ _ H) in G. discriminate.
Qed.
Lemma sorted_map {A B} (R : B -> B -> Prop) (f : A -> B) l :
  StronglySorted (fun a b => R (f a) (f b)) l -> StronglySorted R (map f l).
Proof.
  induction 1 as [|a l S IH F]; simpl; constructor; auto. rewrite Forall_forall in *. intros x X.
  apply in_map_iff in X. destruct X as (y & <- & Y). auto.
Qed.

(** The rows of an evaluation are the points of the descriptor. *)
Lemma rows_points fs h w es ps rows : complete_set fs h w es -> apart es -> rows_of fs es rows -> points_of es ps ->
  Forall2 (fun r p => w_bright r = fst p /\ w_dark r = snd p) rows ps.
Proof.
  intros CS AP (F & S & ND & R) (S' & R' & D).
  assert (B : Forall2 eq (map w_bright rows) (map fst ps)).
  { apply (sorted_match entry_lt entry_lt); auto using entry_irr, entry_asym.
    - intros x y u v -> ->. tauto.
    - apply sorted_map. exact S.
    - intros x X. exists x. split; auto. apply R'. apply R. auto.
    - intros x X. exists x. split; auto. apply R. apply R'. auto. }
  assert (BE : forall r, In r rows -> row_ok fs es r) by (apply Forall_forall; auto).
  assert (DE : forall p, In p ps -> In (snd p) es /\ temporal_entry (snd p) /\ dark_entry (snd p) /\
     e_exposure (snd p) = e_exposure (fst p)) by (intros [b d] H; apply (D b d H)).
  clear F S ND R S' R' D. revert ps B DE.
  induction rows as [|r rows IH]; intros [|p ps] B DE; inversion B; subst; constructor.
  - split; auto. destruct (BE r (or_introl eq_refl)) as (_ & J1 & J2 & J3 & J4 & _).
    destruct (DE p (or_introl eq_refl)) as (G1 & G2 & G3 & G4).
    apply (apart_eq es); auto.
    split; [unfold temporal_entry in *; congruence|].
    destruct (cs_finite _ _ _ _ CS _ J1) as ((x & Fx) & Fy).
    split; [|apply dark_feq; auto].
    assert (EE : e_exposure (w_dark r) = e_exposure (snd p)) by (rewrite J4, G4; f_equal; auto).
    rewrite <- EE, Fx. unfold feq. simpl. apply Qeq_bool_iff. reflexivity.
  - apply IH; auto.
    + intros r' H'. apply BE. right. auto.
    + intros p' H'. apply DE. right. auto.
Qed.

Lemma f2_nth_error {A B} (R : A -> B -> Prop) l l' i y : Forall2 R l l' -> nth_error l' i = Some y ->
  exists x, nth_error l i = Some x /\ R x y.
Proof.
  intro F. revert i. induction F as [|a b l l' E F IH]; intros [|i] H; try discriminate; simpl in *; eauto.
  injection H as <-. eauto.
Qed.

Lemma at_qeq (A : Type) (f : A -> Q) l rows i r : Forall2 Qeq l (map f rows) -> nth_error rows i = Some r -> (at_ l i == f r)%Q.
Proof.
  revert l i. induction rows as [|a rows IH]; intros l [|i] F H; try discriminate;
    inversion F as [|x y l' m E F' E1 E2]; subst; simpl in H.
  - injection H as <-. exact E.
  - exact (IH l' i F' H).
Qed.

Lemma two_contents fs es e ims h w : complete_set fs h w es -> In e es -> images fs (e_files e) ims ->
  forall x y, ims = [x; y] -> pair_ok h w x y.
Proof.
  intros CS He I x y ->. destruct (cs_files _ _ _ _ CS e He) as (_ & ims' & I' & F).
  assert (ims' = [x; y]) by (eapply images_fun; eauto). subst ims'.
  inversion F as [|? ? Fa F']; subst. inversion F' as [|? ? Fb _]; subst.
  apply pair_good; auto. apply (cs_size _ _ _ _ CS).
Qed.

Section Whole.
Context {W : Type} (C : chance W) (fs : W -> fsys) (h w : nat) (fname d : str) (es : list entry)
  (ps : list (entry * entry)) (visit_t visit_s : exposure_dict -> exposure_dict) (T : truth) (V M : R).
Hypothesis VT : any_order visit_t.
Hypothesis VS : any_order visit_s.
Hypothesis L : lists fname d es.
Hypothesis CS : forall o, complete_set (fs o) h w es.
Hypothesis PS : points_of es ps.
Hypothesis RF : random_files C fs ps h w T V M.

Definition the_obj (o : W) : robj :=
  match emva (fs o) visit_t visit_s fname (Some d) with
  | Ok (Some x) => x
  | _ => mkObj (mkRT [] [] [] [] [] []) (mkSpatial FNan FNan (mkS blank 0 0 0 None None 0%Q None None)
           (mkS blank 0 0 0 None None 0%Q None None)) None None
  end.

Lemma the_chain o : exists rows, emva (fs o) visit_t visit_s fname (Some d) = Ok (Some (the_obj o)) /\
  object_ok (fs o) h w es (the_obj o) rows /\ Forall2 (fun r p => w_bright r = fst p /\ w_dark r = snd p) rows ps.
Proof.
  destruct (emva_chain (fs o) h w visit_t visit_s fname d es VT VS L (CS o)) as (x & rows & E & OK).
  exists rows. unfold the_obj. rewrite E. split; [auto|]. split; [auto|].
  apply (rows_points (fs o) h w es); auto.
  - eapply lists_apart; eauto.
  - apply OK.
Qed.

Lemma whole_measurement :
  measurement C the_obj
    (fun i o => match nth_error ps i with Some (b, _) => contents (fs o) b | None => [] end)
    (fun i o => match nth_error ps i with Some (_, e) => contents (fs o) e | None => [] end)
    (length ps) h w T (stated_light ps) V M.
Proof.
  assert (N : forall i, (i < length ps)%nat -> exists b e, nth_error ps i = Some (b, e)).
  { intros i H. destruct (nth_error ps i) as [[b e]|] eqn:E; eauto. apply nth_error_None in E. lia. }
  assert (ROW : forall o i b e, nth_error ps i = Some (b, e) -> exists r rows,
    object_ok (fs o) h w es (the_obj o) rows /\ nth_error rows i = Some r /\ w_bright r = b /\ w_dark r = e /\
    contents (fs o) b = [w_b1 r; w_b2 r] /\ contents (fs o) e = [w_d1 r; w_d2 r] /\
    pair_ok h w (w_b1 r) (w_b2 r) /\ pair_ok h w (w_d1 r) (w_d2 r)).
  { intros o i b e H. destruct (the_chain o) as (rows & _ & OK & F).
    destruct (f2_nth_error _ _ _ _ _ F H) as (r & Hr & Eb & Ee). simpl in Eb, Ee. subst b e. exists r, rows.
    pose proof (nth_error_In _ _ Hr) as I. destruct OK as ((RO & S & ND & R) & OK).
    rewrite Forall_forall in RO. destruct (RO r I) as (I1 & H1 & _ & _ & _ & I2).
    destruct (proj1 (R (w_bright r)) (in_map _ _ _ I)) as (H0 & _).
    split; [split; [split; [apply Forall_forall; auto|auto]|auto]|]. split; [auto|]. split; [auto|]. split; [auto|].
    split; [apply images_contents; auto|]. split; [apply images_contents; auto|].
    split; [exact (two_contents _ _ _ _ _ _ (CS o) H0 I1 _ _ eq_refl)|exact (two_contents _ _ _ _ _ _ (CS o) H1 I2 _ _ eq_refl)]. }
  assert (CO : forall s x y u v, s = [x; y] -> pair_ok h w x y -> (u == stack_mean h w [x; y])%Q ->
     (v == pair_variance h w x y)%Q -> computed h w s u v).
  { intros s x y u v -> P U V'. destruct (pair_estimators h w x y P) as (r & E & E1 & E2).
    exists (temporal_summary r). split; [exists r; auto|]. split; [rewrite U, E1|rewrite V', E2]; reflexivity. }
  constructor.
  - intro o. destruct (the_chain o) as (rows & _ & OK & F). rewrite <- (f2_length _ _ _ F). eapply ok_shaped; eauto.
  - intro o. destruct (the_chain o) as (rows & _ & OK & F). unfold unforced. apply OK.
  - intros o i H. destruct (N i H) as (b & e & E). destruct (ROW o i b e E) as (r & rows & OK & Hr & Eb & _).
    unfold photonsR, stated_light. rewrite E. f_equal. unfold photons. destruct OK as (_ & _ & UP & _).
    rewrite UP. unfold at_. erewrite nth_error_nth; [|apply map_nth_error; exact Hr]. unfold w_photons. rewrite Eb. auto.
  - intros i H. destruct (N i H) as (b & e & E). rewrite E. apply (rf_bright _ _ _ _ _ _ _ _ RF i b e E).
  - intros i H. destruct (N i H) as (b & e & E). rewrite E. apply (rf_dark _ _ _ _ _ _ _ _ RF i b e E).
  - intros o i H. destruct (N i H) as (b & e & E). rewrite E.
    destruct (ROW o i b e E) as (r & rows & OK & Hr & Eb & Ee & C1 & C2 & P1 & P2).
    destruct OK as (_ & _ & _ & A3 & A4 & A5 & A6 & _). split.
    + eapply CO; [exact C1|exact P1|exact (at_qeq _ _ _ _ _ _ A3 Hr)|exact (at_qeq _ _ _ _ _ _ A4 Hr)].
    + eapply CO; [exact C2|exact P2|exact (at_qeq _ _ _ _ _ _ A5 Hr)|exact (at_qeq _ _ _ _ _ _ A6 Hr)].
  - intros o i H Z. destruct (N i H) as (b & e & E).
    destruct (ROW o i b e E) as (r & rows & OK & Hr & Eb & Ee & C1 & C2 & P1 & P2).
    destruct OK as (_ & _ & _ & A3 & A4 & A5 & A6 & _).
    rewrite (at_qeq Spec_Emva.row _ _ _ _ _ A4 Hr). unfold w_var.
    pose proof (rf_clipped _ _ _ _ _ _ _ _ RF i b e o _ _ E Z C1) as EQ.
    destruct P1 as (P0 & _ & I1 & I2 & I3 & I4 & _).
    assert (G : (grey_mean (w_b1 r) == grey_mean (w_b2 r))%Q).
    { rewrite (grey_mean_sum h w), (grey_mean_sum h w (w_b2 r)) by auto.
      apply Qdiv_comp; [|reflexivity]. apply sumq2_ext. intros a c Ha Hc. rewrite EQ by auto. reflexivity. }
    unfold pair_variance. rewrite (sumq2_ext h w _ (fun _ _ => 0%Q)).
    + rewrite sumq2_const. ring.
    + intros a c Ha Hc. rewrite EQ, G by auto. ring.
Qed.

Lemma whole_event (P : robj -> Prop) b : unlikely C (fun o => ~ P (the_obj o)) b ->
  unlikely C (fun o => ~ exists x, emva (fs o) visit_t visit_s fname (Some d) = Ok (Some x) /\ P x) b.
Proof.
  intros (g & G1 & G2 & G3 & G4). exists g. split; [auto|]. split; [auto|]. split; [|auto].
  intros o N. apply G3. intro H. apply N. destruct (the_chain o) as (rows & E & _). eauto.
Qed.

Lemma whole_unlikely p eta K q e : linear_law T (stated_light ps) p eta K q -> clear_points T (length ps) p e ->
  (2 <= h * w)%nat -> (0 < e)%R ->
  unlikely C (fun o => ~ exists x, emva (fs o) visit_t visit_s fname (Some d) = Ok (Some x) /\ right_within x p eta K q e)
    (INR (length ps) / INR (h * w) * ((V + 2 * M) / (e * e) + 4 * V / e)).
Proof.
  intros LL CP HW E. apply whole_event. eapply measured_unlikely; eauto using whole_measurement.
Qed.

Lemma whole_simulated p eta K (a b : nat -> setting) e :
  (2 <= h * w)%nat -> (0 < eta)%R -> (0 < K)%R ->
  (forall i be de, nth_error ps i = Some (be, de) -> (i <= p)%nat ->
     simulated C (a i) (fun o => contents (fs o) be) 2 h w /\ simulated C (b i) (fun o => contents (fs o) de) 2 h w /\
     same_but_light (a i) (b i) /\ st_K (a i) = K /\
     pixel_meanR h w (fun r c => st_light (a i) r c - st_light (b i) r c)%R = (eta * Q2R (number (e_photons be)))%R) ->
  clear_points T (length ps) p e -> (0 < e)%R ->
  unlikely C (fun o => ~ exists x, emva (fs o) visit_t visit_s fname (Some d) = Ok (Some x) /\ right_within x p eta K (1 / 4) e)
    (INR (length ps) / INR (h * w) * ((V + 2 * M) / (e * e) + 4 * V / e)).
Proof.
  intros HW HE HK S CP E. apply whole_event. eapply simulated_unlikely; [exact whole_measurement|auto|auto|auto| |auto|auto].
  intros i Hi. assert (LP : (i < length ps)%nat) by (destruct CP; lia).
  destruct (nth_error ps i) as [[be de]|] eqn:N; [|apply nth_error_None in N; lia].
  destruct (S i be de N Hi) as (S1 & S2 & S3 & S4 & S5). unfold stated_light. rewrite N. eauto 10.
Qed.
End Whole.
