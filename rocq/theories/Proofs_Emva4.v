(** The order of blocks, of files and of visits does not matter. *)
From Coq Require Import Ascii String List Bool Arith ZArith QArith Reals Qreals Lia Permutation Sorting.Sorted.
From Verif Require Import Base_Prelude Base_Str Base_Num Base_Order Base_Sum Base_Xreal Model_Path Model_Images
  Model_Loader Model_Data Model_Parser Model_Results Model_Emva Spec_Parser Spec_Images Spec_Loader
  Spec_Data Spec_Results Spec_Emva Proofs_Parser Proofs_Parser2 Proofs_Images Proofs_Loader
  Proofs_Data Proofs_Data2 Proofs_Results Proofs_Results2 Proofs_Fit Proofs_Same Proofs_Emva Proofs_Emva2
  Proofs_Emva3.
Import ListNotations.
Open Scope Q_scope.
Local Arguments feq : simpl never.
Local Arguments flt : simpl never.

(** ** Statistics of a permuted stack *)
Lemma lsumq_perm a b : Permutation a b -> lsumq a == lsumq b.
Proof.
  induction 1; simpl; try reflexivity.
  - rewrite IHPermutation. reflexivity.
  - ring.
  - etransitivity; eauto.
Qed.

Lemma stack_mean_perm h w a b : Permutation a b -> stack_mean h w a == stack_mean h w b.
Proof.
  intro P. unfold stack_mean. rewrite (Permutation_length P).
  rewrite (lsumq_perm _ _ (Permutation_map _ P)). reflexivity.
Qed.

Lemma mean_perm a b : Permutation a b -> mean a == mean b.
Proof.
  intro P. unfold mean. rewrite (Permutation_length P), (lsumq_perm _ _ P). reflexivity.
Qed.

Lemma unbiased_var_perm a b : Permutation a b -> unbiased_var a == unbiased_var b.
Proof.
  intro P. unfold unbiased_var. rewrite (Permutation_length P).
  rewrite (lsumq_perm _ _ (Permutation_map _ P)).
  rewrite (lsumq_ext (fun y => (y - mean a) * (y - mean a)) (fun y => (y - mean b) * (y - mean b))).
  - reflexivity.
  - intros x _. rewrite (mean_perm _ _ P). reflexivity.
Qed.

Lemma history_perm a b r c : Permutation a b ->
  Permutation (map inject_Z (history a r c)) (map inject_Z (history b r c)).
Proof. intro P. apply Permutation_map, Permutation_map, P. Qed.

Lemma pop_var_ext n f g : (forall i, (i < n)%nat -> f i == g i) -> pop_var n f == pop_var n g.
Proof.
  intro H. unfold pop_var. rewrite (sumq_ext n _ (fun i => (g i - sumq n g / qn n) * (g i - sumq n g / qn n))).
  - reflexivity.
  - intros i I. rewrite (H i I), (sumq_ext n f g H). reflexivity.
Qed.

Lemma series_same h w a b s s' : Permutation a b ->
  series_stats h w a s -> series_stats h w b s' -> same_s s s'.
Proof.
  intros P (A1 & A2 & A3 & A4 & vm & av & ca & ra & E1 & E2 & E3 & E4 & V1 & V2 & V3 & V4)
           (B1 & B2 & B3 & B4 & vm' & av' & ca' & ra' & F1 & F2 & F3 & F4 & W1 & W2 & W3 & W4).
  assert (VM : vm == vm').
  { rewrite V1, W1. unfold pixel_mean. rewrite (sumq2_ext h w _ (fun r c => unbiased_var (map inject_Z (history b r c)))).
    - reflexivity.
    - intros r c _ _. apply unbiased_var_perm, history_perm, P. }
  assert (AP : forall r c, avg_pixel a r c == avg_pixel b r c).
  { intros r c. apply mean_perm, history_perm, P. }
  unfold same_s. rewrite A1, A2, A3, B1, B2, B3, E1, E2, E3, E4, F1, F2, F3, F4.
  split; [apply Permutation_length, P|]. split; auto. split; auto.
  split; [rewrite A4, B4; apply stack_mean_perm, P|]. simpl. split; auto. split; [|split].
  - rewrite V2, W2. rewrite (sumq2_ext h w _ (fun r c =>
       (avg_pixel b r c - stack_mean h w b) * (avg_pixel b r c - stack_mean h w b))); [reflexivity|].
    intros r c _ _. rewrite (AP r c), (stack_mean_perm h w _ _ P). reflexivity.
  - rewrite V3, W3, VM, (Permutation_length P).
    rewrite (pop_var_ext w _ (col_mean h (avg_pixel b))); [reflexivity|].
    intros i _. unfold col_mean. rewrite (sumq_ext h _ (fun r => avg_pixel b r i)); [reflexivity|]. auto.
  - rewrite V4, W4, VM, (Permutation_length P).
    rewrite (pop_var_ext h _ (row_mean w (avg_pixel b))); [reflexivity|].
    intros i _. unfold row_mean. rewrite (sumq_ext w _ (fun r => avg_pixel b i r)); [reflexivity|]. auto.
Qed.

(** ** Permuted files *)
Lemma images_perm fs f f' ims : Permutation f f' -> images fs f ims ->
  exists ims', Permutation ims ims' /\ images fs f' ims'.
Proof.
  intros P. revert ims. induction P; intros ims I.
  - exists ims. auto.
  - inversion I; subst. destruct (IHP _ H3) as (i' & Q & J). exists (y :: i'). split; [auto|constructor; auto].
  - inversion I; subst. inversion H3; subst. eexists. split; [apply perm_swap|]. repeat constructor; auto.
  - destruct (IHP1 _ I) as (i1 & Q1 & J1). destruct (IHP2 _ J1) as (i2 & Q2 & J2).
    exists i2. split; auto. etransitivity; eauto.
Qed.

Lemma images_perm2 fs f f' ims ims' : Permutation f f' -> images fs f ims -> images fs f' ims' ->
  Permutation ims ims'.
Proof.
  intros P I J. destruct (images_perm fs f f' ims P I) as (k & Q & K).
  rewrite <- (images_fun _ _ _ _ K J). auto.
Qed.

Lemma perm_pair {A} (a b c d : A) : Permutation [a; b] [c; d] -> (a = c /\ b = d) \/ (a = d /\ b = c).
Proof.
  intro P. apply Permutation_length_2 in P. tauto.
Qed.

Lemma pair_var_perm h w a b c d : Permutation [a; b] [c; d] -> pair_variance h w a b == pair_variance h w c d.
Proof.
  intro P. apply perm_pair in P. destruct P as [(-> & ->)|(-> & ->)]; [reflexivity|apply pair_variance_swap].
Qed.

(** ** Sorted lists *)
Lemma sorted_unique {A} (R : A -> A -> Prop) l l' :
  (forall x, ~ R x x) -> (forall x y, R x y -> ~ R y x) ->
  StronglySorted R l -> StronglySorted R l' -> (forall x, In x l <-> In x l') -> l = l'.
Proof.
  intros Irr Asym S. revert l'. induction S as [|a l S IH F]; intros l' S' E.
  - destruct l' as [|b l']; auto. exfalso. apply (E b). left. auto.
  - destruct S' as [|b l' S' F'].
    + exfalso. apply (E a). left. auto.
    + rewrite Forall_forall in F, F'. assert (a = b).
      { destruct (proj1 (E a) (or_introl eq_refl)) as [H|H]; auto.
        destruct (proj2 (E b) (or_introl eq_refl)) as [G|G]; auto.
        exfalso. apply (Asym a b); auto. }
      subst b. f_equal. apply IH; auto. intro x. split; intro H.
      * destruct (proj1 (E x) (or_intror H)) as [G|G]; auto. subst. exfalso. apply (Irr x). auto.
      * destruct (proj2 (E x) (or_intror H)) as [G|G]; auto. subst. exfalso. apply (Irr x). auto.
Qed.

(** ** The same measurement *)
Lemma same_there es es' : same_measurement es es' -> forall e, In e es -> exists e', In e' es' /\ same_entry e e'.
Proof.
  intros (mid & P & F) e He. apply (Permutation_in _ P) in He. clear P.
  induction F as [|x y mid es' E F IH]; [contradiction|]. destruct He as [->|He].
  - exists y. split; [left|]; auto.
  - destruct (IH He) as (e' & A & B). exists e'. split; [right|]; auto.
Qed.

Lemma same_back es es' : same_measurement es es' -> forall e', In e' es' -> exists e, In e es /\ same_entry e e'.
Proof.
  intros (mid & P & F) e He.
  assert (H : exists x, In x mid /\ same_entry x e).
  { clear P. induction F as [|x y mid es' E F IH]; [contradiction|]. destruct He as [->|He].
    - exists x. split; [left|]; auto.
    - destruct (IH He) as (e' & A & B). exists e'. split; [right|]; auto. }
  destruct H as (x & A & B). exists x. split; auto. eapply Permutation_in; [symmetry; exact P|auto].
Qed.

Definition apart (es : list entry) : Prop := ForallOrdPairs (fun x y => ~ clash x y) es.

Lemma lists_apart fname t es : lists fname t es -> apart es.
Proof. intros (toks & _ & (_ & _ & _ & _ & W) & B). apply W. auto. Qed.

Lemma apart_eq es x y : apart es -> In x es -> In y es -> clash x y -> x = y.
Proof.
  intros A X Y C. destruct (fop_in _ _ _ _ A X Y) as [E|[N|N]]; auto; [contradiction|].
  exfalso. apply (nclash_sym _ _ N). auto.
Qed.

Section SameSet.
Context (fs : fsys) (h w : nat) (es es' : list entry).
Hypothesis SM : same_measurement es es'.
Hypothesis CS : complete_set fs h w es.
Hypothesis AP : apart es.
Hypothesis AP' : apart es'.

Lemma clash_there x y x' y' : same_entry x x' -> same_entry y y' -> clash x y -> clash x' y'.
Proof.
  intros (A1 & A2 & A3 & _) (B1 & B2 & B3 & _) (C1 & C2 & C3). unfold clash.
  rewrite <- A1, <- A2, <- A3, <- B1, <- B2, <- B3. auto.
Qed.

Lemma self_clash e : In e es -> clash e e.
Proof.
  intro H. destruct (cs_finite _ _ _ _ CS e H) as (F1 & F2).
  split; auto. split; apply feq_refl, finite_not_nan; auto.
Qed.

Lemma partner e x' y' : In e es -> In x' es' -> In y' es' -> same_entry e x' -> same_entry e y' -> x' = y'.
Proof.
  intros H X Y A B. eapply apart_eq; eauto. eapply clash_there; eauto. apply self_clash; auto.
Qed.

Lemma same_temporal e e' : same_entry e e' -> (temporal_entry e <-> temporal_entry e').
Proof. intros (A & _). unfold temporal_entry. rewrite A. tauto. Qed.
Lemma same_spatial e e' : same_entry e e' -> (spatial_entry e <-> spatial_entry e').
Proof. intros (A & _). unfold spatial_entry. rewrite A. tauto. Qed.
Lemma same_dark e e' : same_entry e e' -> (dark_entry e <-> dark_entry e').
Proof. intros (_ & _ & A & _). unfold dark_entry. rewrite A. tauto. Qed.
Lemma same_exp e e' : same_entry e e' -> e_exposure e = e_exposure e'.
Proof. intros (_ & A & _). auto. Qed.

Lemma complete_same : complete_set fs h w es'.
Proof.
  constructor.
  - apply (cs_size _ _ _ _ CS).
  - intros e' H. destruct (same_back _ _ SM e' H) as (e & He & _ & A & B & _). rewrite <- A, <- B.
    apply (cs_finite _ _ _ _ CS e He).
  - intros e' H. destruct (same_back _ _ SM e' H) as (e & He & _ & A & B & _). rewrite <- B.
    apply (cs_nonneg _ _ _ _ CS e He).
  - intros e' H. destruct (same_back _ _ SM e' H) as (e & He & _ & _ & _ & P).
    destruct (cs_files _ _ _ _ CS e He) as (L & ims & I & G). rewrite <- (Permutation_length P). split; auto.
    destruct (images_perm _ _ _ _ P I) as (ims' & Q & I'). exists ims'. split; auto.
    eapply Permutation_Forall; eauto.
  - intros e' H T. destruct (same_back _ _ SM e' H) as (e & He & S).
    destruct (cs_dark _ _ _ _ CS e He (proj2 (same_temporal _ _ S) T)) as (d & Hd & Td & Dd & E).
    destruct (same_there _ _ SM d Hd) as (d' & Hd' & S'). exists d'. split; auto.
    split; [apply (same_temporal _ _ S'); auto|]. split; [apply (same_dark _ _ S'); auto|].
    rewrite <- (same_exp _ _ S), <- (same_exp _ _ S'). auto.
  - intros e' H T. destruct (same_back _ _ SM e' H) as (e & He & S).
    destruct (cs_bright _ _ _ _ CS e He (proj2 (same_temporal _ _ S) T)) as (d & Hd & Td & Dd & E).
    destruct (same_there _ _ SM d Hd) as (d' & Hd' & S'). exists d'. split; auto.
    split; [apply (same_temporal _ _ S'); auto|]. split; [rewrite <- (same_dark _ _ S'); auto|].
    rewrite <- (same_exp _ _ S), <- (same_exp _ _ S'). auto.
  - destruct (cs_aligned _ _ _ _ CS) as [A|A]; [left|right].
    + intros e f He Hf Te Tf. destruct (same_back _ _ SM e He) as (x & Hx & Sx).
      destruct (same_back _ _ SM f Hf) as (y & Hy & Sy). rewrite <- (same_exp _ _ Sx), <- (same_exp _ _ Sy).
      apply A; auto; [apply (same_temporal _ _ Sx)|apply (same_temporal _ _ Sy)]; auto.
    + intros e f He Hf Te Tf De Df E. destruct (same_back _ _ SM e He) as (x & Hx & Sx).
      destruct (same_back _ _ SM f Hf) as (y & Hy & Sy).
      rewrite <- (same_exp _ _ Sx), <- (same_exp _ _ Sy) in E.
      rewrite <- (same_temporal _ _ Sx) in Te. rewrite <- (same_temporal _ _ Sy) in Tf.
      rewrite <- (same_dark _ _ Sx) in De. rewrite <- (same_dark _ _ Sy) in Df.
      pose proof (A x y Hx Hy Te Tf De Df E). subst y. eapply partner; eauto.
  - destruct (cs_spatial _ _ _ _ CS) as (d & b & Hd & Hb & Sd & Sb & Dd & Db & E & U).
    destruct (same_there _ _ SM d Hd) as (d' & Hd' & Xd). destruct (same_there _ _ SM b Hb) as (b' & Hb' & Xb).
    exists d', b'. split; auto. split; auto. split; [apply (same_spatial _ _ Xd); auto|].
    split; [apply (same_spatial _ _ Xb); auto|]. split; [apply (same_dark _ _ Xd); auto|].
    split; [rewrite <- (same_dark _ _ Xb); auto|]. rewrite <- (same_exp _ _ Xd), <- (same_exp _ _ Xb).
    split; auto. intros e' He' S'. destruct (same_back _ _ SM e' He') as (e & He & X).
    rewrite <- (same_spatial _ _ X) in S'. destruct (U e He S'); subst e; [left|right]; eapply partner; eauto.
Qed.

(** ** Rows *)
Definition row_key (r : row) := (e_exposure (w_bright r), e_photons (w_bright r)).
Definition key_lt (a b : pyfloat * pyfloat) : Prop :=
  flt (fst a) (fst b) = true \/ fst a = fst b /\ flt (snd a) (snd b) = true.

Lemma key_irr a : ~ key_lt a a.
Proof. unfold key_lt. rewrite !flt_irrefl. intros [H|(_ & H)]; discriminate. Qed.
Lemma key_asym a b : key_lt a b -> ~ key_lt b a.
Proof.
  unfold key_lt. intros [H|(E & H)] [G|(E' & G)].
  - rewrite (flt_asym _ _ H) in G. discriminate.
  - rewrite E', flt_irrefl in H. discriminate.
  - rewrite E, flt_irrefl in G. discriminate.
  - rewrite (flt_asym _ _ H) in G. discriminate.
Qed.

Lemma keys_sorted rows : StronglySorted row_lt rows -> StronglySorted key_lt (map row_key rows).
Proof.
  induction 1 as [|r rows S IH F]; simpl; constructor; auto.
  rewrite Forall_forall in *. intros k Hk. apply in_map_iff in Hk. destruct Hk as (x & <- & Hx). apply F. auto.
Qed.

Lemma map_forall2 {A B C} (f : A -> C) (g : B -> C) l l' : map f l = map g l' -> Forall2 (fun x y => f x = g y) l l'.
Proof.
  revert l'. induction l as [|x l IH]; intros [|y l'] H; simpl in H; try discriminate; constructor;
    injection H; auto.
Qed.

Lemma rows_keys rows rows' : rows_of fs es rows -> rows_of fs es' rows' ->
  Forall2 (fun r r' => row_key r = row_key r') rows rows'.
Proof.
  intros (_ & S & _ & R) (_ & S' & _ & R'). apply map_forall2.
  apply (sorted_unique key_lt); auto using key_irr, key_asym, keys_sorted.
  intros k. rewrite !in_map_iff. split.
  - intros (r & <- & Hr). destruct (proj1 (R (w_bright r)) (in_map _ _ _ Hr)) as (He & T & D).
    destruct (same_there _ _ SM _ He) as (e' & He' & X).
    assert (I : In e' (map w_bright rows')).
    { apply R'. split; auto. rewrite <- (same_temporal _ _ X), <- (same_dark _ _ X). auto. }
    apply in_map_iff in I. destruct I as (r' & E & Hr'). exists r'. split; auto.
    unfold row_key. rewrite E. destruct X as (_ & X1 & X2 & _). rewrite X1, X2. auto.
  - intros (r & <- & Hr). destruct (proj1 (R' (w_bright r)) (in_map _ _ _ Hr)) as (He & T & D).
    destruct (same_back _ _ SM _ He) as (e' & He' & X).
    assert (I : In e' (map w_bright rows)).
    { apply R. split; auto. rewrite (same_temporal _ _ X), (same_dark _ _ X). auto. }
    apply in_map_iff in I. destruct I as (r' & E & Hr'). exists r'. split; auto.
    unfold row_key. rewrite E. destruct X as (_ & X1 & X2 & _). rewrite X1, X2. auto.
Qed.

Lemma dark_feq a b : dark_entry a -> dark_entry b -> feq (e_photons a) (e_photons b) = true.
Proof.
  unfold dark_entry, is_dark. intros A B. eapply feq_tr; [rewrite feq_comm; exact A|exact B].
Qed.

Lemma partners_same e d' : In e es -> In d' es' -> e_kind e = e_kind d' ->
  e_exposure e = e_exposure d' -> feq (e_photons e) (e_photons d') = true -> same_entry e d'.
Proof.
  intros He Hd K X P. destruct (same_back _ _ SM d' Hd) as (x & Hx & S).
  assert (x = e); [|subst; auto]. apply (apart_eq es); auto.
  destruct S as (S1 & S2 & S3 & _). destruct (cs_finite _ _ _ _ CS e He) as (F1 & F2).
  split; [congruence|]. rewrite S2, S3, <- X. split; [apply feq_refl, finite_not_nan; auto|].
  rewrite feq_comm. auto.
Qed.

Definition rows_same (r r' : row) : Prop :=
  w_exposure r = w_exposure r' /\ w_photons r = w_photons r' /\
  w_mean h w r == w_mean h w r' /\ w_var h w r == w_var h w r' /\
  w_dark_mean h w r == w_dark_mean h w r' /\ w_dark_var h w r == w_dark_var h w r'.

Lemma rows_same_all rows rows' : rows_of fs es rows -> rows_of fs es' rows' ->
  Forall2 rows_same rows rows'.
Proof.
  intros RO RO'. pose proof (rows_keys _ _ RO RO') as K.
  destruct RO as (O & _ & _ & R). destruct RO' as (O' & _ & _ & R').
  assert (B : forall r, In r rows -> In (w_bright r) es /\ temporal_entry (w_bright r)).
  { intros r Hr. destruct (proj1 (R (w_bright r)) (in_map _ _ _ Hr)) as (A1 & A2 & _). auto. }
  assert (B' : forall r, In r rows' -> In (w_bright r) es' /\ temporal_entry (w_bright r)).
  { intros r Hr. destruct (proj1 (R' (w_bright r)) (in_map _ _ _ Hr)) as (A1 & A2 & _). auto. }
  clear R R'. induction K as [|r r' rows rows' E K IH]; constructor.
  - apply Forall_inv in O, O'. destruct (B r (or_introl eq_refl)) as (H & T).
    destruct (B' r' (or_introl eq_refl)) as (H' & T'). injection E as E1 E2.
    destruct (cs_finite _ _ _ _ CS _ H) as (F1 & F2).
    assert (X : same_entry (w_bright r) (w_bright r')).
    { apply partners_same; auto; [unfold temporal_entry in *; congruence|]. rewrite <- E2.
      apply feq_refl, finite_not_nan; auto. }
    destruct O as (I & Hd & Td & Dd & Ed & Id). destruct O' as (I' & Hd' & Td' & Dd' & Ed' & Id').
    assert (Y : same_entry (w_dark r) (w_dark r')).
    { apply partners_same; auto; [unfold temporal_entry in *; congruence|congruence|]. apply dark_feq; auto. }
    destruct X as (_ & _ & _ & PX). destruct Y as (_ & _ & _ & PY).
    pose proof (images_perm2 _ _ _ _ _ PX I I') as QX. pose proof (images_perm2 _ _ _ _ _ PY Id Id') as QY.
    unfold rows_same, w_exposure, w_photons, w_mean, w_var, w_dark_mean, w_dark_var. rewrite E1, E2.
    repeat split; auto using stack_mean_perm, pair_var_perm.
  - apply IH; [inversion O; auto|inversion O'; auto| |]; intros x Hx; [apply B|apply B']; right; auto.
Qed.

Lemma qmap_same (f : row -> Q) rows rows' l l' :
  (forall r r', rows_same r r' -> f r == f r') -> Forall2 rows_same rows rows' ->
  qlist l (map f rows) -> qlist l' (map f rows') -> qlist l l'.
Proof.
  intros F S A B. eapply qlist_trans; [exact A|]. eapply qlist_trans; [|apply qlist_sym; exact B].
  clear - F S. induction S; simpl; constructor; auto.
Qed.

Lemma qlist_refl l : qlist l l.
Proof. induction l; constructor; auto. reflexivity. Qed.

Lemma objects_same o o' rows rows' : object_ok fs h w es o rows -> object_ok fs h w es' o' rows' ->
  forall f, same_value (value_of f o) (value_of f o').
Proof.
  intros (R & A1 & A2 & A3 & A4 & A5 & A6 & SP & AA & AI) (R' & B1 & B2 & B3 & B4 & B5 & B6 & SP' & BA & BI).
  pose proof (rows_same_all _ _ R R') as S.
  destruct SP as (x & y & dk & br & Hx & Hy & Sx & Sy & Dx & Dy & _ & _ & Ix & Iy & Tx & Ty & _).
  destruct SP' as (x' & y' & dk' & br' & Hx' & Hy' & Sx' & Sy' & Dx' & Dy' & _ & _ & Ix' & Iy' & Tx' & Ty' & _).
  destruct (cs_spatial _ _ _ _ CS) as (d & b & _ & _ & _ & _ & Dd & Db & E & U).
  assert (X : forall a a', In a es -> spatial_entry a -> In a' es' -> spatial_entry a' ->
            (dark_entry a <-> dark_entry a') -> same_entry a a').
  { intros a a' Ha Sa Ha' Sa' I. destruct (same_back _ _ SM a' Ha') as (z & Hz & SZ).
    assert (z = a); [|subst; auto]. rewrite <- (same_spatial _ _ SZ) in Sa'.
    rewrite <- (same_dark _ _ SZ) in I.
    destruct (U a Ha Sa), (U z Hz Sa'); subst; auto; tauto. }
  destruct (X x x') as (_ & _ & _ & PX); auto; [tauto|].
  destruct (X y y') as (_ & _ & _ & PY); auto; [tauto|].
  apply all_same.
  - unfold same_t. rewrite A1, B1, A2, B2.
    split; [|split; [|split; [|split; [|split]]]].
    + eapply (qmap_same w_exposure); [|exact S|apply qlist_refl|apply qlist_refl].
      intros r r' (H & _). rewrite H. reflexivity.
    + eapply (qmap_same w_photons); [|exact S|apply qlist_refl|apply qlist_refl].
      intros r r' (_ & H & _). rewrite H. reflexivity.
    + eapply (qmap_same (w_mean h w)); [|exact S|exact A3|exact B3]. intros r r' RS; unfold rows_same in RS; tauto.
    + eapply (qmap_same (w_var h w)); [|exact S|exact A4|exact B4]. intros r r' RS; unfold rows_same in RS; tauto.
    + eapply (qmap_same (w_dark_mean h w)); [|exact S|exact A5|exact B5]. intros r r' RS; unfold rows_same in RS; tauto.
    + eapply (qmap_same (w_dark_var h w)); [|exact S|exact A6|exact B6]. intros r r' RS; unfold rows_same in RS; tauto.
  - eapply series_same; [|exact Tx|exact Tx']. eapply images_perm2; [exact PX|exact Ix|exact Ix'].
  - eapply series_same; [|exact Ty|exact Ty']. eapply images_perm2; [exact PY|exact Iy|exact Iy'].
  - congruence.
  - congruence.
Qed.
End SameSet.

(** ** End to end *)
Lemma end_to_end fs h w visit_t visit_s fname t es :
  any_order visit_t -> any_order visit_s -> lists fname t es -> complete_set fs h w es ->
  (exists e, In e es /\ temporal_entry e) ->
  exists o rows i, emva fs visit_t visit_s fname (Some t) = Ok (Some o) /\ rows_of fs es rows /\
    value_of F_index_u_ysat o = VZ (Ok (Z.of_nat i)) /\ (i < length rows)%nat /\
    (forall j, (i <= j < length rows)%nat -> goes_on (m_variances h w rows) j) /\
    (i = 0%nat \/ ~ goes_on (m_variances h w rows) (i - 1)) /\
    (forall m, value_of F_index_sensitivity_max o = VN (Ok m) <->
       largest (length rows) (fun j => m_signal h w rows j <= (7 # 10) * m_signal h w rows i) m) /\
    (forall m, value_of F_index_sensitivity_max o = VN (Ok m) ->
       (exists r, value_of F_R o = VQ (Ok r) /\
          best_slope (m_photons rows) (m_signal h w rows) m r) /\
       ((exists j, (j <= m)%nat /\ ~ m_signal h w rows j == 0) ->
        exists k, value_of F_K o = VQ (Ok k) /\
          best_slope (m_signal h w rows) (m_noise h w rows) m k)).
Proof.
  intros VT VS L CS TE. destruct (emva_chain fs h w visit_t visit_s fname t es VT VS L CS) as (o & rows & E & OK).
  destruct (ok_saturation fs h w es o rows CS OK) as (i & I1 & I2 & I3 & I4).
  { eapply rows_nonempty; eauto. }
  destruct (ok_fits fs h w es o rows CS OK i I2 I1) as (M & F).
  exists o, rows, i. repeat (split; [first [assumption | exact (proj1 OK)]|]). exact F.
Qed.

Lemma order_free fs h w fname t es visit_t visit_s fname' t' es' visit_t' visit_s' :
  any_order visit_t -> any_order visit_s -> any_order visit_t' -> any_order visit_s' ->
  lists fname t es -> lists fname' t' es' -> same_measurement es es' -> complete_set fs h w es ->
  exists o o', emva fs visit_t visit_s fname (Some t) = Ok (Some o) /\
    emva fs visit_t' visit_s' fname' (Some t') = Ok (Some o') /\
    forall f, same_value (value_of f o) (value_of f o').
Proof.
  intros VT VS VT' VS' L L' SM CS.
  pose proof (lists_apart _ _ _ L) as AP. pose proof (lists_apart _ _ _ L') as AP'.
  pose proof (complete_same fs h w es es' SM CS AP') as CS'.
  destruct (emva_chain fs h w visit_t visit_s fname t es VT VS L CS) as (o & rows & E & OK).
  destruct (emva_chain fs h w visit_t' visit_s' fname' t' es' VT' VS' L' CS') as (o' & rows' & E' & OK').
  exists o, o'. split; auto. split; auto. eapply objects_same; eauto.
Qed.
