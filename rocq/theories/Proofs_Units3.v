(** A restated measurement: corresponding rows and series. *)
From Coq Require Import Ascii String List Bool Arith ZArith QArith Qfield Reals Qreals Lia Lqa Permutation Sorting.Sorted.
From Verif Require Import Base_Prelude Base_Str Base_Num Base_Order Base_Sum Base_Xreal Model_Path Model_Images
  Model_Loader Model_Data Model_Parser Model_Results Model_Emva Spec_Parser Spec_Images Spec_Loader
  Spec_Data Spec_Results Spec_Emva Spec_Units Proofs_Parser Proofs_Parser2 Proofs_Images Proofs_Loader
  Proofs_Data Proofs_Data2 Proofs_Results Proofs_Results2 Proofs_Same Proofs_Emva Proofs_Emva2
  Proofs_Emva3 Proofs_Emva4.
Import ListNotations.
Open Scope Q_scope.
Local Arguments feq : simpl never.
Local Arguments flt : simpl never.

(** ** Entries and files *)
Lemma lists_files fname t es : lists fname t es -> forall e, In e es -> (2 <= length (e_files e))%nat.
Proof.
  intros (toks & TC & W & B) e He.
  destruct (parse_file_cases fname None t toks TC) as [(es' & d & _ & B' & E & P & _ & _ & DI)|(N & _)];
    [|contradiction].
  assert (es' = es) by (eapply denotes_unique; [apply blocks_header|exact B'|exact B]). subst es'.
  pose proof (entry_kinds fname None t toks d TC E) as K. rewrite Forall_forall in K.
  apply (K e). apply (Permutation_in _ (Permutation_sym P)). auto.
Qed.

Lemma f2_there {A B} (R : A -> B -> Prop) l l' : Forall2 R l l' -> forall x, In x l -> exists y, In y l' /\ R x y.
Proof.
  induction 1 as [|x y l l' E H IH]; intros z Hz; [contradiction|]. destruct Hz as [->|Hz].
  - exists y. split; [left|]; auto.
  - destruct (IH z Hz) as (u & U & V). exists u. split; [right|]; auto.
Qed.
Lemma f2_back {A B} (R : A -> B -> Prop) l l' : Forall2 R l l' -> forall y, In y l' -> exists x, In x l /\ R x y.
Proof.
  induction 1 as [|x y l l' E H IH]; intros z Hz; [contradiction|]. destruct Hz as [->|Hz].
  - exists x. split; [left|]; auto.
  - destruct (IH z Hz) as (u & U & V). exists u. split; [right|]; auto.
Qed.

Lemma sorted_match {A B} (lt : A -> A -> Prop) (lt' : B -> B -> Prop) (rel : A -> B -> Prop) l l' :
  (forall x, ~ lt x x) -> (forall y, ~ lt' y y) -> (forall x y, lt' x y -> ~ lt' y x) ->
  (forall x y u v, rel x u -> rel y v -> (lt x y <-> lt' u v)) ->
  StronglySorted lt l -> StronglySorted lt' l' ->
  (forall x, In x l -> exists y, In y l' /\ rel x y) ->
  (forall y, In y l' -> exists x, In x l /\ rel x y) -> Forall2 rel l l'.
Proof.
  intros I1 I2 AS M S. revert l'. induction S as [|a l S IH F]; intros l' S' E E'.
  - destruct l' as [|b l']; [constructor|]. destruct (E' b (or_introl eq_refl)) as (x & [] & _).
  - destruct S' as [|b l' S' F'].
    + destruct (E a (or_introl eq_refl)) as (x & [] & _).
    + rewrite Forall_forall in F, F'. assert (R : rel a b).
      { destruct (E a (or_introl eq_refl)) as (y & [<-|Hy] & R); auto.
        destruct (E' b (or_introl eq_refl)) as (x & [<-|Hx] & R'); auto.
        exfalso. apply (AS b y (F' y Hy)). apply (M a x y b); auto. }
      constructor; auto. apply IH; auto.
      * intros x Hx. destruct (E x (or_intror Hx)) as (y & [<-|Hy] & R'); eauto.
        exfalso. apply (I2 b). apply (M a x b b); auto.
      * intros y Hy. destruct (E' y (or_intror Hy)) as (x & [<-|Hx] & R'); eauto.
        exfalso. apply (I1 a). apply (M a a b y); auto.
Qed.

(** ** Rows *)
Definition row_below (a b : row) : Prop :=
  w_exposure a < w_exposure b \/ w_exposure a == w_exposure b /\ w_photons a < w_photons b.
Lemma below_irr a : ~ row_below a a.
Proof. unfold row_below. intros [H|(_ & H)]; apply (Qlt_irrefl _ H). Qed.
Lemma below_asym a b : row_below a b -> ~ row_below b a.
Proof.
  unfold row_below. intros [H|(E & H)] [G|(E' & G)]; try lra.
Qed.

Section Match.
Context (fs fs' : fsys) (h w h' w' : nat) (T : image -> image -> Prop) (t p : Q) (es es' : list entry).
Hypothesis HT : 0 < t.
Hypothesis HP : 0 < p.
Hypothesis RE : Forall2 (restated fs fs' T t p) es es'.
Hypothesis CS : complete_set fs h w es.
Hypothesis CS' : complete_set fs' h' w' es'.
Hypothesis AP : apart es.

Lemma NT0 : ~ t == 0. Proof. intro Z. rewrite Z in HT. discriminate. Qed.
Lemma NP0 : ~ p == 0. Proof. intro Z. rewrite Z in HP. discriminate. Qed.

Lemma dark_number e : finite (e_photons e) -> (dark_entry e <-> number (e_photons e) == 0).
Proof.
  intros (q & E). unfold dark_entry, is_dark. rewrite E. unfold fzero, feq. simpl.
  rewrite Qeq_bool_iff. split; intro; symmetry; auto.
Qed.

Lemma re_dark e e' : In e es -> In e' es' -> restated fs fs' T t p e e' -> (dark_entry e <-> dark_entry e').
Proof.
  intros He He' (_ & _ & P & _).
  destruct (cs_finite _ _ _ _ CS e He) as (_ & Fe). destruct (cs_finite _ _ _ _ CS' e' He') as (_ & Fe').
  rewrite (dark_number e Fe), (dark_number e' Fe').
  rewrite P. split; intro H; [rewrite H; ring|]. apply Qmult_integral in H. destruct H; auto.
  exfalso. apply NP0. auto.
Qed.

Lemma sorted_below fs0 h0 w0 es0 rows : complete_set fs0 h0 w0 es0 -> rows_of fs0 es0 rows ->
  StronglySorted row_below rows.
Proof.
  intros C (_ & S & _ & R).
  assert (B : forall r, In r rows -> finite (e_exposure (w_bright r)) /\ finite (e_photons (w_bright r))).
  { intros r Hr. apply (cs_finite _ _ _ _ C). apply (R (w_bright r)). apply in_map. auto. }
  clear R. induction S as [|a rows S IH F]; constructor.
  - apply IH. intros r Hr. apply B. right. auto.
  - rewrite Forall_forall in *. intros r Hr. specialize (F r Hr).
    destruct (B a (or_introl eq_refl)) as ((x1 & X1) & (x2 & X2)).
    destruct (B r (or_intror Hr)) as ((y1 & Y1) & (y2 & Y2)).
    unfold row_lt in F. unfold row_below, w_exposure, w_photons. rewrite X1, X2, Y1, Y2 in *. simpl.
    destruct F as [F|(E & F)]; [left|right].
    + unfold flt in F. simpl in F. apply qlt_bool in F. auto.
    + injection E as ->. split; [reflexivity|]. unfold flt in F. simpl in F. apply qlt_bool in F. auto.
Qed.

Definition row_restated (r r' : row) : Prop :=
  w_exposure r' == t * w_exposure r /\ w_photons r' == p * w_photons r /\
  T (w_b1 r) (w_b1 r') /\ T (w_b2 r) (w_b2 r') /\ T (w_d1 r) (w_d1 r') /\ T (w_d2 r) (w_d2 r').

Lemma bright_row fs0 es0 rows r : rows_of fs0 es0 rows -> In r rows ->
  In (w_bright r) es0 /\ temporal_entry (w_bright r) /\ ~ dark_entry (w_bright r).
Proof. intros (_ & _ & _ & R) H. apply R. apply in_map. auto. Qed.

Lemma below_restated a b a' b' :
  restated fs fs' T t p (w_bright a) (w_bright a') -> restated fs fs' T t p (w_bright b) (w_bright b') ->
  (row_below a b <-> row_below a' b').
Proof.
  intros (_ & A1 & A2 & _) (_ & B1 & B2 & _). unfold row_below, w_exposure, w_photons.
  rewrite A1, A2, B1, B2. split; (intros [H|(E & H)]; [left|right; split]).
  - apply Qmult_lt_l; auto.
  - rewrite E. reflexivity.
  - apply Qmult_lt_l; auto.
  - apply Qmult_lt_l in H; auto.
  - apply Qmult_inj_l in E; auto. apply NT0.
  - apply Qmult_lt_l in H; auto.
Qed.

Lemma rows_match rows rows' : rows_of fs es rows -> rows_of fs' es' rows' ->
  Forall2 (fun r r' => restated fs fs' T t p (w_bright r) (w_bright r')) rows rows'.
Proof.
  intros RO RO'. apply (sorted_match row_below row_below); auto using below_irr, below_asym, below_restated.
  - eapply sorted_below; [exact CS|exact RO].
  - eapply sorted_below; [exact CS'|exact RO'].
  - intros r Hr. destruct (bright_row _ _ _ _ RO Hr) as (He & Te & De).
    destruct (f2_there _ _ _ RE _ He) as (e' & He' & R).
    assert (I : In e' (map w_bright rows')).
    { apply RO'. split; auto. split.
      - destruct R as (K & _). unfold temporal_entry in *. congruence.
      - rewrite <- (re_dark _ _ He He' R). auto. }
    apply in_map_iff in I. destruct I as (r' & <- & Hr'). eauto.
  - intros r' Hr'. destruct (bright_row _ _ _ _ RO' Hr') as (He' & Te & De).
    destruct (f2_back _ _ _ RE _ He') as (e & He & R).
    assert (I : In e (map w_bright rows)).
    { apply RO. split; auto. split.
      - destruct R as (K & _). unfold temporal_entry in *. congruence.
      - rewrite (re_dark _ _ He He' R). auto. }
    apply in_map_iff in I. destruct I as (r & <- & Hr). eauto.
Qed.

Lemma images_restated e e' ims ims' : restated fs fs' T t p e e' ->
  images fs (e_files e) ims -> images fs' (e_files e') ims' -> Forall2 T ims ims'.
Proof.
  intros (_ & _ & _ & R) I I'. destruct (R ims I) as (x & X & F). rewrite (images_fun _ _ _ _ I' X). auto.
Qed.

Lemma dark_match r r' : row_ok fs es r -> row_ok fs' es' r' ->
  In (w_bright r) es -> In (w_bright r') es' ->
  restated fs fs' T t p (w_bright r) (w_bright r') -> restated fs fs' T t p (w_dark r) (w_dark r').
Proof.
  intros (_ & Hd & Td & Dd & Ed & _) (_ & Hd' & Td' & Dd' & Ed' & _) Hb Hb' (_ & X & _).
  destruct (f2_back _ _ _ RE _ Hd') as (e & He & R).
  assert (e = w_dark r); [|subst; auto]. apply (apart_eq es); auto.
  pose proof (re_dark _ _ He Hd' R) as DD. destruct R as (K & R1 & R2 & _).
  destruct (cs_finite _ _ _ _ CS e He) as ((x & Fx) & (y & Fy)).
  destruct (cs_finite _ _ _ _ CS _ Hd) as ((x' & Fx') & (y' & Fy')).
  split; [unfold temporal_entry in *; congruence|]. split.
  - rewrite Fx, Fx'. unfold feq. simpl. apply Qeq_bool_iff.
    rewrite Ed' in R1. rewrite X, <- Ed, Fx, Fx' in R1. simpl in R1. symmetry in R1.
    apply Qmult_inj_l in R1; auto. apply NT0.
  - apply dark_feq; auto. apply DD. auto.
Qed.

Lemma rows_restated rows rows' : rows_of fs es rows -> rows_of fs' es' rows' ->
  Forall2 row_restated rows rows'.
Proof.
  intros RO RO'. pose proof (rows_match _ _ RO RO') as M.
  assert (A : forall r, In r rows -> row_ok fs es r /\ In (w_bright r) es).
  { intros r Hr. split; [|apply (bright_row _ _ _ _ RO Hr)].
    destruct RO as (F & _). rewrite Forall_forall in F. auto. }
  assert (A' : forall r, In r rows' -> row_ok fs' es' r /\ In (w_bright r) es').
  { intros r Hr. split; [|apply (bright_row _ _ _ _ RO' Hr)].
    destruct RO' as (F & _). rewrite Forall_forall in F. auto. }
  clear RO RO'. induction M as [|r r' rows rows' R M IH]; constructor.
  - destruct (A r (or_introl eq_refl)) as (O & Hb). destruct (A' r' (or_introl eq_refl)) as (O' & Hb').
    pose proof (dark_match _ _ O O' Hb Hb' R) as RD.
    destruct O as (I & _ & _ & _ & _ & J). destruct O' as (I' & _ & _ & _ & _ & J').
    pose proof (images_restated _ _ _ _ R I I') as F1. pose proof (images_restated _ _ _ _ RD J J') as F2.
    inversion F1 as [|? ? ? ? F11 F12]; subst. inversion F12; subst.
    inversion F2 as [|? ? ? ? F21 F22]; subst. inversion F22; subst.
    destruct R as (_ & R1 & R2 & _). unfold row_restated. auto 10.
  - apply IH; intros x Hx; [apply A|apply A']; right; auto.
Qed.

(** ** Spatial series *)
Lemma series_match s s' : spatial_ok fs h w es s -> spatial_ok fs' h' w' es' s' ->
  exists x y dk br dk' br', In x es /\ In y es /\
    images fs (e_files x) dk /\ images fs (e_files y) br /\
    Forall2 T dk dk' /\ Forall2 T br br' /\
    series_stats h w dk (sp_dark s) /\ series_stats h w br (sp_bright s) /\
    series_stats h' w' dk' (sp_dark s') /\ series_stats h' w' br' (sp_bright s').
Proof.
  intros (x & y & dk & br & Hx & Hy & Sx & Sy & Dx & Dy & _ & _ & Ix & Iy & Tx & Ty & _)
         (x' & y' & dk' & br' & Hx' & Hy' & Sx' & Sy' & Dx' & Dy' & _ & _ & Ix' & Iy' & Tx' & Ty' & _).
  destruct (cs_spatial _ _ _ _ CS) as (d & b & _ & _ & _ & _ & Dd & Db & _ & U).
  assert (X : forall a a', In a es -> spatial_entry a -> In a' es' -> spatial_entry a' ->
            (dark_entry a <-> dark_entry a') -> restated fs fs' T t p a a').
  { intros a a' Ha Sa Ha' Sa' I. destruct (f2_back _ _ _ RE a' Ha') as (z & Hz & SZ).
    assert (z = a); [|subst; auto]. rewrite <- (re_dark _ _ Hz Ha' SZ) in I.
    assert (Sz : spatial_entry z) by (destruct SZ as (K & _); unfold spatial_entry in *; congruence).
    destruct (U a Ha Sa), (U z Hz Sz); subst; auto; tauto. }
  exists x, y, dk, br, dk', br'. do 4 (split; [assumption|]).
  split; [eapply images_restated; [|exact Ix|exact Ix']; apply X; auto; tauto|].
  split; [eapply images_restated; [|exact Iy|exact Iy']; apply X; auto; tauto|]. auto.
Qed.
End Match.
