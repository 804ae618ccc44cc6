(** From descriptor entries to the arrays handed to Results1288. *)
From Coq Require Import Ascii String List Bool Arith ZArith QArith Lia Permutation Sorting.Sorted.
From Verif Require Import Base_Prelude Base_Str Base_Num Base_Order Base_Sum Model_Path Model_Images
  Model_Loader Model_Data Model_Parser Model_Results Model_Emva Spec_Parser Spec_Images Spec_Loader
  Spec_Data Spec_Results Spec_Emva Proofs_Parser Proofs_Parser2 Proofs_Images Proofs_Loader
  Proofs_Data Proofs_Data2.
Import ListNotations.
Open Scope nat_scope.
Local Arguments feq : simpl never.
Local Arguments flt : simpl never.

Lemma found_nil fs f : found fs [] f = fs f.
Proof. unfold found, path_join. simpl. unfold path_join2. destruct (starts_with_sep f); auto. Qed.

Lemma series_images fs files ims : series fs [] files ims <-> images fs files ims.
Proof.
  unfold series, images. split; intro H; induction H; constructor; auto;
    [rewrite found_nil in H|rewrite found_nil]; auto.
Qed.

Lemma images_fun fs files a b : images fs files a -> images fs files b -> a = b.
Proof. rewrite <- !series_images. apply series_fun. Qed.

(** ** Entries of a dictionary *)
Lemma in_entries k m e : In e (entries_of k m) <->
  e_kind e = k /\ exists inner, In (e_exposure e, inner) m /\ In (e_photons e, e_files e) inner.
Proof.
  unfold entries_of. rewrite in_flat_map. split.
  - intros ((t & inner) & Hm & He). simpl in He. apply in_map_iff in He.
    destruct He as ((p & f) & <- & Hi). simpl. split; auto. exists inner. auto.
  - intros (Hk & inner & Hm & Hi). exists (e_exposure e, inner). split; auto. simpl.
    apply in_map_iff. exists (e_photons e, e_files e). split; auto. destruct e; simpl in *; congruence.
Qed.

Lemma fop_app_l {A} (R : A -> A -> Prop) a b : ForallOrdPairs R (a ++ b) ->
  ForallOrdPairs R a /\ ForallOrdPairs R b.
Proof.
  induction a as [|x a IH]; simpl; intro H; [split; auto; constructor|].
  inversion H as [|? ? F G]; subst. apply IH in G. rewrite Forall_app in F.
  split; [constructor|]; tauto.
Qed.

Lemma fop_in {A} (R : A -> A -> Prop) l x y : ForallOrdPairs R l -> In x l -> In y l ->
  x = y \/ R x y \/ R y x.
Proof.
  induction 1 as [|a l F G IH]; simpl; [tauto|]. rewrite Forall_forall in F.
  intros [->|Hx] [->|Hy]; auto.
Qed.

Section Dict.
Context (k : kind) (m : exposure_dict).
Hypothesis DI : dict_inv m.
Hypothesis NC : ForallOrdPairs (fun x y => ~ clash x y) (entries_of k m).
Hypothesis FN : forall e, In e (entries_of k m) -> finite (e_exposure e) /\ finite (e_photons e).

Lemma finite_not_nan x : finite x -> not_nan x.
Proof. intros (q & ->). discriminate. Qed.

Lemma exposure_has_entry t inner : In (t, inner) m ->
  exists p f, In (p, f) inner /\ In (mkEntry k t p f) (entries_of k m).
Proof.
  intro H. destruct DI as (_ & DI2). rewrite Forall_forall in DI2.
  destruct (DI2 _ H) as (_ & _ & N). simpl in N. destruct inner as [|(p & f) inner]; [congruence|].
  exists p, f. split; [left; auto|]. apply in_entries. simpl. split; auto.
  exists ((p, f) :: inner). split; auto. left. auto.
Qed.

Lemma dict_well_keyed : well_keyed m.
Proof.
  split; [split|].
  - rewrite Forall_forall. intros t Ht. apply in_map_iff in Ht. destruct Ht as ((t' & inner) & <- & H).
    destruct (exposure_has_entry _ _ H) as (p & f & _ & He). apply FN in He. apply finite_not_nan, He.
  - destruct DI as (D & _). unfold distinct. clear - D.
    induction D as [|x m F G IH]; simpl; constructor; auto.
    rewrite Forall_forall in *. intros t Ht. apply in_map_iff in Ht. destruct Ht as (y & <- & H). auto.
  - rewrite Forall_forall. intros (t & inner) H. simpl.
    assert (E : forall p f, In (p, f) inner -> In (mkEntry k t p f) (entries_of k m)).
    { intros p f Hp. apply in_entries. simpl. eauto. }
    split.
    + rewrite Forall_forall. intros p Hp. apply in_map_iff in Hp. destruct Hp as ((p' & f) & <- & Hp).
      apply finite_not_nan, (FN _ (E _ _ Hp)).
    + destruct (exposure_has_entry _ _ H) as (p0 & f0 & _ & He). apply FN in He.
      destruct He as (Ft & _). simpl in Ft. apply finite_not_nan in Ft.
      apply in_split in H. destruct H as (a & b & ->). unfold entries_of in NC.
      rewrite flat_map_app in NC. apply fop_app_l in NC. destruct NC as (_ & N2). simpl in N2.
      apply fop_app_l in N2. destruct N2 as (N2 & _). clear - N2 Ft.
      induction inner as [|(p & f) inner IH]; simpl in *; constructor.
      * inversion N2 as [|? ? F G]; subst. rewrite Forall_forall in *. intros q Hq.
        apply in_map_iff in Hq. destruct Hq as ((q' & g) & <- & Hq). simpl.
        destruct (feq p q') eqn:X; auto. exfalso. apply (F (mkEntry k t q' g)).
        { apply in_map_iff. exists (q', g). auto. }
        split; [auto|]. simpl. split; [apply feq_refl; auto|auto].
      * inversion N2; subst. apply IH. auto.
Qed.

(** Equal exposures are the same exposure. *)
Lemma same_exposure t a t' b : In (t, a) m -> In (t', b) m -> t = t' -> a = b.
Proof.
  intros H G <-. destruct dict_well_keyed as ((N & D) & _). clear - H G N D.
  induction m as [|(x & i) l IH]; simpl in *; [tauto|].
  inversion N as [|? ? N1 N2]; subst. apply distinct_cons in D. destruct D as (D1 & D2).
  rewrite Forall_forall in D1.
  destruct H as [H|H], G as [G|G]; try congruence; auto.
  - injection H as -> ->. apply (in_map fst) in G. apply D1 in G. simpl in G.
    rewrite feq_refl in G; [discriminate|auto].
  - injection G as -> ->. apply (in_map fst) in H. apply D1 in H. simpl in H.
    rewrite feq_refl in H; [discriminate|auto].
Qed.

Lemma same_place e e' : In e (entries_of k m) -> In e' (entries_of k m) ->
  e_exposure e = e_exposure e' -> feq (e_photons e) (e_photons e') = true -> e = e'.
Proof.
  intros H G E F. destruct (fop_in _ _ _ _ NC H G) as [X|[X|X]]; auto; exfalso; apply X.
  - pose proof (FN _ G) as (Fe & _).
    apply in_entries in H, G. split; [destruct H, G; congruence|]. split; auto. rewrite E.
    apply feq_refl, finite_not_nan, Fe.
  - pose proof (FN _ H) as (Fe & _).
    apply in_entries in H, G. split; [destruct H, G; congruence|]. rewrite <- E. split.
    + apply feq_refl, finite_not_nan, Fe.
    + rewrite feq_comm. auto.
Qed.

Lemma entries_nodup : NoDup (entries_of k m).
Proof.
  assert (R : forall e, In e (entries_of k m) -> clash e e).
  { intros e He. pose proof (FN _ He) as (A & B). split; auto.
    split; apply feq_refl, finite_not_nan; auto. }
  pose proof NC as N. revert N R. generalize (entries_of k m) as l.
  induction 1 as [|e l F G IH]; intro R; constructor.
  - intro H. rewrite Forall_forall in F. apply (F e H). apply R. left. auto.
  - apply IH. intros x Hx. apply R. right. auto.
Qed.

(** An exposure with a dark and a bright entry is complete. *)
Lemma exposure_complete t inner :
  In (t, inner) m ->
  (exists d, In d (entries_of k m) /\ dark_entry d /\ e_exposure d = t) ->
  (exists b, In b (entries_of k m) /\ ~ dark_entry b /\ e_exposure b = t) ->
  dark_and_bright inner.
Proof.
  intros H (d & Hd & Dd & Ed) (b & Hb & Db & Eb).
  apply in_entries in Hd, Hb. destruct Hd as (_ & i1 & Hm1 & Hi1). destruct Hb as (_ & i2 & Hm2 & Hi2).
  rewrite Ed in Hm1. rewrite Eb in Hm2.
  rewrite (same_exposure _ _ _ _ Hm1 H eq_refl) in Hi1.
  rewrite (same_exposure _ _ _ _ Hm2 H eq_refl) in Hi2.
  split.
  - exists (e_photons d). split; [apply (in_map fst) in Hi1; auto|exact Dd].
  - destruct inner as [|x [|y l]]; simpl in *; [tauto| |lia].
    exfalso. destruct Hi1 as [->|[]], Hi2 as [E|[]]. apply Db. unfold dark_entry.
      injection E as E _. rewrite <- E. exact Dd.
Qed.

(** Only one exposure. *)
Lemma one_exposure :
  (forall e e', In e (entries_of k m) -> In e' (entries_of k m) -> e_exposure e = e_exposure e') ->
  length m <= 1.
Proof.
  intro H. destruct m as [|(t & a) [|(t' & b) l]] eqn:Em; simpl; try lia. exfalso.
  rewrite <- Em in *.
  destruct (exposure_has_entry t a) as (p & f & _ & H1). { rewrite Em. left. auto. }
  destruct (exposure_has_entry t' b) as (p' & f' & _ & H2). { rewrite Em. right. left. auto. }
  pose proof (H _ _ H1 H2) as E. simpl in E. subst t'.
  destruct dict_well_keyed as ((N & D) & _). rewrite Em in N, D. simpl in N, D.
  apply distinct_cons in D. destruct D as (D1 & _). inversion D1 as [|? ? X _]; subst.
  inversion N; subst. rewrite feq_refl in X; [discriminate|auto].
Qed.

(** With one bright entry per exposure an exposure has two entries. *)
Lemma two_entries t inner :
  In (t, inner) m -> dark_and_bright inner ->
  (forall e e', In e (entries_of k m) -> In e' (entries_of k m) ->
     ~ dark_entry e -> ~ dark_entry e' -> e_exposure e = e_exposure e' -> e = e') ->
  length inner = 2.
Proof.
  intros H (_ & L) U. destruct inner as [|(p1 & f1) [|(p2 & f2) [|(p3 & f3) l]]] eqn:Ei;
    simpl in L; try lia; auto. exfalso. rewrite <- Ei in *.
  set (e1 := mkEntry k t p1 f1). set (e2 := mkEntry k t p2 f2). set (e3 := mkEntry k t p3 f3).
  assert (H1 : In e1 (entries_of k m)).
  { apply in_entries. simpl. split; auto. exists inner. split; auto. rewrite Ei. left. auto. }
  assert (H2 : In e2 (entries_of k m)).
  { apply in_entries. simpl. split; auto. exists inner. split; auto. rewrite Ei. right. left. auto. }
  assert (H3 : In e3 (entries_of k m)).
  { apply in_entries. simpl. split; auto. exists inner. split; auto. rewrite Ei. right. right. left. auto. }
  destruct dict_well_keyed as (_ & K). rewrite Forall_forall in K. destruct (K _ H) as (N & D).
  simpl in N, D. rewrite Ei in N, D. simpl in N, D.
  inversion N as [|? ? N1 N']; subst. inversion N' as [|? ? N2 N'']; subst.
  inversion N'' as [|? ? N3 _]; subst.
  apply distinct_cons in D. destruct D as (D1 & D). apply distinct_cons in D. destruct D as (D2 & _).
  inversion D1 as [|? ? X12 D1']; subst. inversion D1' as [|? ? X13 _]; subst.
  inversion D2 as [|? ? X23 _]; subst.
  assert (dd : forall x y, is_dark x -> is_dark y -> feq x y = true).
  { unfold is_dark. intros x y A B. rewrite feq_comm in A. eapply feq_tr; eauto. }
  assert (de : forall x, is_dark x \/ ~ is_dark x).
  { intro x. unfold is_dark. destruct (feq fzero x); auto. }
  assert (U' : forall a b, In a (entries_of k m) -> In b (entries_of k m) -> e_exposure a = e_exposure b ->
     ~ dark_entry a -> ~ dark_entry b -> feq (e_photons a) (e_photons b) = true).
  { intros a b Ha Hb E A B. rewrite (U a b Ha Hb A B E). apply feq_refl, finite_not_nan, (FN _ Hb). }
  destruct (de p1) as [A|A], (de p2) as [B|B], (de p3) as [C|C];
    try (rewrite (dd _ _ A B) in X12; discriminate);
    try (rewrite (dd _ _ A C) in X13; discriminate);
    try (rewrite (dd _ _ B C) in X23; discriminate);
    first [pose proof (U' e1 e2 H1 H2 eq_refl A B) as Y; simpl in Y; congruence
          |pose proof (U' e1 e3 H1 H3 eq_refl A C) as Y; simpl in Y; congruence
          |pose proof (U' e2 e3 H2 H3 eq_refl B C) as Y; simpl in Y; congruence].
Qed.
End Dict.

(** ** What the loader made of the entries *)
Lemma well_keyed_perm {V} (a b : dict pyfloat (dict pyfloat V)) :
  Permutation a b -> well_keyed a -> well_keyed b.
Proof.
  intros P (K & F). split; [eapply numeric_perm; eauto|]. eapply Permutation_Forall; eauto.
Qed.

Lemma numeric_keys_map {V W} (a : dict pyfloat V) (b : dict pyfloat W) :
  map fst a = map fst b -> numeric_keys a -> numeric_keys b.
Proof. unfold numeric_keys. intros ->. auto. Qed.

Section Held.
Context {D : Type} (build : int_imgs -> D) (fs : fsys) (path : str).

Definition held (p : pyfloat * list str) (y : pyfloat * D) : Prop :=
  fst y = fst p /\
  exists ims r, series fs path (snd p) ims /\ get_int_imgs ims = Ok r /\ snd y = build r.

Lemma held_keys inner data : Forall2 held inner data -> map fst data = map fst inner.
Proof. induction 1 as [|x y l l' (E & _) H IH]; simpl; congruence. Qed.

Lemma holds_keys es data : holds build fs path es data -> map fst data = map fst es.
Proof. unfold holds. induction 1 as [|x y l l' (E & _) H IH]; simpl; [reflexivity|]. f_equal; auto. Qed.

Lemma holds_well_keyed es data : holds build fs path es data -> well_keyed es -> well_keyed data.
Proof.
  intros H (K & F). split.
  - eapply numeric_keys_map; [|exact K]. symmetry. eapply holds_keys; eauto.
  - clear K. induction H as [|x y l l' (E & G) H IH]; constructor.
    + inversion F; subst. eapply numeric_keys_map; [|eassumption]. symmetry.
      apply held_keys. exact G.
    + inversion F; subst. auto.
Qed.

Lemma f2_in_r {A B} (R : A -> B -> Prop) l l' y : Forall2 R l l' -> In y l' -> exists x, In x l /\ R x y.
Proof.
  induction 1 as [|a b l l' H F IH]; simpl; [tauto|]. intros [->|Hy]; eauto.
  destruct (IH Hy) as (x & Hx & Rx). eauto.
Qed.

Lemma holds_in es data t inner : holds build fs path es data -> In (t, inner) data ->
  exists inner0, In (t, inner0) es /\ Forall2 held inner0 inner.
Proof.
  intros H I. destruct (f2_in_r _ _ _ _ H I) as ((t' & i0) & Hin & E & F). simpl in E, F. subst t'.
  exists i0. auto.
Qed.

Lemma holds_lengths es data (P : nat -> Prop) : holds build fs path es data ->
  Forall (fun e => P (length (snd e))) es -> Forall (fun e => P (length (snd e))) data.
Proof.
  intros H F. rewrite Forall_forall in *. intros (t & inner) Hi.
  destruct (holds_in _ _ _ _ H Hi) as (i0 & Hin & G). specialize (F _ Hin). simpl in *.
  rewrite <- (Forall2_length' _ _ _ G). auto.
Qed.
End Held.

Lemma holds_nonneg {D} (build : int_imgs -> D) fs path es data :
  holds build fs path es data ->
  (forall t inner p f, In (t, inner) es -> In (p, f) inner -> flt p fzero = false) ->
  nonneg_photons data.
Proof.
  intros H G. unfold nonneg_photons, nonneg_counts. rewrite Forall_forall. intros (t & inner) Hi.
  destruct (holds_in _ _ _ _ _ _ _ H Hi) as (i0 & Hin & F). rewrite Forall_forall. simpl.
  intros (p & d) Hp. destruct (f2_in_r _ _ _ _ F Hp) as ((p' & f) & Hf & E & _). simpl in *. subst p'.
  eapply G; eauto.
Qed.

(** A bright point and its entry. *)
Definition point_entry (fs : fsys) (x : point tdata) (e : entry) : Prop :=
  pt_t x = e_exposure e /\ pt_p x = e_photons e /\
  exists ims r, images fs (e_files e) ims /\ get_int_imgs ims = Ok r /\ pt_d x = temporal_summary r.

Definition brightb (e : entry) : bool := negb (feq fzero (e_photons e)).
Lemma brightb_iff e : brightb e = true <-> ~ dark_entry e.
Proof. unfold brightb, dark_entry, is_dark. destruct (feq fzero (e_photons e)); simpl; split; congruence. Qed.

Lemma points_entries fs es data : holds temporal_summary fs [] es data ->
  Forall2 (point_entry fs) (bright_points data) (filter brightb (entries_of Temporal es)).
Proof.
  unfold holds, bright_points, entries_of.
  induction 1 as [|(t & inner) (t' & pts) l l' (E & G) H IH]; simpl; [constructor|].
  rewrite filter_app. apply Forall2_app; auto. simpl in E, G. subst t'. clear - G.
  unfold bright_of.
  induction G as [|(p & f) (p' & x) l l' (E & ims & r & S & I & X) G IH]; simpl; [constructor|].
  simpl in E, S, X. subst p'. unfold brightb at 1. simpl. destruct (negb (feq fzero p)); simpl; auto.
  constructor; auto. split; [reflexivity|]. split; [reflexivity|]. simpl. exists ims, r.
  rewrite series_images in S. auto.
Qed.

Lemma dark_entries fs es data t d : holds temporal_summary fs [] es data -> dark_at data t d ->
  exists e, In e (entries_of Temporal es) /\ e_exposure e = t /\ dark_entry e /\
    exists ims r, images fs (e_files e) ims /\ get_int_imgs ims = Ok r /\ d = temporal_summary r.
Proof.
  intros H (inner & z & Hm & Hi & Dz). destruct (holds_in _ _ _ _ _ _ _ H Hm) as (i0 & Hin & F).
  destruct (f2_in_r _ _ _ _ F Hi) as ((p & f) & Hf & E & ims & r & S & I & X). simpl in E, S, X. subst z.
  exists (mkEntry Temporal t p f). split; [apply in_entries; simpl; eauto|].
  split; [reflexivity|]. split; [exact Dz|]. exists ims, r. rewrite series_images in S. auto.
Qed.

(** ** One row *)
Lemma f2_two {A B} (R : A -> B -> Prop) l m : Forall2 R l m -> length l = 2 -> exists a b, m = [a; b].
Proof.
  intros H L. destruct H as [|x a l m H1 H]; [discriminate|]. destruct H as [|y b l m H2 H]; [discriminate|].
  destruct H; [eauto|discriminate].
Qed.

Lemma pair_good h w a b : 2 <= h * w /\ (Z.of_nat (h * w) <= 2 ^ 29)%Z ->
  good_image h w a -> good_image h w b -> pair_ok h w a b.
Proof.
  intros (S1 & S2) (A1 & A2 & A3) (B1 & B2 & B3). unfold pair_ok. repeat split; auto; try lia.
  constructor; [exact A3|]. constructor; [exact B3|constructor].
Qed.

Section Rows.
Context (fs : fsys) (h w : nat) (es : list entry).
Hypothesis CS : complete_set fs h w es.
Hypothesis K2 : forall e, In e es -> temporal_entry e -> length (e_files e) = 2.

Lemma entry_figures e ims r : In e es -> temporal_entry e ->
  images fs (e_files e) ims -> get_int_imgs ims = Ok r ->
  exists a b, ims = [a; b] /\
    (td_mean (h * w) (temporal_summary r) == stack_mean h w [a; b])%Q /\
    (td_s2 (h * w) (temporal_summary r) == pair_variance h w a b)%Q.
Proof.
  intros He Ht I G. destruct (cs_files _ _ _ _ CS e He) as (_ & ims' & I' & F).
  assert (ims' = ims) by (eapply images_fun; eauto). subst ims'.
  destruct (f2_two _ _ _ I (K2 _ He Ht)) as (a & b & ->). exists a, b. split; auto.
  inversion F as [|? ? Fa F']; subst. inversion F' as [|? ? Fb _]; subst.
  destruct (pair_estimators h w a b (pair_good _ _ _ _ (cs_size _ _ _ _ CS) Fa Fb)) as (r' & E & M & V).
  assert (r' = r) by congruence. subst. auto.
Qed.

(** Points, entries and dark data in line give the rows. *)
Lemma rows_exist pts bs darks :
  Forall2 (point_entry fs) pts bs ->
  Forall2 (fun x d => exists e, In e es /\ temporal_entry e /\ e_exposure e = pt_t x /\ dark_entry e /\
     exists ims r, images fs (e_files e) ims /\ get_int_imgs ims = Ok r /\ d = temporal_summary r) pts darks ->
  (forall b, In b bs -> In b es /\ temporal_entry b) ->
  exists rows, map w_bright rows = bs /\ Forall (row_ok fs es) rows /\
    map (fun x => pt_t x) pts = map (fun r => e_exposure (w_bright r)) rows /\
    map (fun x => pt_p x) pts = map (fun r => e_photons (w_bright r)) rows /\
    Forall2 Qeq (map (fun x => td_mean (h * w) (pt_d x)) pts) (map (w_mean h w) rows) /\
    Forall2 Qeq (map (fun x => td_s2 (h * w) (pt_d x)) pts) (map (w_var h w) rows) /\
    Forall2 Qeq (map (td_mean (h * w)) darks) (map (w_dark_mean h w) rows) /\
    Forall2 Qeq (map (td_s2 (h * w)) darks) (map (w_dark_var h w) rows).
Proof.
  intros H. revert darks. induction H as [|x b pts bs (Et & Ep & ims & r & I & G & X) H IH];
    intros darks HD Hb.
  - inversion HD; subst. exists []. simpl. repeat split; constructor.
  - inversion HD as [|? d ? darks' (e & He & Te & Ee & De & imd & rd & Id & Gd & Xd) HD']; subst.
    destruct (IH darks' HD') as (rows & R1 & R2 & R3 & R4 & R5 & R6 & R7 & R8).
    { intros b' Hb'. apply Hb. right. auto. }
    destruct (Hb b ltac:(left; auto)) as (Hbe & Tb).
    destruct (entry_figures b ims r Hbe Tb I G) as (b1 & b2 & -> & Bm & Bv).
    destruct (entry_figures e imd rd He Te Id Gd) as (d1 & d2 & -> & Dm & Dv).
    exists (mkRow b b1 b2 e d1 d2 :: rows). simpl. split; [congruence|].
    split. { constructor; auto. unfold row_ok. simpl. repeat split; auto. congruence. }
    split; [congruence|]. split; [congruence|]. rewrite X.
    repeat split; constructor; auto.
Qed.
End Rows.

Lemma rows_sorted (pts : list (point tdata)) rows :
  map (fun x => pt_t x) pts = map (fun r => e_exposure (w_bright r)) rows ->
  map (fun x => pt_p x) pts = map (fun r => e_photons (w_bright r)) rows ->
  StronglySorted point_lt pts -> StronglySorted row_lt rows.
Proof.
  revert rows. induction pts as [|x pts IH]; intros [|r rows] E F S; simpl in *; try discriminate;
    constructor; inversion S as [|? ? S1 S2]; subst; injection E as E1 E2; injection F as F1 F2.
  - apply IH; auto.
  - clear IH S S1. revert rows E2 F2. induction S2 as [|y pts P S2 IH]; intros [|r' rows] E2 F2;
      simpl in *; try discriminate; constructor; injection E2 as E3 E4; injection F2 as F3 F4; auto.
    unfold row_lt. rewrite <- E1, <- E3, <- F1, <- F3. exact P.
Qed.
