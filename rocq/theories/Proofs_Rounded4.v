(** The whole temporal arrays. *)
From Coq Require Import List Bool Arith ZArith QArith Qabs Lia.
From Verif Require Import Base_Prelude Base_Num Base_Order Base_Sum Base_Float Spec_Num
  Model_Images Model_Loader Model_Data Model_Hist Model_Rounded Spec_Images
  Spec_Data Spec_Rounded Proofs_Data2 Proofs_Rounded3.
Import ListNotations.

Section Lift.
Context (n : nat) (PM PV : pyfloat -> Q -> Prop).

Definition agree (d : tdata) (f : ftdata) : Prop :=
  PM (mean_f n f) (td_mean n d) /\ PV (s2_f n f) (td_s2 n d).

Lemma table2_keys {A B} (R : A -> B -> Prop) d e : table2 R d e -> dkeys d = dkeys e.
Proof. induction 1 as [|x y d e (E & _) _ IH]; simpl; congruence. Qed.

Lemma table2_get {A B} (R : A -> B -> Prop) d e k : table2 R d e ->
  (exists x y, dget feq k d = Some x /\ dget feq k e = Some y /\ R x y) \/
  (dget feq k d = None /\ dget feq k e = None).
Proof.
  induction 1 as [|[k1 x] [k2 y] d e (E & HR) _ IH]; [right; split; reflexivity|].
  cbn [fst snd] in *. subst k2. simpl. destruct (feq k k1); [left; eauto|]. exact IH.
Qed.

Lemma mapM_out2 {K A B} (R : A -> B -> Prop) (f : K -> res A) (g : K -> res B) ks :
  (forall k, out2 R (f k) (g k)) -> out2 (Forall2 R) (mapM f ks) (mapM g ks).
Proof.
  intro H. induction ks as [|k ks IH]; [right; exists [], []; repeat split; constructor|].
  simpl. destruct (H k) as [(e & -> & ->)|(a & b & -> & -> & HR)]; [left; exists e; auto|].
  cbn [bind]. destruct IH as [(e & -> & ->)|(l & m & -> & -> & HF)]; [left; exists e; auto|].
  right. exists (a :: l), (b :: m). repeat split; auto.
Qed.

Definition point2 (x : pyfloat * Q * Q) (y : pyfloat * pyfloat * pyfloat) : Prop :=
  fst (fst x) = fst (fst y) /\ PM (snd (fst y)) (snd (fst x)) /\ PV (snd y) (snd x).

Definition row2 (x : Q * Q * list (pyfloat * Q * Q))
    (y : pyfloat * pyfloat * list (pyfloat * pyfloat * pyfloat)) : Prop :=
  PM (fst (fst y)) (fst (fst x)) /\ PV (snd (fst y)) (snd (fst x)) /\ Forall2 point2 (snd x) (snd y).

Lemma exposure2 data fdata t : table2 (table2 agree) data fdata ->
  out2 row2 (temporal_exposure n data t) (temporal_exposure_f n fdata t).
Proof.
  intro H. unfold temporal_exposure, temporal_exposure_f.
  destruct (table2_get _ _ _ t H) as [(x & y & -> & -> & T)|(-> & ->)]; [|left; exists KeyError; auto].
  cbn [of_option bind]. rewrite <- (table2_keys _ _ _ T).
  destruct (negb _); [left; exists ValueError; auto|].
  destruct (length _ <? 2)%nat; [left; exists ValueError; auto|].
  destruct (table2_get _ _ _ fzero T) as [(d & f & -> & -> & A)|(-> & ->)]; [|left; exists KeyError; auto].
  cbn [of_option bind].
  assert (M := mapM_out2 point2
    (fun p => d' <- of_option KeyError (dget feq p x) ;; Ok (p, td_mean n d', td_s2 n d'))
    (fun p => d' <- of_option KeyError (dget feq p y) ;; Ok (p, mean_f n d', s2_f n d'))
    (tl (py_sorted (dkeys x)))).
  destruct M as [(e & -> & ->)|(l & m & -> & -> & HF)].
  - intro p. destruct (table2_get _ _ _ p T) as [(d' & f' & -> & -> & A1 & A2)|(-> & ->)];
      [|left; exists KeyError; auto].
    right. do 2 eexists. split; [reflexivity|]. split; [reflexivity|]. split; auto.
  - left. exists e. auto.
  - right. do 2 eexists. split; [reflexivity|]. split; [reflexivity|].
    destruct A. split; [|split]; auto.
Qed.

Definition arrays2 (T : temporal) (F : ftemporal) : Prop :=
  ftp_texp F = tp_texp T /\ ftp_up F = tp_up T /\
  Forall2 PM (ftp_uy F) (tp_uy T) /\ Forall2 PV (ftp_s2y F) (tp_s2y T) /\
  Forall2 PM (ftp_uydark F) (tp_uydark T) /\ Forall2 PV (ftp_s2ydark F) (tp_s2ydark T).

Lemma Forall2_map2 {A B C D} (R : A -> B -> Prop) (S : D -> C -> Prop) (f : A -> C) (g : B -> D) l m :
  (forall a b, R a b -> S (g b) (f a)) -> Forall2 R l m -> Forall2 S (map g m) (map f l).
Proof. intros H. induction 1; simpl; constructor; auto. Qed.

Lemma flat2 rows frows : Forall2 row2 rows frows ->
  Forall2 point2 (flat_map (fun r => snd r) rows) (flat_map (fun r => snd r) frows).
Proof.
  induction 1 as [|x y l m (_ & _ & H) _ IH]; simpl; [constructor|]. apply Forall2_app; auto.
Qed.

Lemma spread2 {A B} (R : A -> B -> Prop) l xs ys : Forall2 R xs ys ->
  Forall2 R (spread l xs) (spread l ys).
Proof.
  destruct 1; simpl; [constructor|]. induction l; simpl; constructor; auto.
Qed.

Lemma temporal2 data fdata : table2 (table2 agree) data fdata ->
  out2 arrays2 (get_temporal n data) (get_temporal_f n fdata).
Proof.
  intro H. unfold get_temporal, get_temporal_f. rewrite <- (table2_keys _ _ _ H).
  destruct (mapM_out2 row2 _ _ (py_sorted (dkeys data)) (fun t => exposure2 data fdata t H))
    as [(e & -> & ->)|(rows & frows & -> & -> & R)]; [left; exists e; auto|].
  cbn [bind]. right. pose proof (flat2 _ _ R) as F.
  set (pts := flat_map (fun r => snd r) rows) in *. set (fpts := flat_map (fun r => snd r) frows) in *.
  assert (U : map (fun x => fst (fst x)) fpts = map (fun x => fst (fst x)) pts).
  { clear - F. induction F as [|x y l m (E & _) _ IH]; simpl; congruence. }
  assert (Y : Forall2 PM (map (fun x => snd (fst x)) fpts) (map (fun x => snd (fst x)) pts)).
  { apply (Forall2_map2 point2); auto. intros a b (_ & K & _). exact K. }
  assert (S : Forall2 PV (map (fun x => snd x) fpts) (map (fun x => snd x) pts)).
  { apply (Forall2_map2 point2); auto. intros a b (_ & _ & K). exact K. }
  assert (Yd : Forall2 PM (map (fun r => fst (fst r)) frows) (map (fun r => fst (fst r)) rows)).
  { apply (Forall2_map2 row2); auto. intros a b (K & _). exact K. }
  assert (Sd : Forall2 PV (map (fun r => snd (fst r)) frows) (map (fun r => snd (fst r)) rows)).
  { apply (Forall2_map2 row2); auto. intros a b (_ & K & _). exact K. }
  destruct (length (py_sorted (dkeys data)) =? 1)%nat; do 2 eexists; (split; [reflexivity|]);
    (split; [reflexivity|]); unfold arrays2; cbn; rewrite ?U;
    repeat split; auto; apply spread2; auto.
Qed.
End Lift.

(** ** Data sets of pairs *)
Lemma reads_as_eq q q' x : (q == q')%Q -> reads_as q x -> reads_as q' x.
Proof.
  intro E. apply Qreals.Qeq_eqR in E. unfold reads_as. rewrite E. auto.
Qed.

Lemma within_eq e q q' x : (q == q')%Q -> within e q x -> within e q' x.
Proof. intros E (v & -> & H). exists v. split; auto. rewrite <- E. exact H. Qed.

Lemma entries_agree order b h w A B d f : sound_order order -> pair_bits b h w A B ->
  exact_entry (A, B) d -> float_entry order (A, B) f ->
  agree (h * w) near_mean (near_var b) d f.
Proof.
  intros O H (r & E & ->) F. unfold float_entry in F. cbn [fst snd] in *.
  destruct (pair_estimators h w A B (pair_bits_ok _ _ _ _ _ H)) as (r' & E' & M & S).
  rewrite E in E'. injection E' as <-.
  destruct (mean_rounded order b h w A B O H) as (f' & F' & RM). rewrite F in F'. injection F' as <-.
  destruct (variance_rounded order b h w A B O H) as (f' & F' & RV). rewrite F in F'. injection F' as <-.
  split; [eapply reads_as_eq|eapply within_eq]; eauto; symmetry; auto.
Qed.

Lemma table2_trans {A B C} (K : A -> Prop) (R : A -> B -> Prop) (S : A -> C -> Prop) (T : B -> C -> Prop) d e f :
  (forall a b c, K a -> R a b -> S a c -> T b c) ->
  Forall (fun x => K (snd x)) d -> table2 R d e -> table2 S d f -> table2 T e f.
Proof.
  intros H HK E. revert f HK. induction E as [|x y d e (E1 & E2) _ IH]; intros f HK F; inversion F; subst.
  - constructor.
  - inversion HK; subst. destruct H2 as (G1 & G2). constructor; [|apply IH; auto].
    split; [congruence|]. eapply H; eauto.
Qed.

Lemma temporal_arrays order b h w pairs data fdata : sound_order order ->
  every (fun p => pair_bits b h w (fst p) (snd p)) pairs ->
  table2 (table2 exact_entry) pairs data -> table2 (table2 (float_entry order)) pairs fdata ->
  out2 (arrays2 near_mean (near_var b)) (get_temporal (h * w) data) (get_temporal_f (h * w) fdata).
Proof.
  intros O K E F. apply temporal2.
  apply (table2_trans (fun d => Forall (fun x => pair_bits b h w (fst (snd x)) (snd (snd x))) d)
           (table2 exact_entry) (table2 (float_entry order)) _ pairs); auto.
  intros dd de df HK HE HF.
  apply (table2_trans (fun p => pair_bits b h w (fst p) (snd p)) exact_entry (float_entry order) _ dd); auto.
  intros [A B] d f HP. apply entries_agree; auto.
Qed.
