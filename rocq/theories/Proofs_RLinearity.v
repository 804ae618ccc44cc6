(** The extremes reported, when they are reported, and ranges with one photon level. *)
From Coq Require Import List Bool Arith ZArith QArith Lia Lqa.
From Verif Require Import Base_Prelude Base_Num Base_Order Base_Sum Base_Float Model_Images Model_Data Model_Rounded Model_Results
  Model_RoundedIndex Model_RoundedLinearity Spec_Results Spec_RoundedLinearity Proofs_Rounded5 Proofs_Results Proofs_Results2 Proofs_Results3.
Import ListNotations.
Open Scope Q_scope.

Lemma at_most_refl a : a <> FNan -> at_most a a.
Proof.
  intro N. destruct (flt_total a a N N) as [H|[H|H]]; [left|right|left]; exact H.
Qed.

Lemma at_most_trans a b c : at_most a b -> at_most b c -> at_most a c.
Proof.
  intros [H|H] [G|G].
  - left. eapply flt_trans; eauto.
  - left. rewrite <- (feq_flt_r _ _ _ G). exact H.
  - left. rewrite (feq_flt_l _ _ _ H). exact G.
  - right. destruct a as [x|n|], b as [y|m|], c as [z|k|]; simpl in *; try discriminate; auto.
    + rewrite Qeq_bool_iff in *. rewrite H. exact G.
    + destruct n, m, k; auto; discriminate.
Qed.

Lemma least_step f : (forall a b, a = FNan \/ b = FNan -> f a b = FNan) -> 
  forall l x, In FNan (x :: l) -> fold_left f l x = FNan.
Proof.
  intros H. assert (G : forall l, fold_left f l FNan = FNan).
  { induction l as [|y l IH]; simpl; auto. rewrite H by auto. exact IH. }
  induction l as [|y l IH]; intros x I; simpl.
  - destruct I as [I|[]]. exact I.
  - destruct I as [->|[->|I]].
    + rewrite H by auto. apply G.
    + rewrite H by auto. apply G.
    + apply IH. right. exact I.
Qed.

Lemma best_step f (R : pyfloat -> pyfloat -> Prop) :
  (forall a, a <> FNan -> R a a) -> (forall a b c, R a b -> R b c -> R a c) ->
  (forall a b, a <> FNan -> b <> FNan -> (f a b = a \/ f a b = b) /\ R (f a b) a /\ R (f a b) b) ->
  forall l x, ~ In FNan (x :: l) -> In (fold_left f l x) (x :: l) /\ forall d, In d (x :: l) -> R (fold_left f l x) d.
Proof.
  intros H1 H2 H3. induction l as [|y l IH]; intros x N; simpl.
  - split; [auto|]. intros d [<-|[]]. apply H1. intros ->. apply N. left. reflexivity.
  - assert (Nx : x <> FNan) by (intros ->; apply N; left; auto).
    assert (Ny : y <> FNan) by (intros ->; apply N; right; left; auto).
    destruct (H3 x y Nx Ny) as (E & Rx & Ry).
    assert (N' : ~ In FNan (f x y :: l)).
    { intros [I|I]; [destruct E; congruence|]. apply N. right. right. exact I. }
    destruct (IH _ N') as (A & B). split.
    + destruct A as [A|A]; [|auto]. rewrite <- A. destruct E as [->| ->]; auto.
    + intros d [<-|[<-|I]].
      * eapply H2; [apply B; left; reflexivity|exact Rx].
      * eapply H2; [apply B; left; reflexivity|exact Ry].
      * apply B. right. exact I.
Qed.

Lemma not_less a b : a <> FNan -> b <> FNan -> flt a b = false -> at_most b a.
Proof.
  intros A B H. destruct (flt_total a b A B) as [G|[G|G]]; [congruence| |left; exact G].
  right. destruct a as [x|n|], b as [y|m|]; simpl in *; try discriminate; auto.
  - rewrite Qeq_bool_iff in *. symmetry. exact G.
  - destruct n, m; auto.
Qed.

Lemma fmin_pick a b : a <> FNan -> b <> FNan ->
  (fminimum a b = a \/ fminimum a b = b) /\ at_most (fminimum a b) a /\ at_most (fminimum a b) b.
Proof.
  intros A B. assert (E : fminimum a b = if flt b a then b else a) by (destruct a, b; try congruence; reflexivity).
  rewrite E. destruct (flt b a) eqn:F.
  - split; [auto|]. split; [left; exact F|apply at_most_refl; auto].
  - split; [auto|]. split; [apply at_most_refl; auto|apply not_less; auto].
Qed.

Lemma fmax_pick a b : a <> FNan -> b <> FNan ->
  (fmaximum a b = a \/ fmaximum a b = b) /\ at_most a (fmaximum a b) /\ at_most b (fmaximum a b).
Proof.
  intros A B. assert (E : fmaximum a b = if flt a b then b else a) by (destruct a, b; try congruence; reflexivity).
  rewrite E. destruct (flt a b) eqn:F.
  - split; [auto|]. split; [left; exact F|apply at_most_refl; auto].
  - split; [auto|]. split; [apply at_most_refl; auto|apply not_less; auto].
Qed.

Lemma fextremes l mn mx : fextreme fminimum l = Ok mn -> fextreme fmaximum l = Ok mx -> extremes l mn mx.
Proof.
  destruct l as [|x l]; [discriminate|]. cbn [fextreme]. intros [= <-] [= <-].
  assert (D : In FNan (x :: l) \/ ~ In FNan (x :: l)).
  { generalize (x :: l). clear. induction l as [|y l IH]; [right; auto|].
    destruct IH as [IH|IH]; [left; right; exact IH|]. destruct y; [right|right|left; left; reflexivity];
      intros [I|I]; try discriminate; auto. }
  destruct D as [D|D]; [left|right].
  - split; [exact D|]. split; apply least_step; auto; intros [| |] [| |] [?|?]; try discriminate; reflexivity.
  - split; [exact D|].
    destruct (best_step fminimum at_most at_most_refl at_most_trans fmin_pick l x D) as (A & B).
    destruct (best_step fmaximum (fun a b => at_most b a)) with (l := l) (x := x) as (A' & B'); auto.
    + exact at_most_refl.
    + intros a b c H G. eapply at_most_trans; eauto.
    + exact fmax_pick.
Qed.

Lemma slice_between {A} lo hi (l : list A) : slice lo (hi + 1) l = between lo hi l.
Proof. reflexivity. Qed.

Lemma linearity_extremes order o l : flinearity order o = Ok l ->
  exists lo hi, findex_linearity_min o = Ok lo /\ findex_linearity_max o = Ok hi /\ (lo <= hi)%nat /\
    extremes (between lo hi (fl_dev l)) (fl_min l) (fl_max l).
Proof.
  unfold flinearity. destruct (fsignal o) as [Y|e]; cbn [bind]; [|discriminate].
  destruct (findex_linearity_max o) as [hi|e]; cbn [bind]; [|discriminate].
  destruct (findex_linearity_min o) as [lo|e]; cbn [bind]; [|discriminate].
  destruct (fnp_pairs (slice _ _ _) _) as [P_|e]; cbn [bind]; [|discriminate].
  destruct (fnp_pairs _ Y) as [P|e]; cbn [bind]; [|discriminate]. cbv zeta.
  set (dev := map _ P).
  destruct (fextreme fminimum _) as [mn|e] eqn:E1; cbn [bind]; [|discriminate].
  destruct (fextreme fmaximum _) as [mx|e] eqn:E2; cbn [bind]; [|discriminate].
  intros [= <-]. exists lo, hi. cbn [fl_dev fl_min fl_max]. do 2 (split; [reflexivity|]).
  split; [|apply fextremes; auto].
  destruct (le_lt_dec lo hi) as [L|L]; [exact L|]. exfalso. unfold slice in E1.
  replace (hi + 1 - lo)%nat with 0%nat in E1 by lia. discriminate E1.
Qed.

Lemma fargwhere_bound f l i : In i (fargwhere f l) -> (i < length l)%nat.
Proof.
  unfold fargwhere. intro I. apply in_map_iff in I. destruct I as ([j y] & <- & I). apply filter_In in I.
  destruct I as (I & _). apply in_combine_l in I. apply in_seq in I. cbn. lia.
Qed.

Lemma findex_bounds o Y lo hi : fsignal o = Ok Y -> findex_linearity_min o = Ok lo -> findex_linearity_max o = Ok hi ->
  (lo < length Y)%nat /\ (hi < length Y)%nat.
Proof.
  intros EY H1 H2. unfold findex_linearity_min in H1. unfold findex_linearity_max in H2.
  rewrite EY in H1, H2. cbn [bind] in *.
  apply bind_ok in H1. destruct H1 as (z & _ & H1). apply bind_ok in H1. destruct H1 as (y & _ & H1).
  apply bind_ok in H2. destruct H2 as (z' & _ & H2). apply bind_ok in H2. destruct H2 as (y' & _ & H2).
  apply min_index_iff in H1. apply max_index_iff in H2. destruct H1 as (H1 & _), H2 as (H2 & _).
  split; eapply fargwhere_bound; eauto.
Qed.

Lemma slice_len {A} lo hi (l : list A) : (lo < length l)%nat -> (hi < length l)%nat ->
  length (slice lo (hi + 1) l) = (hi + 1 - lo)%nat.
Proof. intros. unfold slice. rewrite firstn_length, skipn_length. lia. Qed.

Lemma fextreme_nonempty f l : l <> [] -> exists r, fextreme f l = Ok r.
Proof. destruct l; [congruence|]. eexists. reflexivity. Qed.

Lemma linearity_reported order o Y lo hi : fsignal o = Ok Y -> length (ftp_up (fo_t o)) = length Y ->
  findex_linearity_min o = Ok lo -> findex_linearity_max o = Ok hi ->
  ((lo <= hi)%nat -> exists l, flinearity order o = Ok l /\ length (fl_dev l) = length Y) /\
  ((hi < lo)%nat -> flinearity order o = Err ValueError).
Proof.
  intros EY L E1 E2. destruct (findex_bounds o Y lo hi EY E1 E2) as (B1 & B2).
  unfold flinearity. rewrite EY, E1, E2. cbn [bind]. unfold fnp_pairs at 1 3.
  rewrite !slice_len by lia. rewrite Nat.eqb_refl. cbn [bind]. unfold fnp_pairs. rewrite L, Nat.eqb_refl. cbn [bind]. cbv zeta.
  set (dev := map _ (combine (ftp_up (fo_t o)) Y)).
  assert (LD : length dev = length Y) by (unfold dev; rewrite map_length, combine_length; lia).
  split; intro C.
  - assert (N : slice lo (hi + 1) dev <> []).
    { intro E. apply (f_equal (@length _)) in E. rewrite slice_len in E by lia. simpl in E. lia. }
    destruct (fextreme_nonempty fminimum _ N) as (mn & ->). destruct (fextreme_nonempty fmaximum _ N) as (mx & ->).
    cbn [bind]. eexists. split; [reflexivity|]. exact LD.
  - unfold slice. replace (hi + 1 - lo)%nat with 0%nat by lia. reflexivity.
Qed.

(** One photon level: the two normal equations are the same. *)
Lemma lsumq_scale {A} (f g : A -> Q) c (l : list A) : (forall p, In p l -> f p == c * g p) ->
  lsumq (map f l) == c * lsumq (map g l).
Proof.
  induction l as [|p l IH]; intro H; [cbn; ring|]. cbn [map lsumq]. rewrite (H p) by (left; auto).
  rewrite IH by (intros; apply H; right; auto). ring.
Qed.

Lemma relative_fit_level P x : Forall (fun p => fst p == x) P -> relative_fit P (map snd P) = None.
Proof.
  intro H. rewrite Forall_forall in H. unfold relative_fit.
  destruct (existsb _ (map snd P)) eqn:E; [reflexivity|]. cbv zeta.
  assert (NZ : forall p, In p P -> ~ snd p == 0).
  { intros p I Z. apply Qeq_bool_iff in Z. assert (T : existsb (fun y => Qeq_bool y 0) (map snd P) = true).
    { apply existsb_exists. exists (snd p). split; [apply in_map; exact I|exact Z]. } congruence. }
  set (g := fun p : Q * Q => 1 / (snd p * snd p)).
  assert (A : lsumq (map (fun p => fst p / (snd p * snd p)) P) == x * lsumq (map g P)).
  { apply lsumq_scale. intros p I. unfold g. rewrite (H p I). field. apply NZ. exact I. }
  assert (B : lsumq (map (fun p => fst p / snd p * (fst p / snd p)) P) == x * x * lsumq (map g P)).
  { apply lsumq_scale. intros p I. unfold g. rewrite (H p I). field. apply NZ. exact I. }
  assert (C : lsumq (map (fun y => 1 / (y * y)) (map snd P)) == lsumq (map g P)) by (rewrite map_map; reflexivity).
  unfold qdiv_o at 1.
  match goal with |- context [Qeq_bool ?d 0] => assert (D : d == 0) by (rewrite A, B, C; ring) end.
  apply Qeq_bool_iff in D. rewrite D. reflexivity.
Qed.

Lemma all_none l : l <> [] -> (forall x, In x l -> x = None) -> forall f, np_extreme f l = Ok None.
Proof.
  intros N H f. destruct l as [|x l]; [congruence|]. rewrite (H x) by (left; auto). reflexivity.
Qed.

Lemma map_snd_combine {A B} (l : list A) (l' : list B) : length l = length l' -> map snd (combine l l') = l'.
Proof.
  revert l'. induction l as [|x l IH]; intros [|y l']; simpl; intro H; try discriminate; auto. rewrite IH; auto.
Qed.

Lemma one_level_exact o n lo hi x : shaped o n -> index_linearity_min o = Ok lo -> index_linearity_max o = Ok hi ->
  (lo <= hi)%nat -> (forall i, in_range lo hi i -> photons o i == x) ->
  exists l, linearity o = Ok l /\ lin_fit l = None /\ LE_min o = Ok None /\ LE_max o = Ok None.
Proof.
  intros SH E1 E2 L H. destruct (linearity_bounds o n lo hi SH E1 E2) as (L1 & L2).
  assert (HU : length (r_up (o_t o)) = n) by (destruct SH as (_ & HU & _); auto).
  assert (HL : length (map (sig o) (seq 0 n)) = n) by (rewrite map_length, seq_length; auto).
  assert (G : exists l, linearity o = Ok l /\ lin_fit l = None /\ lin_min l = None /\ lin_max l = None).
  { unfold linearity. rewrite (signal_shaped o n SH), E1, E2. cbn [bind].
    set (Ys := slice lo (hi + 1) (map (sig o) (seq 0 n))).
    set (Xs := slice lo (hi + 1) (r_up (o_t o))).
    assert (LY : length Ys = (hi + 1 - lo)%nat) by (apply slice_len; lia).
    assert (LX : length Xs = (hi + 1 - lo)%nat) by (apply slice_len; lia).
    rewrite np_pairs_eq by congruence. cbn [bind].
    assert (F : relative_fit (combine Xs Ys) Ys = None).
    { rewrite <- (map_snd_combine Xs Ys) at 2 by congruence. apply (relative_fit_level _ x).
      apply Forall_forall. intros [a b] I. apply in_combine_l in I. cbn [fst].
      destruct (In_nth _ _ 0 I) as (j & Hj & <-). unfold Xs. rewrite slice_nth by lia. apply H. unfold in_range. lia. }
    rewrite F. rewrite np_pairs_eq by congruence. cbn [bind]. cbv zeta.
    set (dev := map (fun _ : Q * Q => None) _).
    assert (LD : length dev = n) by (unfold dev; rewrite map_length, combine_length; lia).
    assert (N : slice lo (hi + 1) dev <> []).
    { intro E. apply (f_equal (@length _)) in E. rewrite slice_len in E by lia. simpl in E. lia. }
    assert (A : forall v, In v (slice lo (hi + 1) dev) -> v = None).
    { intros v I. 
      assert (J : In v dev).
      { rewrite <- (firstn_skipn lo dev). apply in_or_app. right.
        rewrite <- (firstn_skipn (hi + 1 - lo) (skipn lo dev)). apply in_or_app. left. exact I. }
      clear I. rename J into I. apply in_map_iff in I. destruct I as (? & <- & _). reflexivity. }
    rewrite !(all_none _ N A). cbn [bind]. eexists. split; [reflexivity|]. repeat split; reflexivity. }
  destruct G as (l & E & F & A & B). exists l. unfold LE_min, LE_max. rewrite E. cbn [bind]. rewrite A, B. auto.
Qed.

(** A single point in the range: no additions are made, so their order does not matter. *)
Lemma sum_one order x : sound_sums order -> np_sum order [x] = x.
Proof.
  intro S. specialize (S 1%nat ltac:(lia)). unfold adds_all in S. cbn [np_sum length].
  destruct (order 1%nat) as [i|a b].
  - cbn [leaves seq] in S. apply Permutation.Permutation_sym, Permutation.Permutation_length_1_inv in S. injection S as ->. reflexivity.
  - exfalso. apply Permutation.Permutation_length in S. cbn [leaves seq length] in S. rewrite app_length in S.
    assert (N : forall t, (1 <= length (leaves t))%nat) by (induction t; cbn [leaves length]; [lia|rewrite app_length; lia]).
    pose proof (N a). pose proof (N b). lia.
Qed.

Lemma linearity_one order order' o lo : sound_sums order -> sound_sums order' ->
  findex_linearity_min o = Ok lo -> findex_linearity_max o = Ok lo ->
  (forall Y, fsignal o = Ok Y -> length (ftp_up (fo_t o)) = length Y) ->
  flinearity order o = flinearity order' o.
Proof.
  intros S S' E1 E2 H. unfold flinearity. destruct (fsignal o) as [Y|e] eqn:EY; cbn [bind]; [|reflexivity].
  specialize (H Y eq_refl). destruct (findex_bounds o Y lo lo EY E1 E2) as (B & _).
  rewrite E1, E2. cbn [bind].
  assert (LX : length (slice lo (lo + 1) (ftp_up (fo_t o))) = 1%nat) by (rewrite slice_len; lia).
  assert (LY : length (slice lo (lo + 1) Y) = 1%nat) by (rewrite slice_len; lia).
  destruct (slice lo (lo + 1) (ftp_up (fo_t o))) as [|x [|]] eqn:EX; try discriminate LX.
  destruct (slice lo (lo + 1) Y) as [|y [|]]; try discriminate LY.
  assert (F : fit_sums order [(x, y)] [y] = fit_sums order' [(x, y)] [y]).
  { unfold fit_sums. cbn [map]. rewrite !(sum_one order) by exact S. rewrite !(sum_one order') by exact S'. reflexivity. }
  unfold fnp_pairs at 1 3. cbn [length Nat.eqb combine bind]. rewrite F. reflexivity.
Qed.

(** Additions from left to right. *)
Definition chain_sums (n : nat) : stree := from_left (n - 1).
Lemma chain_sound : sound_sums chain_sums.
Proof.
  intros n H. unfold adds_all, chain_sums. rewrite from_left_leaves. replace (S (n - 1)) with n by lia. reflexivity.
Qed.
