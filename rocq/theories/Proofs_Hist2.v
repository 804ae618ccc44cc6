(** High-pass filter, accumulated histograms, row compression. *)
From Coq Require Import List Bool Arith ZArith QArith Qround Reals Qreals Lia.
From Verif Require Import Base_Prelude Base_Sum Base_Xreal Model_Images Model_Data Model_Results
  Model_Hist Spec_Hist Proofs_Hist.
Import ListNotations.
Open Scope Z_scope.

(** ** ravel and sums *)
Lemma lsumz_flat_map {A} (g : nat -> list A) (v : A -> Z) n : forall s,
  lsumz (map v (flat_map g (seq s n))) = sumz n (fun i => lsumz (map v (g (s + i)%nat))).
Proof.
  induction n; intro s; [reflexivity|].
  rewrite seq_S, flat_map_app, map_app, lsumz_app, IHn. cbn [sumz flat_map app].
  rewrite app_nil_r. reflexivity.
Qed.

Lemma lsumz_map_seq (v : nat -> Z) n : lsumz (map v (seq 0 n)) = sumz n v.
Proof.
  induction n; [reflexivity|]. rewrite seq_S, map_app, lsumz_app, IHn. simpl. lia.
Qed.

Lemma lsumz_ravel {A} h w (f : nat -> nat -> A) (v : A -> Z) :
  lsumz (map v (ravel h w f)) = sumz2 h w (fun r c => v (f r c)).
Proof.
  unfold ravel, sumz2. rewrite lsumz_flat_map. apply sumz_ext. intros i _.
  rewrite map_map. apply lsumz_map_seq.
Qed.

Lemma ravel_length {A} h w (f : nat -> nat -> A) : length (ravel h w f) = (h * w)%nat.
Proof.
  unfold ravel. generalize 0%nat at 2. induction h; intro s; [reflexivity|].
  simpl. rewrite app_length, map_length, seq_length, IHh. reflexivity.
Qed.

Lemma how_many_sum {A} (f : A -> bool) l :
  Z.of_nat (how_many f l) = lsumz (map (fun x => if f x then 1 else 0) l).
Proof.
  induction l as [|x l IH]; [reflexivity|]. cbn [how_many map lsumz].
  destruct (f x); lia.
Qed.

Lemma how_many_ravel {A} h w (g : nat -> nat -> A) (f : A -> bool) :
  Z.of_nat (how_many f (ravel h w g)) = pixels_with h w (fun r c => f (g r c)).
Proof. rewrite how_many_sum, lsumz_ravel. reflexivity. Qed.

Lemma in_ravel {A} h w (f : nat -> nat -> A) x :
  In x (ravel h w f) <-> exists r c, (r < h)%nat /\ (c < w)%nat /\ f r c = x.
Proof.
  unfold ravel. rewrite in_flat_map. split.
  - intros (r & Hr & Hx). apply in_map_iff in Hx. destruct Hx as (c & E & Hc).
    apply in_seq in Hr. apply in_seq in Hc. exists r, c. repeat split; auto; lia.
  - intros (r & c & Hr & Hc & E). exists r. split; [apply in_seq; lia|].
    apply in_map_iff. exists c. split; auto. apply in_seq. lia.
Qed.

Lemma map_ravel {A B} h w (f : nat -> nat -> A) (g : A -> B) :
  map g (ravel h w f) = ravel h w (fun r c => g (f r c)).
Proof.
  unfold ravel. generalize (seq 0 h) as l. induction l; simpl; auto.
  rewrite map_app, map_map, IHl. reflexivity.
Qed.

Lemma ravel_ext {A} h w (f g : nat -> nat -> A) :
  (forall r c, (r < h)%nat -> (c < w)%nat -> f r c = g r c) -> ravel h w f = ravel h w g.
Proof.
  intro H. unfold ravel.
  assert (G : forall l, (forall r, In r l -> (r < h)%nat) ->
    flat_map (fun r => map (fun c => f r c) (seq 0 w)) l =
    flat_map (fun r => map (fun c => g r c) (seq 0 w)) l).
  { induction l; simpl; intro L; auto. f_equal; [|apply IHl; auto].
    apply map_ext_in. intros c Hc. apply in_seq in Hc. apply H; [auto|lia]. }
  apply G. intros r Hr. apply in_seq in Hr. lia.
Qed.

(** ** Convolution inside the image *)
Lemma reflect_inside n z : 0 <= z < Z.of_nat n -> reflect n z = Z.to_nat z.
Proof.
  intro H. unfold reflect. rewrite Z.mod_small by lia.
  destruct (Z.ltb_spec z (Z.of_nat n)); auto. lia.
Qed.

Lemma sumz_rev n f : sumz n f = sumz n (fun i => f (n - 1 - i)%nat).
Proof.
  assert (G : forall n f, sumz (S n) f = f 0%nat + sumz n (fun i => f (S i))).
  { clear. induction n; intro f; [simpl; lia|]. cbn [sumz] in *. rewrite IHn. lia. }
  revert f. induction n; intro f; [reflexivity|].
  rewrite G. cbn [sumz]. rewrite (IHn (fun i => f (S i))).
  replace (S n - 1 - n)%nat with 0%nat by lia.
  rewrite Z.add_comm. f_equal. apply sumz_ext. intros i Hi. f_equal. lia.
Qed.

Lemma sumz2_rev n f :
  sumz2 n n f = sumz2 n n (fun a b => f (n - 1 - a)%nat (n - 1 - b)%nat).
Proof.
  unfold sumz2. rewrite sumz_rev. apply sumz_ext. intros i _.
  rewrite (sumz_rev n (fun j => f (n - 1 - i)%nat j)). reflexivity.
Qed.

Lemma sumz_delta n k v : (k < n)%nat ->
  sumz n (fun i => if (i =? k)%nat then v else 0) = v.
Proof.
  intro H. induction n; [lia|]. cbn [sumz].
  destruct (Nat.eqb_spec n k).
  - subst. rewrite (sumz_ext k _ (fun _ => 0)).
    + rewrite sumz_const. lia.
    + intros i Hi. destruct (Nat.eqb_spec i k); auto; lia.
  - rewrite IHn by lia. lia.
Qed.

Lemma sumz_0 n : sumz n (fun _ => 0) = 0.
Proof. rewrite sumz_const. lia. Qed.

Lemma sumz2_delta n k l v : (k < n)%nat -> (l < n)%nat ->
  sumz2 n n (fun a b => if ((a =? k) && (b =? l))%nat%bool then v else 0) = v.
Proof.
  intros Hk Hl. unfold sumz2.
  rewrite (sumz_ext n _ (fun i => if (i =? k)%nat then v else 0)).
  - apply sumz_delta; auto.
  - intros i _. destruct (i =? k)%nat; cbn [andb].
    + apply sumz_delta; auto.
    + apply sumz_0.
Qed.

Lemma odd_dim dim : Nat.even dim = false -> dim = (2 * (dim / 2) + 1)%nat.
Proof.
  intro H. assert (E : Nat.odd dim = true) by (unfold Nat.odd; rewrite H; reflexivity).
  apply Nat.odd_spec in E. destruct E as [k ->].
  replace ((2 * k + 1) / 2)%nat with k; [lia|].
  rewrite (Nat.mul_comm 2 k), Nat.div_add_l by lia. change (1 / 2)%nat with 0%nat. lia.
Qed.

Lemma cropped_lt n sl r : (r < cropped n sl)%nat -> (1 <= sl /\ r + 2 * sl < n)%nat.
Proof. unfold cropped. destruct (Nat.eqb_spec sl 0); lia. Qed.

(** Any kernel, away from the border. *)
Lemma convolve_inside h w f dim kern r c :
  Nat.even dim = false -> (r < cropped h (dim / 2))%nat -> (c < cropped w (dim / 2))%nat ->
  convolve h w f dim kern (r + dim / 2) (c + dim / 2) =
  sumz2 dim dim (fun a b => kern (dim - 1 - a)%nat (dim - 1 - b)%nat * f (r + a)%nat (c + b)%nat).
Proof.
  intros Hd Hr Hc. apply odd_dim in Hd. set (sl := (dim / 2)%nat) in *.
  apply cropped_lt in Hr. apply cropped_lt in Hc.
  unfold convolve. fold sl. rewrite sumz2_rev. apply sumz2_ext. intros a b Ha Hb. f_equal.
  rewrite !reflect_inside by lia. f_equal; lia.
Qed.

Lemma convolve_ones h w f dim r c :
  Nat.even dim = false -> (r < cropped h (dim / 2))%nat -> (c < cropped w (dim / 2))%nat ->
  convolve h w f dim (fun _ _ => 1) (r + dim / 2) (c + dim / 2) = block_sum dim f r c.
Proof.
  intros. rewrite convolve_inside by auto. apply sumz2_ext. intros. lia.
Qed.

Lemma convolve_hp h w f dim centre r c :
  Nat.even dim = false -> (r < cropped h (dim / 2))%nat -> (c < cropped w (dim / 2))%nat ->
  convolve h w f dim (hp_kernel (dim / 2) centre) (r + dim / 2) (c + dim / 2) =
  (centre + 1) * f (r + dim / 2)%nat (c + dim / 2)%nat - block_sum dim f r c.
Proof.
  intros Hd Hr Hc. rewrite convolve_inside by auto.
  apply odd_dim in Hd. set (sl := (dim / 2)%nat) in *. unfold block_sum.
  rewrite (sumz2_ext dim dim _ (fun a b =>
    (if ((a =? sl) && (b =? sl))%nat%bool then (centre + 1) * f (r + sl)%nat (c + sl)%nat else 0)
    + (-1) * f (r + a)%nat (c + b)%nat)).
  - rewrite sumz2_plus, sumz2_scal, sumz2_delta by lia. lia.
  - intros a b Ha Hb. unfold hp_kernel.
    replace (dim - 1 - a =? sl)%nat with (a =? sl)%nat.
    2:{ destruct (Nat.eqb_spec a sl), (Nat.eqb_spec (dim - 1 - a) sl); auto; lia. }
    replace (dim - 1 - b =? sl)%nat with (b =? sl)%nat.
    2:{ destruct (Nat.eqb_spec b sl), (Nat.eqb_spec (dim - 1 - b) sl); auto; lia. }
    destruct (Nat.eqb_spec a sl) as [Ea|_], (Nat.eqb_spec b sl) as [Eb|_]; cbn [andb];
      try rewrite Ea; try rewrite Eb; lia.
Qed.

(** ** C38 *)
Lemma high_pass_spec im dim : Nat.odd dim = true -> (3 <= dim)%nat ->
  exists im', high_pass_filter im dim = Ok (im', Z.of_nat dim ^ 2) /\
   ih im' = (ih im - (dim - 1))%nat /\ iw im' = (iw im - (dim - 1))%nat /\
   forall r c, (r < ih im')%nat -> (c < iw im')%nat ->
     px im' r c = Z.of_nat dim ^ 2 * px im (r + (dim - 1) / 2)%nat (c + (dim - 1) / 2)%nat
                  - block_sum dim (px im) r c.
Proof.
  intros Ho H3. unfold Nat.odd in Ho. apply negb_true_iff in Ho.
  assert (E := odd_dim dim Ho).
  assert (E2 : ((dim - 1) / 2 = dim / 2)%nat).
  { rewrite E at 1. replace (2 * (dim / 2) + 1 - 1)%nat with (dim / 2 * 2)%nat by lia.
    apply Nat.div_mul. lia. }
  unfold high_pass_filter. rewrite Ho. eexists. split; [f_equal; f_equal; lia|].
  unfold crop. cbn [ih iw px].
  assert (C : forall n, cropped n (dim / 2) = (n - (dim - 1))%nat).
  { intro n. unfold cropped. destruct (Nat.eqb_spec (dim / 2) 0); lia. }
  rewrite !C. split; [reflexivity|]. split; [reflexivity|].
  intros r c Hr Hc. rewrite E2, convolve_hp; auto; try (rewrite C; auto). f_equal; lia.
Qed.

Lemma high_pass_even im dim : Nat.odd dim = false -> high_pass_filter im dim = Err ValueError.
Proof.
  intro H. unfold Nat.odd in H. apply negb_false_iff in H. unfold high_pass_filter.
  rewrite H. reflexivity.
Qed.

(** Sum of an arithmetic progression over the window. *)
Lemma sumz_arith n k : 2 * sumz n (fun i => Z.of_nat (k + i)) = Z.of_nat n * (2 * Z.of_nat k + Z.of_nat n - 1).
Proof.
  induction n; [reflexivity|]. cbn [sumz]. rewrite Z.mul_add_distr_l, IHn. nia.
Qed.

Lemma block_linear dim A B C r c :
  (forall f, f = (fun i j : nat => A + B * Z.of_nat i + C * Z.of_nat j) ->
   2 * block_sum dim f r c =
   Z.of_nat dim ^ 2 * (2 * A + B * (2 * Z.of_nat r + Z.of_nat dim - 1)
                       + C * (2 * Z.of_nat c + Z.of_nat dim - 1))).
Proof.
  intros f ->. unfold block_sum.
  unfold sumz2.
  rewrite (sumz_ext dim _ (fun a => Z.of_nat dim * (A + B * Z.of_nat (r + a))
                             + C * sumz dim (fun b => Z.of_nat (c + b)))).
  2:{ intros i _. rewrite sumz_plus, sumz_const, sumz_scal. reflexivity. }
  rewrite sumz_plus, sumz_const, sumz_scal.
  rewrite sumz_plus, sumz_const, sumz_scal.
  assert (E1 := sumz_arith dim r). assert (E2 := sumz_arith dim c).
  set (S1 := sumz dim (fun i => Z.of_nat (r + i))) in *.
  set (S2 := sumz dim (fun i => Z.of_nat (c + i))) in *.
  replace (2 * (Z.of_nat dim * (Z.of_nat dim * A + B * S1) + Z.of_nat dim * (C * S2)))
    with (2 * Z.of_nat dim * Z.of_nat dim * A + B * Z.of_nat dim * (2 * S1)
          + C * Z.of_nat dim * (2 * S2)) by ring.
  rewrite E1, E2. ring.
Qed.

Lemma high_pass_linear_zero h w A B C dim :
  Nat.odd dim = true -> (3 <= dim)%nat ->
  exists im' m,
    high_pass_filter (mkImg h w (fun i j => A + B * Z.of_nat i + C * Z.of_nat j)) dim = Ok (im', m) /\
    forall r c, (r < ih im')%nat -> (c < iw im')%nat -> px im' r c = 0.
Proof.
  intros Ho H3.
  destruct (high_pass_spec (mkImg h w (fun i j => A + B * Z.of_nat i + C * Z.of_nat j)) dim Ho H3)
    as (im' & E & _ & _ & P).
  exists im', (Z.of_nat dim ^ 2). split; auto. intros r c Hr Hc. rewrite P by auto.
  cbn [px].
  assert (L := block_linear dim A B C r c _ eq_refl).
  unfold Nat.odd in Ho. apply negb_true_iff in Ho. apply odd_dim in Ho.
  set (s := (dim / 2)%nat) in *.
  replace ((dim - 1) / 2)%nat with s.
  2:{ rewrite Ho. replace (2 * s + 1 - 1)%nat with (s * 2)%nat by lia. rewrite Nat.div_mul; lia. }
  replace (Z.of_nat (r + s)) with (Z.of_nat r + Z.of_nat s) by lia.
  replace (Z.of_nat (c + s)) with (Z.of_nat c + Z.of_nat s) by lia.
  assert (D : Z.of_nat dim = 2 * Z.of_nat s + 1) by lia.
  enough (2 * block_sum dim (fun i j => A + B * Z.of_nat i + C * Z.of_nat j) r c =
          2 * (Z.of_nat dim ^ 2 * (A + B * (Z.of_nat r + Z.of_nat s) + C * (Z.of_nat c + Z.of_nat s)))).
  { lia. }
  rewrite L. replace (Z.of_nat dim - 1) with (2 * Z.of_nat s) by lia.
  replace (2 * Z.of_nat r + Z.of_nat dim - 1) with (2 * (Z.of_nat r + Z.of_nat s)) by lia.
  replace (2 * Z.of_nat c + Z.of_nat dim - 1) with (2 * (Z.of_nat c + Z.of_nat s)) by lia.
  ring.
Qed.

Lemma high_pass_additive h w f g dim a b k :
  Nat.odd dim = true -> (3 <= dim)%nat ->
  exists i1 i2 i3 m,
    high_pass_filter (mkImg h w f) dim = Ok (i1, m) /\
    high_pass_filter (mkImg h w g) dim = Ok (i2, m) /\
    high_pass_filter (mkImg h w (fun r c => a * f r c + b * g r c + k)) dim = Ok (i3, m) /\
    forall r c, (r < h - (dim - 1))%nat -> (c < w - (dim - 1))%nat ->
      px i3 r c = a * px i1 r c + b * px i2 r c.
Proof.
  intros Ho H3.
  destruct (high_pass_spec (mkImg h w f) dim Ho H3) as (i1 & E1 & A1 & B1 & P1).
  destruct (high_pass_spec (mkImg h w g) dim Ho H3) as (i2 & E2 & A2 & B2 & P2).
  destruct (high_pass_spec (mkImg h w (fun r c => a * f r c + b * g r c + k)) dim Ho H3)
    as (i3 & E3 & A3 & B3 & P3).
  exists i1, i2, i3, (Z.of_nat dim ^ 2). repeat (split; [assumption|]).
  cbn [ih iw px] in *. intros r c Hr Hc. rewrite P1, P2, P3 by lia.
  unfold block_sum.
  rewrite !sumz2_plus, !sumz2_scal.
  assert (K : sumz2 dim dim (fun _ _ => k) = Z.of_nat dim ^ 2 * k).
  { unfold sumz2. rewrite (sumz_ext dim _ (fun _ => Z.of_nat dim * k)) by (intros; apply sumz_const).
    rewrite sumz_const. ring. }
  rewrite K. ring.
Qed.

(** ** C39 *)
Definition weight (m : mimage) (r c : nat) : Z := if m_mask m r c then 0 else 1.

Lemma visible_ravel h w (f : nat -> nat -> Z) (mask : nat -> nat -> bool) x :
  In x (visible (ravel h w (fun r c => (f r c, mask r c)))) <->
  exists r c, (r < h)%nat /\ (c < w)%nat /\ mask r c = false /\ f r c = x.
Proof.
  unfold visible. rewrite in_map_iff. split.
  - intros ((v, b) & E & H). apply filter_In in H. destruct H as [H N].
    apply in_ravel in H. destruct H as (r & c & Hr & Hc & E').
    inversion E'; subst. cbn in *. exists r, c. repeat split; auto.
    apply negb_true_iff in N. auto.
  - intros (r & c & Hr & Hc & M & E). exists (f r c, mask r c). split; auto.
    apply filter_In. split; [apply in_ravel; eauto|]. cbn. rewrite M. reflexivity.
Qed.

Lemma masked_spec m dim :
  Nat.odd dim = true -> (3 <= dim)%nat ->
  let h := ih (m_img m) in let w := iw (m_img m) in
  let s := ((dim - 1) / 2)%nat in
  let inside := fun r c => (r + (dim - 1) < h)%nat /\ (c + (dim - 1) < w)%nat in
  let seen := fun r c => inside r c /\ m_mask m (r + s)%nat (c + s)%nat = false in
  let n_at := block_sum dim (fun i j => if m_mask m i j then 0 else 1) in
  (exists r c, seen r c) ->
  (forall n, (forall r c, seen r c -> n_at r c = n) ->
     exists m', high_pass_filter_masked m dim = Ok (m', Some n) /\
       ih (m_img m') = (h - (dim - 1))%nat /\ iw (m_img m') = (w - (dim - 1))%nat /\
       forall r c, inside r c ->
         m_mask m' r c = m_mask m (r + s)%nat (c + s)%nat /\
         (m_mask m' r c = false ->
          px (m_img m') r c =
          n * px (m_img m) (r + s)%nat (c + s)%nat
          - block_sum dim (fun i j => if m_mask m i j then 0 else px (m_img m) i j) r c)) /\
  ((exists r c r' c', seen r c /\ seen r' c' /\ n_at r c <> n_at r' c') ->
     high_pass_filter_masked m dim = Err ValueError).
Proof.
  intros Ho H3 h w s inside seen n_at (r0 & c0 & [I0 S0]).
  unfold Nat.odd in Ho. apply negb_true_iff in Ho. assert (E := odd_dim dim Ho).
  assert (E2 : (s = dim / 2)%nat).
  { unfold s. rewrite E at 1. replace (2 * (dim / 2) + 1 - 1)%nat with (dim / 2 * 2)%nat by lia.
    apply Nat.div_mul. lia. }
  assert (C : forall n, cropped n (dim / 2) = (n - (dim - 1))%nat).
  { intro n. unfold cropped. destruct (Nat.eqb_spec (dim / 2) 0); lia. }
  unfold high_pass_filter_masked. rewrite Ho. fold h w.
  assert (Hh : (cropped h (dim / 2) =? 0)%nat = false) by (apply Nat.eqb_neq; rewrite C; unfold inside in I0; lia).
  assert (Hw : (cropped w (dim / 2) =? 0)%nat = false) by (apply Nat.eqb_neq; rewrite C; unfold inside in I0; lia).
  rewrite Hh, Hw. cbn [orb].
  set (vals := visible _).
  assert (V : forall x, In x vals <-> exists r c, seen r c /\ n_at r c = x).
  { intro x. unfold vals. rewrite visible_ravel. split.
    - intros (r & c & Hr & Hc & M & Ex). exists r, c. split.
      + split; [|rewrite E2; auto]. rewrite C in Hr, Hc. unfold inside. lia.
      + rewrite <- Ex. symmetry. apply convolve_ones; auto.
    - intros (r & c & [I S] & Ex). exists r, c. unfold inside in I.
      assert (Hr : (r < cropped h (dim / 2))%nat) by (rewrite C; lia).
      assert (Hc : (c < cropped w (dim / 2))%nat) by (rewrite C; lia).
      repeat split; auto; [rewrite <- E2; auto|]. rewrite <- Ex. apply convolve_ones; auto. }
  clearbody vals.
  assert (NE : vals <> []).
  { intro Ev. assert (A : In (n_at r0 c0) vals) by (apply V; exists r0, c0; repeat split; auto; apply I0).
    rewrite Ev in A. destruct A. }
  destruct (zmin_spec vals NE) as [Mi1 Mi2]. destruct (zmax_spec vals NE) as [Ma1 Ma2].
  split.
  - intros n Hn.
    assert (Emin : zmin vals = n). { apply V in Mi1. destruct Mi1 as (r & c & S & <-). auto. }
    assert (Emax : zmax vals = n). { apply V in Ma1. destruct Ma1 as (r & c & S & <-). auto. }
    rewrite Emin, Emax, Z.eqb_refl. destruct vals as [|v vals]; [congruence|].
    cbn [negb]. eexists. split; [f_equal; f_equal; f_equal; lia|].
    cbn [m_img m_mask crop ih iw px]. rewrite !C. split; [auto|]. split; [auto|].
    intros r c I. rewrite E2. split; [reflexivity|]. intro M. unfold inside in I.
    rewrite convolve_hp by (auto; rewrite C; lia).
    unfold filled0 at 1. rewrite M. replace (n - 1 + 1) with n by lia. reflexivity.
  - intros (r & c & r' & c' & S & S' & D).
    assert (zmax vals <> zmin vals).
    { intro Eq.
      assert (A : forall x, In x vals -> x = zmin vals).
      { intros x Hx. specialize (Mi2 x Hx). specialize (Ma2 x Hx). lia. }
      apply D. rewrite (A (n_at r c)), (A (n_at r' c')); auto; apply V; eauto. }
    destruct vals as [|v vals]; [congruence|].
    destruct (Z.eqb_spec (zmax (v :: vals)) (zmin (v :: vals))); [congruence|]. reflexivity.
Qed.

(** The values under the mask do not matter. *)
Lemma masked_noninterference m1 m2 dim :
  shape (m_img m1) = shape (m_img m2) ->
  (forall r c, m_mask m1 r c = m_mask m2 r c) ->
  (forall r c, m_mask m1 r c = false -> px (m_img m1) r c = px (m_img m2) r c) ->
  match high_pass_filter_masked m1 dim, high_pass_filter_masked m2 dim with
  | Ok (a, na), Ok (b, nb) =>
      na = nb /\ shape (m_img a) = shape (m_img b) /\
      (forall r c, m_mask a r c = m_mask b r c /\ px (m_img a) r c = px (m_img b) r c)
  | Err e1, Err e2 => e1 = e2
  | _, _ => False
  end.
Proof.
  destruct m1 as [[h w f] k1]. destruct m2 as [[h2 w2 g] k2]. unfold shape. cbn [m_img m_mask ih iw px].
  intros Es Em Ep. inversion Es; subst h2 w2.
  unfold high_pass_filter_masked. cbn [m_img m_mask ih iw px].
  destruct (Nat.even dim); [reflexivity|]. set (sl := (dim / 2)%nat).
  assert (EV : forall h' w',
    visible (ravel h' w' (fun r c =>
       (convolve h w (fun r c => if k1 r c then 0 else 1) dim (fun _ _ => 1) (r + sl) (c + sl),
        k1 (r + sl)%nat (c + sl)%nat))) =
    visible (ravel h' w' (fun r c =>
       (convolve h w (fun r c => if k2 r c then 0 else 1) dim (fun _ _ => 1) (r + sl) (c + sl),
        k2 (r + sl)%nat (c + sl)%nat)))).
  { intros h' w'. f_equal. apply ravel_ext. intros r c _ _. rewrite Em. f_equal.
    unfold convolve. apply sumz2_ext. intros a b _ _. rewrite Em. reflexivity. }
  rewrite (EV (cropped h sl) (cropped w sl)). clear EV.
  set (vals := visible _). clearbody vals.
  assert (EP : forall centre r c,
    convolve h w (filled0 (mkMI (mkImg h w f) k1)) dim (hp_kernel sl centre) r c =
    convolve h w (filled0 (mkMI (mkImg h w g) k2)) dim (hp_kernel sl centre) r c).
  { intros. unfold convolve. apply sumz2_ext. intros a b _ _. f_equal.
    unfold filled0. cbn [m_mask m_img px]. rewrite <- Em.
    destruct (k1 _ _) eqn:K; auto. }
  destruct (_ || _); [reflexivity|].
  destruct vals as [|v vals].
  - cbn [crop m_img m_mask px ih iw]. repeat split; auto.
  - destruct (negb _); [reflexivity|].
    cbn [crop m_img m_mask px ih iw]. repeat split; auto.
Qed.
