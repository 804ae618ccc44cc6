(** Proofs for C91, C92. *)
From Coq Require Import List Bool Arith ZArith QArith Lia Lqa Setoid Morphisms.
From Verif Require Import Base_Prelude Base_Sum Model_Images Model_Loader Model_Data
  Spec_Images Spec_Data Spec_Chance Proofs_Data Proofs_Data2.
Import ListNotations.
Open Scope Q_scope.

Lemma sumq_app a b f : sumq (a + b) f == sumq a f + sumq b (fun i => f (a + i)%nat).
Proof.
  induction b; [rewrite Nat.add_0_r; simpl; ring|].
  rewrite Nat.add_succ_r. cbn [sumq]. rewrite IHb. ring.
Qed.

(** A double sum as one sum over row-major positions. *)
Lemma sumq2_flat h w f : (0 < w)%nat ->
  sumq2 h w f == sumq (h * w) (fun k => f (k / w)%nat (k mod w)%nat).
Proof.
  intros W. unfold sumq2. induction h as [|h IH]; [reflexivity|].
  cbn [sumq]. rewrite IH. replace (S h * w)%nat with (h * w + w)%nat by lia.
  rewrite sumq_app. apply Qplus_comp; [reflexivity|].
  apply sumq_ext. intros i Hi.
  rewrite Nat.div_add_l by lia. rewrite (Nat.div_small i w Hi), Nat.add_0_r.
  rewrite Nat.add_comm, Nat.mod_add by lia. rewrite (Nat.mod_small i w Hi). reflexivity.
Qed.

(** ** Expected values *)
Section Law.
Variable P : law.
Hypothesis HP : probabilities P.

Lemma exp_ext X Y : (forall s, possible P s -> X s == Y s) -> expected P X == expected P Y.
Proof.
  intros H. unfold expected. apply lsumq_ext. intros (p, s) Hin. cbn [fst snd].
  rewrite H; [reflexivity|]. exists p. exact Hin.
Qed.
Lemma exp_plus X Y : expected P (fun s => X s + Y s) == expected P X + expected P Y.
Proof.
  unfold expected. rewrite <- lsumq_plus. apply lsumq_ext. intros (p, s) _. cbn [fst snd]. ring.
Qed.
Lemma exp_scal k X : expected P (fun s => k * X s) == k * expected P X.
Proof.
  unfold expected. rewrite <- lsumq_scal. apply lsumq_ext. intros (p, s) _. cbn [fst snd]. ring.
Qed.
Lemma exp_minus X Y : expected P (fun s => X s - Y s) == expected P X - expected P Y.
Proof.
  transitivity (expected P (fun s => X s + (-1) * Y s)).
  - apply exp_ext. intros. ring.
  - rewrite exp_plus, exp_scal. ring.
Qed.
Lemma exp_const k : expected P (fun _ => k) == k.
Proof.
  unfold expected. transitivity (k * lsumq (map fst P)).
  - rewrite <- lsumq_scal. apply lsumq_ext. intros. ring.
  - rewrite (proj2 HP). ring.
Qed.
Lemma exp_div k X : expected P (fun s => X s / k) == expected P X / k.
Proof.
  transitivity (expected P (fun s => / k * X s)); [apply exp_ext; intros; unfold Qdiv; ring|].
  rewrite exp_scal. unfold Qdiv. ring.
Qed.
Lemma exp_sum n X : expected P (fun s => sumq n (fun i => X i s)) == sumq n (fun i => expected P (X i)).
Proof.
  induction n; cbn [sumq]; [apply exp_const|]. rewrite exp_plus, IHn. reflexivity.
Qed.
Lemma exp_sum2 h w X : expected P (fun s => sumq2 h w (fun i j => X i j s)) ==
  sumq2 h w (fun i j => expected P (X i j)).
Proof.
  unfold sumq2. rewrite exp_sum. apply sumq_ext. intros i _. apply exp_sum.
Qed.

Lemma cov_moments X Y : covariance P X Y == expected P (fun s => X s * Y s) - expected P X * expected P Y.
Proof.
  unfold covariance. set (a := expected P X). set (b := expected P Y).
  transitivity (expected P (fun s => X s * Y s - (b * X s + (a * Y s - a * b)))).
  - apply exp_ext. intros. ring.
  - rewrite exp_minus, exp_plus, exp_minus, !exp_scal, exp_const. fold a b. ring.
Qed.
Lemma cov_ext X X' Y Y' : (forall s, possible P s -> X s == X' s) -> (forall s, possible P s -> Y s == Y' s) ->
  covariance P X Y == covariance P X' Y'.
Proof.
  intros HX HY. rewrite !cov_moments. rewrite (exp_ext X X' HX), (exp_ext Y Y' HY).
  rewrite (exp_ext (fun s => X s * Y s) (fun s => X' s * Y' s)); [reflexivity|].
  intros s Hs. rewrite (HX s Hs), (HY s Hs). reflexivity.
Qed.
Lemma cov_sum_l n X Y : covariance P (fun s => sumq n (fun i => X i s)) Y == sumq n (fun i => covariance P (X i) Y).
Proof.
  rewrite cov_moments, exp_sum.
  rewrite (exp_ext _ (fun s => sumq n (fun i => X i s * Y s))); [|intros; symmetry; apply sumq_scal_r].
  rewrite exp_sum, <- sumq_scal_r, <- sumq_minus. apply sumq_ext. intros i _. symmetry. apply cov_moments.
Qed.
Lemma cov_comm X Y : covariance P X Y == covariance P Y X.
Proof. rewrite !cov_moments. rewrite (exp_ext (fun s => X s * Y s) (fun s => Y s * X s)); [ring|intros; ring]. Qed.
Lemma cov_sum n m X Y :
  covariance P (fun s => sumq n (fun i => X i s)) (fun s => sumq m (fun j => Y j s)) ==
  sumq n (fun i => sumq m (fun j => covariance P (X i) (Y j))).
Proof.
  rewrite cov_sum_l. apply sumq_ext. intros i _. rewrite cov_comm, cov_sum_l.
  apply sumq_ext. intros j _. apply cov_comm.
Qed.
Lemma cov_div X Y a b : covariance P (fun s => X s / a) (fun s => Y s / b) == covariance P X Y / (a * b).
Proof.
  rewrite !cov_moments, !exp_div.
  rewrite (exp_ext (fun s => X s / a * (Y s / b)) (fun s => X s * Y s / (a * b))).
  - rewrite exp_div. unfold Qdiv. rewrite !Qinv_mult_distr. ring.
  - intros. unfold Qdiv. rewrite Qinv_mult_distr. ring.
Qed.
Lemma cov_minus X X' Y Y' :
  covariance P (fun s => X s - X' s) (fun s => Y s - Y' s) ==
  covariance P X Y - covariance P X Y' - covariance P X' Y + covariance P X' Y'.
Proof.
  rewrite !cov_moments, !exp_minus.
  rewrite (exp_ext (fun s => (X s - X' s) * (Y s - Y' s))
            (fun s => (X s * Y s - X s * Y' s) - (X' s * Y s - X' s * Y' s))); [|intros; ring].
  rewrite !exp_minus. ring.
Qed.

(** The sum over a diagonal. *)
Lemma sumq_single n f i : (i < n)%nat -> (forall j, (j < n)%nat -> j <> i -> f j == 0) -> sumq n f == f i.
Proof.
  induction n; [lia|]. intros Hi Z. cbn [sumq].
  destruct (Nat.eq_dec i n) as [->|E].
  - rewrite (sumq_ext n f (fun _ => 0)); [rewrite sumq_0; ring|]. intros j Hj. apply Z; lia.
  - rewrite IHn; [|lia|intros; apply Z; lia]. rewrite (Z n) by lia. ring.
Qed.

(** n uncorrelated variables. *)
Definition uncor (n : nat) (X : nat -> list image -> Q) (m v : nat -> Q) : Prop :=
  (forall i, (i < n)%nat -> expected P (X i) == m i) /\
  (forall i, (i < n)%nat -> covariance P (X i) (X i) == v i) /\
  (forall i j, (i < n)%nat -> (j < n)%nat -> i <> j -> covariance P (X i) (X j) == 0).

Lemma uncor_sum n X m v : uncor n X m v ->
  covariance P (fun s => sumq n (fun i => X i s)) (fun s => sumq n (fun i => X i s)) == sumq n v.
Proof.
  intros (_ & V & C). rewrite cov_sum. apply sumq_ext. intros i Hi.
  rewrite (sumq_single n _ i Hi); [apply V; exact Hi|]. intros j Hj E. apply C; auto.
Qed.

Lemma centred n f : (0 < n)%nat ->
  sumq n (fun i => (f i - sumq n f / qn n) * (f i - sumq n f / qn n)) ==
  sumq n (fun i => f i * f i) - sumq n f * sumq n f / qn n.
Proof.
  intros Hn. assert (N := qn_neq0 n Hn). set (a := sumq n f / qn n).
  rewrite (sumq_ext n _ (fun i => f i * f i - ((2 * a) * f i - a * a))); [|intros; ring].
  rewrite !sumq_minus, sumq_scal, sumq_const. unfold a. field. exact N.
Qed.

(** Lemma A. *)
Lemma exp_centred n X m v : (0 < n)%nat -> uncor n X m v ->
  expected P (fun s => sumq n (fun i => (X i s - sumq n (fun i => X i s) / qn n) *
                                        (X i s - sumq n (fun i => X i s) / qn n))) ==
  sumq n (fun i => (m i - sumq n m / qn n) * (m i - sumq n m / qn n)) + (1 - 1 / qn n) * sumq n v.
Proof.
  intros Hn U. assert (N := qn_neq0 n Hn).
  rewrite (exp_ext _ (fun s => sumq n (fun i => X i s * X i s)
     - (sumq n (fun i => X i s) * sumq n (fun i => X i s)) / qn n)).
  2:{ intros s _. rewrite (centred n (fun i => X i s) Hn). reflexivity. }
  rewrite exp_minus, exp_div, exp_sum. rewrite (centred n m Hn).
  assert (A : expected P (fun s => sumq n (fun i => X i s) * sumq n (fun i => X i s)) ==
              sumq n m * sumq n m + sumq n v).
  { assert (C := cov_moments (fun s => sumq n (fun i => X i s)) (fun s => sumq n (fun i => X i s))).
    rewrite (uncor_sum n X m v U), exp_sum in C.
    rewrite (sumq_ext n (fun i => expected P (X i)) m) in C by (intros; apply (proj1 U); assumption).
    lra. }
  rewrite A.
  rewrite (sumq_ext n (fun i => expected P (fun s => X i s * X i s)) (fun i => m i * m i + v i)).
  2:{ intros i Hi. assert (C := cov_moments (X i) (X i)).
      rewrite (proj1 (proj2 U) i Hi), (proj1 U i Hi) in C. lra. }
  rewrite sumq_plus. field. exact N.
Qed.

(** Lemma B: group means. *)
Lemma uncor_means n k X m v : (0 < k)%nat ->
  (forall i j, (i < n)%nat -> (j < k)%nat -> expected P (X i j) == m i j) ->
  (forall i j, (i < n)%nat -> (j < k)%nat -> covariance P (X i j) (X i j) == v i j) ->
  (forall i j i' j', (i < n)%nat -> (j < k)%nat -> (i' < n)%nat -> (j' < k)%nat -> (i, j) <> (i', j') ->
     covariance P (X i j) (X i' j') == 0) ->
  uncor n (fun i s => sumq k (fun j => X i j s) / qn k) (fun i => sumq k (m i) / qn k)
          (fun i => sumq k (v i) / (qn k * qn k)).
Proof.
  intros Hk HM HV HC. split; [|split].
  - intros i Hi. rewrite exp_div, exp_sum. rewrite (sumq_ext k _ (m i)); [reflexivity|].
    intros j Hj. apply HM; assumption.
  - intros i Hi. rewrite (cov_div (fun s => sumq k (fun j => X i j s)) (fun s => sumq k (fun j => X i j s))).
    rewrite (uncor_sum k (X i) (m i) (v i)); [reflexivity|]. split; [|split].
    + intros j Hj. apply HM; assumption.
    + intros j Hj. apply HV; assumption.
    + intros j j' Hj Hj' E. apply HC; try assumption. intro F. apply E. congruence.
  - intros i i' Hi Hi' E. rewrite (cov_div (fun s => sumq k (fun j => X i j s)) (fun s => sumq k (fun j => X i' j s))).
    rewrite cov_sum. rewrite (sumq_ext k _ (fun _ => 0)); [rewrite sumq_0; unfold Qdiv; ring|].
    intros j Hj. rewrite (sumq_ext k _ (fun _ => 0)); [apply sumq_0|].
    intros j' Hj'. apply HC; try assumption. congruence.
Qed.
End Law.

Lemma nth_history (s : list image) r c l : (l < length s)%nat ->
  nth l (map inject_Z (history s r c)) 0 = pixel l r c s.
Proof.
  intros Hl. unfold pixel, history. rewrite map_map.
  rewrite (nth_indep _ 0 (inject_Z (px (mkImg 0 0 (fun _ _ => 0%Z)) r c))) by (rewrite map_length; exact Hl).
  apply (map_nth (fun im => inject_Z (px im r c))).
Qed.
Lemma lsumq_nth (l : list Q) (f : Q -> Q) : lsumq (map f l) == sumq (length l) (fun i => f (nth i l 0)).
Proof.
  rewrite <- lsumq_sumq. 
  assert (E : map f l = map (fun i => f (nth i l 0)) (seq 0 (length l))).
  { rewrite <- (map_map (fun i => nth i l 0) f). f_equal.
    induction l as [|x l IH]; [reflexivity|]. cbn [length seq map nth]. f_equal.
    rewrite <- seq_shift, map_map. exact IH. }
  rewrite E. reflexivity.
Qed.

Section Series.
Variables (P : law) (L h w : nat) (mu s2 : nat -> nat -> Q) (drift : nat -> Q).
Hypothesis NY : noisy P L h w mu s2 drift.
Let HP := ny_law _ _ _ _ _ _ _ NY.

Lemma flat_pos k : (k < h * w)%nat -> (0 < w)%nat /\ (k / w < h)%nat /\ (k mod w < w)%nat.
Proof.
  intros Hk. assert (0 < w)%nat by (destruct w; lia). split; [assumption|].
  split; [apply Nat.div_lt_upper_bound; lia|apply Nat.mod_upper_bound; lia].
Qed.
Lemma flat_inj k k' : (0 < w)%nat -> (k / w, k mod w)%nat = (k' / w, k' mod w)%nat -> k = k'.
Proof.
  intros W E. inversion E as [[A B]].
  rewrite (Nat.div_mod k w), (Nat.div_mod k' w) by lia. rewrite A, B. reflexivity.
Qed.

(** The differences of two images. *)
Lemma uncor_diff : L = 2%nat ->
  uncor P (h * w) (fun k s => pixel 0 (k / w) (k mod w) s - pixel 1 (k / w) (k mod w) s)
    (fun _ => drift 0 - drift 1) (fun k => 2 * s2 (k / w) (k mod w)).
Proof.
  intros E. pose proof NY as [_ _ M V C]. rewrite E in M, V, C.
  split; [|split].
  - intros k Hk. destruct (flat_pos k Hk) as (W & R & D).
    rewrite (exp_minus P (pixel 0 _ _) (pixel 1 _ _)), !M by lia. ring.
  - intros k Hk. destruct (flat_pos k Hk) as (W & R & D).
    rewrite (cov_minus P HP (pixel 0 _ _) (pixel 1 _ _) (pixel 0 _ _) (pixel 1 _ _)).
    rewrite !V by lia. rewrite !C by (try lia; congruence). ring.
  - intros k k' Hk Hk' N. destruct (flat_pos k Hk) as (W & R & D). destruct (flat_pos k' Hk') as (_ & R' & D').
    rewrite (cov_minus P HP (pixel 0 _ _) (pixel 1 _ _) (pixel 0 _ _) (pixel 1 _ _)).
    rewrite !C; try lia; try ring; intro F; apply N, (flat_inj k k' W); congruence.
Qed.

(** The average image. *)
Definition avg_of (r c : nat) (s : list image) : Q := sumq L (fun l => pixel l r c s) / qn L.

Lemma avg_is s r c : possible P s -> avg_pixel s r c == avg_of r c s.
Proof.
  intros Hs. assert (E := ny_length _ _ _ _ _ _ _ NY s Hs).
  unfold avg_pixel, avg_of, mean. rewrite map_length.
  replace (length (history s r c)) with L by (unfold history; rewrite map_length; lia).
  apply Qdiv_comp; [|reflexivity].
  rewrite <- (map_id (map inject_Z (history s r c))), lsumq_nth, map_length.
  replace (length (history s r c)) with L by (unfold history; rewrite map_length; lia).
  apply sumq_ext. intros l Hl. rewrite nth_history by lia. reflexivity.
Qed.

Hypothesis HL : (0 < L)%nat.

Lemma uncor_pixels : uncor P (h * w) (fun k => avg_of (k / w) (k mod w))
  (fun k => mu (k / w)%nat (k mod w)%nat + sumq L drift / qn L)
  (fun k => s2 (k / w)%nat (k mod w)%nat / qn L).
Proof.
  assert (N := qn_neq0 L HL).
  pose proof NY as [_ _ M V C].
  assert (U := uncor_means P HP (h * w) L (fun k l => pixel l (k / w) (k mod w))
    (fun k l => mu (k / w)%nat (k mod w)%nat + drift l) (fun k _ => s2 (k / w)%nat (k mod w)%nat) HL).
  destruct U as (A & B & D).
  - intros k l Hk Hl. destruct (flat_pos k Hk) as (W & R & D). apply M; assumption.
  - intros k l Hk Hl. destruct (flat_pos k Hk) as (W & R & D). apply V; assumption.
  - intros k l k' l' Hk Hl Hk' Hl' Ne. destruct (flat_pos k Hk) as (W & R & D).
    destruct (flat_pos k' Hk') as (_ & R' & D').
    apply C; try assumption. intro F. apply Ne. f_equal; [apply (flat_inj k k' W)|]; congruence.
  - split; [|split].
    + intros k Hk. unfold avg_of. rewrite A by exact Hk. rewrite sumq_plus, sumq_const. field. exact N.
    + intros k Hk. unfold avg_of. rewrite B by exact Hk. rewrite sumq_const. field. exact N.
    + exact D.
Qed.

Lemma uncor_avg :
  (forall r c, (r < h)%nat -> (c < w)%nat -> expected P (avg_of r c) == mu r c + sumq L drift / qn L) /\
  (forall r c, (r < h)%nat -> (c < w)%nat -> covariance P (avg_of r c) (avg_of r c) == s2 r c / qn L) /\
  (forall r c r' c', (r < h)%nat -> (c < w)%nat -> (r' < h)%nat -> (c' < w)%nat -> (r, c) <> (r', c') ->
     covariance P (avg_of r c) (avg_of r' c') == 0).
Proof.
  destruct uncor_pixels as (A & B & D).
  assert (F : forall r c, (r < h)%nat -> (c < w)%nat ->
    (r * w + c < h * w)%nat /\ ((r * w + c) / w = r)%nat /\ ((r * w + c) mod w = c)%nat).
  { intros r c Hr Hc. split; [nia|]. split.
    - rewrite Nat.div_add_l by lia. rewrite Nat.div_small by lia. lia.
    - rewrite Nat.add_comm, Nat.mod_add by lia. apply Nat.mod_small. lia. }
  split; [|split].
  - intros r c Hr Hc. destruct (F r c Hr Hc) as (Lt & E1 & E2). assert (G := A _ Lt). cbn beta in G.
    rewrite E1, E2 in G. exact G.
  - intros r c Hr Hc. destruct (F r c Hr Hc) as (Lt & E1 & E2). assert (G := B _ Lt). cbn beta in G.
    rewrite E1, E2 in G. exact G.
  - intros r c r' c' Hr Hc Hr' Hc' Ne.
    destruct (F r c Hr Hc) as (Lt & E1 & E2). destruct (F r' c' Hr' Hc') as (Lt' & E1' & E2').
    assert (G := D _ _ Lt Lt'). cbn beta in G. rewrite E1, E2, E1', E2' in G.
    apply G. intro Eq. apply Ne. rewrite Eq in E1, E2. congruence.
Qed.

Lemma uncor_cols : (0 < h)%nat -> uncor P w (fun c s => sumq h (fun r => avg_of r c s) / qn h)
  (fun c => sumq h (fun r => mu r c + sumq L drift / qn L) / qn h)
  (fun c => sumq h (fun r => s2 r c / qn L) / (qn h * qn h)).
Proof.
  intros Hh. destruct uncor_avg as (A & B & D).
  apply (uncor_means P HP w h (fun c r => avg_of r c)
    (fun c r => mu r c + sumq L drift / qn L) (fun c r => s2 r c / qn L) Hh).
  - intros; apply A; assumption.
  - intros; apply B; assumption.
  - intros c r c' r' Hc Hr Hc' Hr' Ne. apply D; try assumption. congruence.
Qed.
Lemma uncor_rows : (0 < w)%nat -> uncor P h (fun r s => sumq w (fun c => avg_of r c s) / qn w)
  (fun r => sumq w (fun c => mu r c + sumq L drift / qn L) / qn w)
  (fun r => sumq w (fun c => s2 r c / qn L) / (qn w * qn w)).
Proof.
  intros Hw. destruct uncor_avg as (A & B & D).
  apply (uncor_means P HP h w (fun r c => avg_of r c)
    (fun r c => mu r c + sumq L drift / qn L) (fun r c => s2 r c / qn L) Hw).
  - intros; apply A; assumption.
  - intros; apply B; assumption.
  - intros r c r' c' Hr Hc Hr' Hc' Ne. apply D; assumption.
Qed.

(** The variance of one pixel over the series. *)
Lemma exp_pixel_var r c : (2 <= L)%nat -> (r < h)%nat -> (c < w)%nat ->
  expected P (fun s => unbiased_var (map inject_Z (history s r c))) == s2 r c + var_n L drift.
Proof.
  intros L2 Hr Hc. assert (N := qn_neq0 L HL).
  assert (N1 : ~ qn (L - 1) == 0) by (apply qn_neq0; lia).
  assert (Q1 : qn L == qn (L - 1) + 1) by (rewrite <- qn_S; replace (S (L - 1)) with L by lia; reflexivity).
  rewrite (exp_ext P _ (fun s => sumq L (fun l => (pixel l r c s - sumq L (fun l => pixel l r c s) / qn L) *
      (pixel l r c s - sumq L (fun l => pixel l r c s) / qn L)) / qn (L - 1))).
  2:{ intros s Hs. assert (E := ny_length _ _ _ _ _ _ _ NY s Hs).
      assert (A := avg_is s r c Hs). unfold avg_pixel in A.
      unfold unbiased_var. rewrite map_length.
      replace (length (history s r c)) with L by (unfold history; rewrite map_length; lia).
      apply Qdiv_comp; [|reflexivity].
      rewrite lsumq_nth, map_length.
      replace (length (history s r c)) with L by (unfold history; rewrite map_length; lia).
      apply sumq_ext. intros l Hl. rewrite nth_history by lia. rewrite A. reflexivity. }
  rewrite exp_div.
  assert (U : uncor P L (fun l => pixel l r c) (fun l => mu r c + drift l) (fun _ => s2 r c)).
  { pose proof NY as [_ _ M V C]. split; [|split].
    - intros; apply M; assumption.
    - intros; apply V; assumption.
    - intros l l' Hl Hl' E. apply C; try assumption. congruence. }
  rewrite (exp_centred P HP L _ _ _ HL U).
  assert (Sm : sumq L (fun l => mu r c + drift l) == qn L * mu r c + sumq L drift)
    by (rewrite sumq_plus, sumq_const; reflexivity).
  rewrite (sumq_ext L _ (fun l => (drift l - sumq L drift / qn L) * (drift l - sumq L drift / qn L))).
  2:{ intros l Hl. rewrite Sm. field. exact N. }
  rewrite sumq_const.
  unfold var_n, mean_n. set (T := sumq L _). clearbody T. clear Sm.
  rewrite Q1. rewrite Q1 in N. field. split; assumption.
Qed.
End Series.
