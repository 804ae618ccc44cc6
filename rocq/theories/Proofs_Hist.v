(** Histogram: partition, reference algorithm, accumulated values. *)
From Coq Require Import List Bool Arith ZArith QArith Qround Reals Qreals Lia.
From Verif Require Import Base_Prelude Base_Sum Base_Xreal Model_Images Model_Data Model_Results
  Model_Hist Spec_Hist.
Import ListNotations.
Open Scope Z_scope.

(** ** Lists *)
Lemma count_how_many {A} (f : A -> bool) l : count f l = how_many f l.
Proof. unfold count. induction l; simpl; auto. destruct (f a); simpl; auto. Qed.

Lemma how_many_ext {A} (f g : A -> bool) l :
  (forall x, In x l -> f x = g x) -> how_many f l = how_many g l.
Proof.
  induction l; simpl; intro H; auto. rewrite H by auto. rewrite IHl by auto. reflexivity.
Qed.

Lemma how_many_all {A} (f : A -> bool) l :
  (forall x, In x l -> f x = true) -> how_many f l = length l.
Proof. induction l; simpl; intro H; auto. rewrite H by auto. f_equal; auto. Qed.

Lemma how_many_none {A} (f : A -> bool) l :
  (forall x, In x l -> f x = false) -> how_many f l = 0%nat.
Proof. induction l; simpl; intro H; auto. rewrite H by auto. auto. Qed.

Lemma how_many_le {A} (f : A -> bool) l : (how_many f l <= length l)%nat.
Proof. induction l; simpl; auto. destruct (f a); lia. Qed.

Lemma how_many_pos {A} (f : A -> bool) l x :
  In x l -> f x = true -> (1 <= how_many f l)%nat.
Proof.
  induction l; simpl; [intros []|]. intros [->|H] E.
  - rewrite E. lia.
  - specialize (IHl H E). destruct (f a); lia.
Qed.

Lemma fold_min_spec l : forall x, is_min (fold_left Z.min l x) (x :: l).
Proof.
  induction l; intro x; simpl.
  - split; simpl; auto. intros v [->|[]]. lia.
  - destruct (IHl (Z.min x a)) as [I M]. split.
    + destruct I as [E|I]; [|simpl; auto]. rewrite <- E.
      destruct (Z.min_spec x a) as [[_ ->]|[_ ->]]; simpl; auto.
    + intros v [E|[E|Hv]]; subst.
      * specialize (M (Z.min v a) (or_introl eq_refl)). lia.
      * specialize (M (Z.min x v) (or_introl eq_refl)). lia.
      * apply M. simpl; auto.
Qed.

Lemma fold_max_spec l : forall x, is_max (fold_left Z.max l x) (x :: l).
Proof.
  induction l; intro x; simpl.
  - split; simpl; auto. intros v [->|[]]. lia.
  - destruct (IHl (Z.max x a)) as [I M]. split.
    + destruct I as [E|I]; [|simpl; auto]. rewrite <- E.
      destruct (Z.max_spec x a) as [[_ ->]|[_ ->]]; simpl; auto.
    + intros v [E|[E|Hv]]; subst.
      * specialize (M (Z.max v a) (or_introl eq_refl)). lia.
      * specialize (M (Z.max x v) (or_introl eq_refl)). lia.
      * apply M. simpl; auto.
Qed.

Lemma zmin_spec l : l <> [] -> is_min (zmin l) l.
Proof. destruct l; [congruence|]. intros _. apply fold_min_spec. Qed.
Lemma zmax_spec l : l <> [] -> is_max (zmax l) l.
Proof. destruct l; [congruence|]. intros _. apply fold_max_spec. Qed.

Lemma visible_plain y : visible (plain y) = y.
Proof. unfold visible, plain. induction y; simpl; auto. f_equal; auto. Qed.

Lemma fst_plain y : map fst (plain y) = y.
Proof. unfold plain. rewrite map_map. apply map_id. Qed.

(** ** Width and number of bins *)
Definition width (q Qmax : Z) : Z := q / Qmax + 1.

Lemma width_pos q Qmax : 0 <= q -> 1 <= Qmax -> 1 <= width q Qmax.
Proof. intros. unfold width. assert (0 <= q / Qmax) by (apply Z.div_pos; lia). lia. Qed.

Lemma bins_le q Qmax : 0 <= q -> 1 <= Qmax -> q / width q Qmax + 1 <= Qmax.
Proof.
  intros H G. assert (P := width_pos q Qmax H G).
  assert (q / width q Qmax < Qmax); [|lia].
  apply Z.div_lt_upper_bound; [lia|]. unfold width.
  assert (A := Z.mul_succ_div_gt q Qmax ltac:(lia)). unfold Z.succ in A. lia.
Qed.

Lemma width_least q Qmax W :
  0 <= q -> 1 <= Qmax -> 1 <= W -> q / W + 1 <= Qmax -> width q Qmax <= W.
Proof.
  intros H G P L. unfold width.
  assert (q / Qmax < W); [|lia].
  apply Z.div_lt_upper_bound; [lia|].
  assert (A := Z.mul_succ_div_gt q W ltac:(lia)). unfold Z.succ in A. nia.
Qed.

Definition hist_bin (ymin W : Z) (i : nat) : Z := ymin + Z.of_nat i * W.

Lemma hist_eq y Qmax :
  y <> [] -> 1 <= Qmax ->
  let v := visible y in
  v <> [] ->
  let q := zmax v - zmin v in
  let W := width q Qmax in
  let nb := q / W + 1 in
  let n := Z.to_nat nb in
  histogram1288 y Qmax =
   Ok (mkHist (map (fun i => inject_Z (hist_bin (zmin v) W i)) (seq 0 n))
              (np_histogram (map fst y) n (hist_bin (zmin v) W))
              (map (fun i => normal_at (zmean v) (zvar v) (inject_Z q) nb (length v)
                               (hist_bin (zmin v) W i)) (seq 0 n))).
Proof.
  intros Hy HQ v Hv q W nb n.
  assert (Hq : 0 <= q).
  { unfold q. destruct (zmin_spec v Hv) as [A _]. destruct (zmax_spec v Hv) as [_ B].
    specialize (B _ A). lia. }
  unfold histogram1288. destruct y as [|c y]; [congruence|]. fold v. clearbody v.
  destruct v as [|z v]; [congruence|]. fold q.
  destruct (Z.gtb_spec (q + 1) Qmax) as [Hg|Hg].
  - rewrite <- !Zdiv_Qdiv. reflexivity.
  - assert (EW : W = 1). { unfold W, width. rewrite Z.div_small by lia. reflexivity. }
    unfold n, nb. rewrite EW, Z.div_1_r. reflexivity.
Qed.

(** ** Counting *)
Lemma between_split a b (l : list Z) : a <= b ->
  Z.of_nat (between a b l) =
  Z.of_nat (how_many (fun v => v <? b) l) - Z.of_nat (how_many (fun v => v <? a) l).
Proof.
  intro H. unfold between. induction l as [|x l IH]; [reflexivity|]. cbn [how_many].
  destruct (Z.leb_spec a x), (Z.ltb_spec x b), (Z.ltb_spec x a); cbn [andb]; lia.
Qed.

Lemma edge_count_eq data n edge hi i :
  is_max hi data -> hi < edge n -> (i <= n)%nat ->
  edge_count data n edge i = Z.of_nat (how_many (fun v => v <? edge i) data).
Proof.
  intros [_ M] L Hi. unfold edge_count. destruct (Nat.ltb_spec i n).
  - rewrite count_how_many. reflexivity.
  - assert (i = n) by lia. subst i. rewrite count_how_many. f_equal.
    apply how_many_ext. intros x Hx. specialize (M x Hx).
    destruct (Z.leb_spec x (edge n)), (Z.ltb_spec x (edge n)); auto; lia.
Qed.

Lemma np_histogram_length data n edge : length (np_histogram data n edge) = n.
Proof. unfold np_histogram. rewrite map_length, seq_length. reflexivity. Qed.

Lemma nth_map_seq {A} (f : nat -> A) n i d :
  (i < n)%nat -> nth i (map f (seq 0 n)) d = f i.
Proof.
  intro H. rewrite (nth_indep _ d (f 0%nat)) by (rewrite map_length, seq_length; auto).
  rewrite map_nth. rewrite seq_nth by auto. reflexivity.
Qed.

Lemma np_histogram_nth data n edge hi i :
  is_max hi data -> hi < edge n -> (forall k, edge k <= edge (S k)) -> (i < n)%nat ->
  nth i (np_histogram data n edge) 0 = Z.of_nat (between (edge i) (edge (S i)) data).
Proof.
  intros M L E Hi. unfold np_histogram. rewrite nth_map_seq by auto.
  rewrite !(edge_count_eq data n edge hi) by (auto; lia).
  symmetry. apply between_split. apply E.
Qed.

Lemma lsumz_app a b : lsumz (a ++ b) = lsumz a + lsumz b.
Proof. induction a; simpl; lia. Qed.

Lemma lsumz_telescope (E : nat -> Z) n k :
  lsumz (map (fun i => E (S i) - E i) (seq k n)) = E (k + n)%nat - E k.
Proof.
  revert k. induction n; intro k.
  - simpl. replace (k + 0)%nat with k by lia. lia.
  - cbn [seq map lsumz]. rewrite IHn. replace (S k + n)%nat with (k + S n)%nat by lia. lia.
Qed.

Lemma skipn_seq_ k n : forall s, skipn k (seq s n) = seq (s + k) (n - k).
Proof.
  revert n. induction k; intros n s.
  - simpl. replace (s + 0)%nat with s by lia. replace (n - 0)%nat with n by lia. reflexivity.
  - destruct n; [reflexivity|]. cbn [seq skipn]. rewrite IHk. f_equal; lia.
Qed.

Lemma skipn_map_ {A B} (f : A -> B) k : forall l, skipn k (map f l) = map f (skipn k l).
Proof. induction k; intros [|x l]; simpl; auto. Qed.

Lemma np_histogram_suffix data n edge hi i :
  is_max hi data -> hi < edge n -> (i <= n)%nat ->
  lsumz (skipn i (np_histogram data n edge)) =
  Z.of_nat (how_many (fun v => edge i <=? v) data).
Proof.
  intros M L Hi. unfold np_histogram. rewrite skipn_map_, skipn_seq_, lsumz_telescope.
  replace (0 + i + (n - i))%nat with n by lia. simpl.
  rewrite !(edge_count_eq data n edge hi) by (auto; lia).
  rewrite (how_many_all (fun v => v <? edge n)).
  2:{ intros x Hx. destruct M as [_ M]. specialize (M x Hx). apply Z.ltb_lt. lia. }
  clear. induction data as [|x l IH]; [reflexivity|]. cbn [how_many length].
  destruct (Z.ltb_spec x (edge i)), (Z.leb_spec (edge i) x); lia.
Qed.

(** ** The reference algorithm *)
Lemma bump_length k H : length (bump k H) = length H.
Proof. revert k. induction H; intros [|k]; simpl; auto. Qed.

Lemma bump_nth k H i : (k < length H)%nat ->
  nth i (bump k H) 0 = nth i H 0 + (if (i =? k)%nat then 1 else 0).
Proof.
  revert k i. induction H as [|x H IH]; intros k i L; [simpl in L; lia|].
  destruct k, i; simpl; try lia. rewrite IH by (simpl in L; lia). reflexivity.
Qed.

Lemma reference_nth ymin W y : forall H i,
  (forall v, In v y -> (Z.to_nat ((v - ymin) / W) < length H)%nat) ->
  nth i (fold_left (fun H v => bump (Z.to_nat ((v - ymin) / W)) H) y H) 0 =
  nth i H 0 + Z.of_nat (how_many (fun v => (i =? Z.to_nat ((v - ymin) / W))%nat) y).
Proof.
  induction y as [|v y IH]; intros H i L; cbn [fold_left how_many]; [lia|].
  rewrite IH.
  2:{ intros v' Hv'. rewrite bump_length. apply L. simpl; auto. }
  rewrite bump_nth by (apply L; simpl; auto).
  destruct (i =? _)%nat; lia.
Qed.

Lemma reference_length ymin W y : forall H,
  length (fold_left (fun H v => bump (Z.to_nat ((v - ymin) / W)) H) y H) = length H.
Proof. induction y; intro H; simpl; auto. rewrite IHy, bump_length. reflexivity. Qed.

Lemma nth_repeat0 n i : nth i (repeat 0 n) 0 = 0.
Proof. revert i; induction n; intros [|i]; simpl; auto. Qed.

(** The bin of a value. *)
Lemma bin_unique lo W v i :
  1 <= W -> lo <= v ->
  (hist_bin lo W i <= v < hist_bin lo W (S i) <-> i = Z.to_nat ((v - lo) / W)).
Proof.
  intros HW Hv. unfold hist_bin. rewrite Nat2Z.inj_succ. unfold Z.succ.
  assert (P : 0 <= (v - lo) / W) by (apply Z.div_pos; lia).
  split.
  - intros [A B]. assert (Z.of_nat i = (v - lo) / W); [|lia].
    apply (Z.div_unique (v - lo) W (Z.of_nat i) (v - lo - Z.of_nat i * W)); [left|]; nia.
  - intros ->. rewrite Z2Nat.id by auto.
    assert (A := Z.mul_div_le (v - lo) W ltac:(lia)).
    assert (B := Z.mul_succ_div_gt (v - lo) W ltac:(lia)). unfold Z.succ in B. nia.
Qed.

Lemma bin_index_lt lo hi W v :
  1 <= W -> lo <= v <= hi -> (Z.to_nat ((v - lo) / W) < Z.to_nat ((hi - lo) / W + 1))%nat.
Proof.
  intros HW Hv. assert (0 <= (v - lo) / W) by (apply Z.div_pos; lia).
  assert ((v - lo) / W <= (hi - lo) / W) by (apply Z.div_le_mono; lia). lia.
Qed.

Lemma nth_ext_Z (a b : list Z) :
  length a = length b -> (forall i, (i < length a)%nat -> nth i a 0 = nth i b 0) -> a = b.
Proof. intros L H. apply (nth_ext a b 0 0); auto. Qed.

Lemma histogram_reference lo hi W y :
  1 <= W -> is_min lo y -> is_max hi y ->
  np_histogram y (Z.to_nat ((hi - lo) / W + 1)) (hist_bin lo W) =
  reference_histogram lo W (Z.to_nat ((hi - lo) / W + 1)) y.
Proof.
  intros HW Mi Ma. set (n := Z.to_nat ((hi - lo) / W + 1)).
  assert (Hq : lo <= hi). { destruct Mi as [I _]. destruct Ma as [_ M]. apply M in I. lia. }
  assert (HL : hi < hist_bin lo W n).
  { unfold hist_bin, n. assert (0 <= (hi - lo) / W) by (apply Z.div_pos; lia).
    rewrite Z2Nat.id by lia.
    assert (B := Z.mul_succ_div_gt (hi - lo) W ltac:(lia)). unfold Z.succ in B. nia. }
  apply nth_ext_Z.
  - unfold reference_histogram. rewrite reference_length, np_histogram_length, repeat_length.
    reflexivity.
  - rewrite np_histogram_length. intros i Hi.
    rewrite (np_histogram_nth _ _ _ hi); auto.
    2:{ intro k. unfold hist_bin. nia. }
    unfold reference_histogram. rewrite reference_nth.
    + rewrite nth_repeat0, Z.add_0_l. f_equal. unfold between. apply how_many_ext.
      intros v Hv. destruct Mi as [_ Mi]. specialize (Mi v Hv).
      assert (B := bin_unique lo W v i HW Mi).
      destruct (Nat.eqb_spec i (Z.to_nat ((v - lo) / W))) as [E|E].
      * apply B in E. apply andb_true_iff. rewrite Z.leb_le, Z.ltb_lt. lia.
      * apply andb_false_iff. rewrite Z.leb_gt, Z.ltb_ge.
        destruct (Z.lt_ge_cases v (hist_bin lo W i)); auto.
        right. apply Z.nlt_ge. intro. apply E, B. lia.
    + intros v Hv. rewrite repeat_length. unfold n. apply bin_index_lt; auto.
      destruct Mi as [_ Mi]. destruct Ma as [_ Ma]. split; auto.
Qed.

Lemma last_edge lo hi W : 1 <= W -> lo <= hi ->
  hi < hist_bin lo W (Z.to_nat ((hi - lo) / W + 1)).
Proof.
  intros HW Hq. unfold hist_bin. assert (0 <= (hi - lo) / W) by (apply Z.div_pos; lia).
  rewrite Z2Nat.id by lia.
  assert (B := Z.mul_succ_div_gt (hi - lo) W ltac:(lia)). unfold Z.succ in B. nia.
Qed.

Lemma min_le_max lo hi y : is_min lo y -> is_max hi y -> lo <= hi.
Proof. intros [I _] [_ M]. apply M in I. lia. Qed.

Lemma hist_bin_mono lo W k : 1 <= W -> hist_bin lo W k <= hist_bin lo W (S k).
Proof. intro. unfold hist_bin. nia. Qed.

(** C36 *)
Lemma histogram_partition y Qmax :
  y <> [] -> 1 <= Qmax ->
  exists h lo hi W,
    histogram1288 (plain y) Qmax = Ok h /\
    is_min lo y /\ is_max hi y /\ 1 <= W /\
    let n := length (h_bins h) in
    let bin := fun i => lo + Z.of_nat i * W in
    length (h_values h) = n /\ (1 <= n)%nat /\ Z.of_nat n <= Qmax /\
    (forall i, (i < n)%nat ->
       (nth i (h_bins h) 0%Q == inject_Z (bin i))%Q /\
       nth i (h_values h) 0 = Z.of_nat (between (bin i) (bin i + W) y)) /\
    (forall v, In v y -> exists! i, (i < n)%nat /\ bin i <= v < bin i + W) /\
    lsumz (h_values h) = Z.of_nat (length y) /\
    (hi - lo + 1 <= Qmax -> W = 1 /\ Z.of_nat n = hi - lo + 1) /\
    (forall W', 1 <= W' -> (hi - lo) / W' + 1 <= Qmax -> W <= W') /\
    h_values h = reference_histogram lo W n y.
Proof.
  intros Hy HQ.
  assert (Hp : plain y <> []) by (destruct y; [congruence|discriminate]).
  assert (Hv : visible (plain y) <> []) by (rewrite visible_plain; auto).
  assert (E := hist_eq (plain y) Qmax Hp HQ Hv). cbv zeta in E.
  rewrite visible_plain, fst_plain in E.
  set (lo := zmin y) in *. set (hi := zmax y) in *.
  assert (Mi : is_min lo y) by (apply zmin_spec; auto).
  assert (Ma : is_max hi y) by (apply zmax_spec; auto).
  assert (Hq := min_le_max _ _ _ Mi Ma).
  set (W := width (hi - lo) Qmax) in *.
  assert (HW : 1 <= W) by (apply width_pos; lia).
  assert (HB : (hi - lo) / W + 1 <= Qmax) by (apply bins_le; lia).
  assert (H0 : 0 <= (hi - lo) / W) by (apply Z.div_pos; lia).
  eexists; exists lo, hi, W. split; [exact E|]. split; [auto|]. split; [auto|]. split; [auto|].
  cbv zeta. cbn [h_bins h_values]. rewrite map_length, seq_length.
  set (n := Z.to_nat ((hi - lo) / W + 1)).
  assert (Hl : hi < hist_bin lo W n) by (apply last_edge; auto).
  assert (S1 : forall i, lo + Z.of_nat i * W + W = hist_bin lo W (S i)).
  { intro. unfold hist_bin. lia. }
  repeat split.
  - apply np_histogram_length.
  - unfold n. lia.
  - unfold n. lia.
  - rewrite nth_map_seq by auto. reflexivity.
  - rewrite (np_histogram_nth _ _ _ hi); auto.
    + rewrite S1. reflexivity.
    + intro. apply hist_bin_mono; auto.
  - intros v Hin.
    destruct Mi as [_ Mi]. destruct Ma as [_ Ma].
    exists (Z.to_nat ((v - lo) / W)). split.
    + split; [apply bin_index_lt; auto|]. rewrite S1. apply bin_unique; auto.
    + intros i [_ Hi]. rewrite S1 in Hi. symmetry. apply bin_unique; auto.
  - assert (A := np_histogram_suffix y n (hist_bin lo W) hi 0 Ma Hl ltac:(lia)).
    cbn [skipn] in A. rewrite A. f_equal. apply how_many_all.
    intros v Hin. apply Z.leb_le. unfold hist_bin. destruct Mi as [_ Mi]. specialize (Mi v Hin). lia.
  - unfold W, width. rewrite Z.div_small by lia. reflexivity.
  - unfold n, W, width. rewrite (Z.div_small (hi - lo) Qmax) by lia. rewrite Z.div_1_r. lia.
  - intros W' HW' HB'. apply width_least; auto; lia.
  - apply histogram_reference; auto.
Qed.

(** ** Accumulated histograms *)
Lemma cumsum_app a : forall acc b,
  cumsum acc (a ++ b) = cumsum acc a ++ cumsum (acc + lsumz a) b.
Proof.
  induction a as [|x a IH]; intros acc b; simpl.
  - rewrite Z.add_0_r. reflexivity.
  - rewrite IH. rewrite <- Z.add_assoc. reflexivity.
Qed.

Lemma lsumz_rev l : lsumz (rev l) = lsumz l.
Proof. induction l; simpl; auto. rewrite lsumz_app, IHl. simpl. lia. Qed.

Lemma suffix_sums l :
  rev (cumsum 0 (rev l)) = map (fun i => lsumz (skipn i l)) (seq 0 (length l)).
Proof.
  induction l as [|x l IH]; [reflexivity|].
  cbn [rev]. rewrite cumsum_app, rev_app_distr, IH. cbn [cumsum rev app length seq map skipn].
  rewrite lsumz_rev. cbn [lsumz]. f_equal; [lia|].
  rewrite <- seq_shift, map_map. reflexivity.
Qed.

Lemma quot_trunc s n : 1 <= n ->
  (0 <= s -> Z.quot s n * n <= s < (Z.quot s n + 1) * n) /\
  (s <= 0 -> (Z.quot s n - 1) * n < s <= Z.quot s n * n).
Proof.
  intro Hn. split; intro Hs.
  - rewrite Z.quot_div_nonneg by lia.
    assert (A := Z.mul_div_le s n ltac:(lia)).
    assert (B := Z.mul_succ_div_gt s n ltac:(lia)). unfold Z.succ in B. lia.
  - replace s with (- (- s)) by lia. rewrite Z.quot_opp_l by lia.
    rewrite Z.quot_div_nonneg by lia.
    assert (A := Z.mul_div_le (- s) n ltac:(lia)).
    assert (B := Z.mul_succ_div_gt (- s) n ltac:(lia)). unfold Z.succ in B. lia.
Qed.

(** The common part of the two accumulated histograms: [z] are the deviations. *)
Lemma accumulate_spec z k :
  z <> [] -> (0 < k)%Q ->
  exists h lo W, histogram1288 (plain z) Qmax1288 = Ok h /\ is_min lo z /\ 1 <= W /\
    let a := accumulate k (length z) h in
    let n := length (a_bins a) in
    length (a_values a) = n /\ (1 <= n)%nat /\
    (forall i, (i < n)%nat ->
      (nth i (a_bins a) 0 == inject_Z (lo + Z.of_nat i * W) / k)%Q /\
      (nth i (a_values a) 0 ==
       100 * qn (how_many (fun v => lo + Z.of_nat i * W <=? v)%Z z) / qn (length z))%Q /\
      (1 <= how_many (fun v => lo + Z.of_nat i * W <=? v)%Z z)%nat).
Proof.
  intros Hz Hk.
  assert (Hp : plain z <> []) by (destruct z; [congruence|discriminate]).
  assert (Hv : visible (plain z) <> []) by (rewrite visible_plain; auto).
  assert (E := hist_eq (plain z) Qmax1288 Hp ltac:(unfold Qmax1288; lia) Hv). cbv zeta in E.
  rewrite visible_plain, fst_plain in E.
  set (lo := zmin z) in *. set (hi := zmax z) in *.
  assert (Mi : is_min lo z) by (apply zmin_spec; auto).
  assert (Ma : is_max hi z) by (apply zmax_spec; auto).
  assert (Hq := min_le_max _ _ _ Mi Ma).
  set (W := width (hi - lo) Qmax1288) in *.
  assert (HW : 1 <= W) by (apply width_pos; unfold Qmax1288; lia).
  set (n := Z.to_nat ((hi - lo) / W + 1)) in *.
  assert (Hl : hi < hist_bin lo W n) by (apply last_edge; auto).
  assert (H0 : 0 <= (hi - lo) / W) by (apply Z.div_pos; lia).
  eexists; exists lo, W. split; [exact E|]. split; [auto|]. split; [auto|].
  cbv zeta. unfold accumulate. cbn [h_bins h_values a_bins a_values].
  rewrite suffix_sums, np_histogram_length, !map_length, !seq_length.
  split; [auto|]. split; [unfold n; lia|]. intros i Hi. repeat split.
  - rewrite map_map, nth_map_seq by auto. reflexivity.
  - rewrite map_map, nth_map_seq by auto.
    rewrite (np_histogram_suffix _ _ _ hi) by (auto; lia). reflexivity.
  - destruct Ma as [I _]. apply (how_many_pos _ _ hi I). apply Z.leb_le.
    (* the last bin starts at or below the maximum *)
    assert (A := Z.mul_div_le (hi - lo) W ltac:(lia)).
    assert (Z.of_nat i <= (hi - lo) / W) by (unfold n in Hi; lia). nia.
Qed.

Lemma how_many_mono {A} (f g : A -> bool) l :
  (forall x, f x = true -> g x = true) -> (how_many f l <= how_many g l)%nat.
Proof.
  intro H. induction l as [|x l IH]; simpl; auto.
  destruct (f x) eqn:E; [rewrite (H x E); lia|]. destruct (g x); lia.
Qed.
