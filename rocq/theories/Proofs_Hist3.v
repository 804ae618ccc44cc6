(** Accumulated histograms of a result object; row compression. *)
From Coq Require Import List Bool Arith ZArith QArith Qround Reals Qreals Lia.
From Verif Require Import Base_Prelude Base_Sum Base_Xreal Model_Images Model_Data Model_Results
  Model_Hist Spec_Hist Proofs_Hist Proofs_Hist2.
Import ListNotations.
Open Scope Z_scope.

Lemma Qdiv_le_iff a b k : (0 < k)%Q -> (a / k <= b / k <-> a <= b)%Q.
Proof.
  intro H. unfold Qdiv. split; intro L.
  - apply (Qmult_lt_0_le_reg_r _ _ (/ k)); auto. apply Qinv_lt_0_compat; auto.
  - apply Qmult_le_compat_r; auto. apply Qlt_le_weak, Qinv_lt_0_compat; auto.
Qed.

Lemma Qdiv_lt_mono a b k : (0 < k)%Q -> (a < b)%Q -> (a / k < b / k)%Q.
Proof.
  intros H L. unfold Qdiv. apply Qmult_lt_r; auto. apply Qinv_lt_0_compat; auto.
Qed.

Lemma trunc_mean h w f : (0 < h * w)%nat ->
  truncated_mean (Z.quot (sumz2 h w f) (Z.of_nat (h * w))) h w f.
Proof.
  intro H. set (s := sumz2 h w f). set (n := (h * w)%nat) in *.
  destruct (quot_trunc s (Z.of_nat n) ltac:(lia)) as [A B].
  assert (P : (0 < qn n)%Q) by (apply qn_pos; auto).
  assert (N := qn_neq0 n H).
  assert (M : forall z, (inject_Z z == inject_Z (z * Z.of_nat n) / qn n)%Q).
  { intro z. rewrite inject_Z_mult. fold (qn n). field. exact N. }
  unfold truncated_mean. fold n s. split; intro S.
  - assert (S0 : 0 <= s).
    { rewrite Zle_Qle. apply (Qdiv_le_iff _ _ (qn n)); auto.
      setoid_replace (inject_Z 0 / qn n)%Q with 0%Q; auto. unfold Qdiv. apply Qmult_0_l. }
    destruct (A S0) as [A1 A2]. split.
    + rewrite (M (Z.quot s (Z.of_nat n))). apply Qdiv_le_iff; auto. rewrite <- Zle_Qle. auto.
    + rewrite (M (_ + 1)). apply Qdiv_lt_mono; auto. rewrite <- Zlt_Qlt. auto.
  - assert (S0 : s <= 0).
    { rewrite Zle_Qle. apply (Qdiv_le_iff _ _ (qn n)); auto.
      setoid_replace (inject_Z 0 / qn n)%Q with 0%Q; auto. unfold Qdiv. apply Qmult_0_l. }
    destruct (B S0) as [A1 A2]. split.
    + rewrite (M (_ - 1)). apply Qdiv_lt_mono; auto. rewrite <- Zlt_Qlt. auto.
    + rewrite (M (Z.quot s (Z.of_nat n))). apply Qdiv_le_iff; auto. rewrite <- Zle_Qle. auto.
Qed.

Lemma ravel_nonempty {A} h w (f : nat -> nat -> A) : (0 < h * w)%nat -> ravel h w f <> [].
Proof. intros H E. assert (L := ravel_length h w f). rewrite E in L. simpl in L. lia. Qed.

Lemma abs_deviation_eq h w f : (0 < h * w)%nat ->
  abs_deviation (ravel h w f) =
  Ok (ravel h w (fun r c => Z.abs (f r c - Z.quot (sumz2 h w f) (Z.of_nat (h * w))))).
Proof.
  intro H. assert (N := ravel_nonempty h w f H). unfold abs_deviation.
  assert (S : lsumz (ravel h w f) = sumz2 h w f).
  { rewrite <- (map_id (ravel h w f)). apply (lsumz_ravel h w f (fun z => z)). }
  rewrite S, ravel_length, map_ravel. destruct (ravel h w f); [congruence|reflexivity].
Qed.

Lemma leb_Qle_bool b v k q : (0 < k)%Q -> (q == inject_Z b / k)%Q ->
  Qle_bool q (inject_Z v / k) = (b <=? v).
Proof.
  intros H E. destruct (Z.leb_spec b v).
  - apply Qle_bool_iff. rewrite E. apply Qdiv_le_iff; auto. rewrite <- Zle_Qle. auto.
  - destruct (Qle_bool _ _) eqn:B; auto. apply Qle_bool_iff in B. rewrite E in B.
    apply Qdiv_le_iff in B; auto. rewrite <- Zle_Qle in B. lia.
Qed.

Lemma accumulated_of h w f k :
  (0 < h * w)%nat -> (0 < k)%Q ->
  exists z hh,
    abs_deviation (ravel h w f) = Ok z /\
    histogram1288 (plain z) Qmax1288 = Ok hh /\
    let a := accumulate k (length z) hh in
    accumulated_histogram h w f k (a_bins a) (a_values a).
Proof.
  intros H Hk. rewrite abs_deviation_eq by auto.
  set (t := Z.quot (sumz2 h w f) (Z.of_nat (h * w))).
  set (z := ravel h w (fun r c => Z.abs (f r c - t))).
  assert (Hz : z <> []) by (apply ravel_nonempty; auto).
  destruct (accumulate_spec z k Hz Hk) as (hh & lo & W & E & Mi & HW & A).
  exists z, hh. split; [auto|]. split; [auto|]. cbv zeta in *.
  destruct A as (L & N1 & P). set (a := accumulate k (length z) hh) in *.
  exists t. split; [apply trunc_mean; auto|]. split; [auto|]. split; [auto|].
  assert (Lz : length z = (h * w)%nat) by apply ravel_length. rewrite Lz in P.
  assert (Pn : (0 < qn (h * w))%Q) by (apply qn_pos; auto).
  assert (C : forall i, (i < length (a_bins a))%nat ->
     pixels_with h w (fun r c => Qle_bool (nth i (a_bins a) 0%Q) (inject_Z (Z.abs (f r c - t)) / k)%Q)
     = Z.of_nat (how_many (fun v => lo + Z.of_nat i * W <=? v) z)).
  { intros i Hi. destruct (P i Hi) as (B & _ & _). unfold z. rewrite how_many_ravel.
    unfold pixels_with. apply sumz2_ext. intros r c _ _.
    rewrite (leb_Qle_bool _ _ _ _ Hk B). reflexivity. }
  split; [|split].
  - intros i Hi. rewrite C by auto. destruct (P i Hi) as (_ & V & Pos). split; [exact V|].
    rewrite V. apply Qlt_shift_div_l; [auto|]. rewrite Qmult_0_l.
    apply Qmult_lt_0_compat; [reflexivity|]. apply qn_pos. lia.
  - destruct (P 0%nat ltac:(lia)) as (_ & V & _). rewrite V.
    rewrite how_many_all.
    + rewrite Lz. field. apply qn_neq0; auto.
    + intros v Hv. apply Z.leb_le. destruct Mi as [_ Mi]. specialize (Mi v Hv). lia.
  - intros i j [Hij Hj]. destruct (P i ltac:(lia)) as (B1 & V1 & _).
    destruct (P j Hj) as (B2 & V2 & _). split.
    + rewrite V1, V2. apply Qdiv_le_iff; [auto|].
      rewrite (Qmult_comm 100), (Qmult_comm 100). apply Qmult_le_compat_r; [|discriminate].
      unfold qn. rewrite <- Zle_Qle. apply inj_le. apply how_many_mono.
      intros x Hx. apply Z.leb_le in Hx. apply Z.leb_le. nia.
    + rewrite B1, B2. apply Qdiv_lt_mono; auto. rewrite <- Zlt_Qlt. nia.
Qed.

(** C37, dark *)
Lemma dsnu_accumulated o :
  let s := sd_sum (dark o) in
  (0 < ih s * iw s)%nat -> (0 < sd_L (dark o))%nat ->
  exists a, histogram_DSNU_accumulated o = Ok a /\
    accumulated_histogram (ih s) (iw s) (px s) (qn (sd_L (dark o))) (a_bins a) (a_values a).
Proof.
  intros s H HL.
  destruct (accumulated_of (ih s) (iw s) (px s) (qn (sd_L (dark o))) H (qn_pos _ HL))
    as (z & hh & E1 & E2 & A).
  unfold histogram_DSNU_accumulated, pixels_of. fold s. rewrite E1. cbn [bind].
  rewrite E2. cbn [bind]. eexists. split; [reflexivity|exact A].
Qed.

Lemma sumz2_ext_mean t h w f g :
  (forall r c, (r < h)%nat -> (c < w)%nat -> f r c = g r c) ->
  truncated_mean t h w f -> truncated_mean t h w g.
Proof. intros E. unfold truncated_mean. rewrite (sumz2_ext h w f g E). auto. Qed.

Lemma accumulated_ext h w f g k bins values :
  (forall r c, (r < h)%nat -> (c < w)%nat -> f r c = g r c) ->
  accumulated_histogram h w f k bins values -> accumulated_histogram h w g k bins values.
Proof.
  intros E (t & T & L & N & P & Z0 & M). exists t. split; [apply (sumz2_ext_mean t h w f g); auto|].
  split; [auto|]. split; [auto|]. split; [|auto].
  intros i Hi. destruct (P i Hi) as [P1 P2]. split; [|auto]. rewrite P1.
  replace (pixels_with h w (fun r c => Qle_bool (nth i bins 0%Q) (inject_Z (Z.abs (g r c - t)) / k)%Q))
    with (pixels_with h w (fun r c => Qle_bool (nth i bins 0%Q) (inject_Z (Z.abs (f r c - t)) / k)%Q)).
  - reflexivity.
  - unfold pixels_with. apply sumz2_ext. intros r c Hr Hc. rewrite E by auto. reflexivity.
Qed.

(** C37, bright *)
Lemma prnu_accumulated o h w :
  let b := sd_sum (bright o) in let d := sd_sum (dark o) in
  shape b = (h, w) -> shape d = (h, w) -> (4 < h)%nat -> (4 < w)%nat -> (0 < sd_L (bright o))%nat ->
  let diff := fun r c => px b r c - px d r c in
  exists a, histogram_PRNU_accumulated o = Ok a /\
    accumulated_histogram (h - 4) (w - 4)
      (fun r c => 25 * diff (r + 2)%nat (c + 2)%nat - block_sum 5 diff r c)
      (qn (sd_L (bright o)) * 25) (a_bins a) (a_values a).
Proof.
  intros b d Sb Sd Hh Hw HL diff.
  unfold histogram_PRNU_accumulated, prnu_image. fold b d. rewrite Sb, Sd.
  unfold shape_eqb. cbn [fst snd]. rewrite !Nat.eqb_refl. cbn [andb bind].
  unfold shape in Sb. inversion Sb as [[Eh Ew]]. rewrite Eh, Ew.
  destruct (high_pass_spec (mkImg h w diff) 5 eq_refl ltac:(lia)) as (im & E & Ih & Iw & P).
  unfold diff in E. rewrite E. cbn [bind fst snd]. cbn [ih iw] in Ih, Iw.
  replace (Z.of_nat 5 ^ 2) with 25 in * by reflexivity.
  assert (Hk : (0 < qn (sd_L (bright o)) * 25)%Q).
  { apply Qmult_lt_0_compat; [apply qn_pos; auto|reflexivity]. }
  assert (Hs : (0 < ih im * iw im)%nat) by (rewrite Ih, Iw; simpl; nia).
  destruct (accumulated_of (ih im) (iw im) (px im) _ Hs Hk) as (z & hh & E1 & E2 & A).
  unfold pixels_of. rewrite E1. cbn [bind]. rewrite E2. cbn [bind].
  eexists. split; [reflexivity|].
  replace (h - 4)%nat with (ih im) by (rewrite Ih; reflexivity).
  replace (w - 4)%nat with (iw im) by (rewrite Iw; reflexivity).
  apply (accumulated_ext _ _ (px im)); [|exact A]. intros r c Hr Hc. rewrite P by auto. reflexivity.
Qed.

(** ** The plain histograms of a result object *)
Lemma rescale_bins k d h i : (i < length (h_bins h))%nat ->
  (nth i (h_bins (rescale k d h)) 0 == nth i (h_bins h) 0 / k - d)%Q.
Proof.
  intro H. unfold rescale. cbn [h_bins].
  rewrite (nth_indep _ 0%Q ((fun b => b / k - d)%Q 0%Q)) by (rewrite map_length; auto).
  rewrite (map_nth (fun b => b / k - d)%Q). reflexivity.
Qed.

(** ** C40 *)
Lemma compressed_unmasked d : forall m, compressed_row d m = unmasked d m.
Proof.
  unfold compressed_row. induction d as [|v d IH]; intros [|b m]; simpl; auto.
  destruct b; simpl; [apply IH|f_equal; apply IH].
Qed.

Lemma set_row_length k line buf : length (set_row k line buf) = length buf.
Proof. revert k. induction buf; intros [|k]; simpl; auto. Qed.

Lemma set_row_skip k line buf j : (k < j)%nat -> skipn j (set_row k line buf) = skipn j buf.
Proof.
  revert k j. induction buf as [|r buf IH]; intros k j H; [destruct k; reflexivity|].
  destruct j; [lia|]. destruct k; simpl; [reflexivity|]. apply IH. lia.
Qed.

Lemma set_row_firstn k line buf : (k < length buf)%nat ->
  firstn (S k) (set_row k line buf) =
  firstn k buf ++ [write_prefix line (nth k buf [])].
Proof.
  revert k. induction buf as [|r buf IH]; intros k H; [simpl in H; lia|].
  destruct k; [reflexivity|]. simpl in H. simpl. f_equal. apply IH. lia.
Qed.

(** The rows kept among the first [i] rows. *)
Lemma kept_rows_snoc data masks i :
  (i < length data)%nat -> (i < length masks)%nat ->
  kept_rows (firstn (S i) data) (firstn (S i) masks) =
  kept_rows (firstn i data) (firstn i masks) ++
  match unmasked (nth i data []) (nth i masks []) with [] => [] | r => [r] end.
Proof.
  revert data masks. induction i; intros data masks H1 H2.
  - destruct data as [|d data]; [simpl in H1; lia|].
    destruct masks as [|m masks]; [simpl in H2; lia|]. simpl. destruct (unmasked d m); auto.
  - destruct data as [|d data]; [simpl in H1; lia|].
    destruct masks as [|m masks]; [simpl in H2; lia|]. simpl in H1, H2.
    cbn [firstn kept_rows nth]. change (match data with [] => [] | a :: l => a :: firstn i l end)
      with (firstn (S i) data).
    change (match masks with [] => [] | a :: l => a :: firstn i l end) with (firstn (S i) masks).
    rewrite IHi by lia. destruct (unmasked d m); auto.
Qed.

Lemma unmasked_length d : forall m, (length (unmasked d m) <= length d)%nat.
Proof.
  induction d as [|v d IH]; intros [|b m]; simpl; try lia.
  destruct b; simpl; specialize (IH m); lia.
Qed.

Lemma kept_rows_length data : forall masks, (length (kept_rows data masks) <= length data)%nat.
Proof.
  induction data as [|d data IH]; intros [|m masks]; simpl; try lia.
  specialize (IH masks). destruct (unmasked d m); simpl; lia.
Qed.

Definition cols_of (width : nat) (rows : list (list Z)) : nat :=
  fold_left (fun c r => Nat.min c (length r)) rows width.

Lemma nth_skipn {A} i k (l : list A) d : nth i (skipn k l) d = nth (k + i) l d.
Proof. revert l. induction k; intros [|x l]; simpl; auto. destruct i; reflexivity. Qed.

Lemma skipn_S_tl {A} i : forall l : list A, tl (skipn i l) = skipn (S i) l.
Proof.
  induction i; intros [|x l]; try reflexivity. cbn [skipn]. rewrite IHi. destruct l; reflexivity.
Qed.

Lemma map_nth_ext {A B} (g g' : A -> B) (l l' : list A) (d : A) :
  length l = length l' -> (forall i, (i < length l)%nat -> g (nth i l d) = g' (nth i l' d)) ->
  map g l = map g' l'.
Proof.
  revert l'. induction l as [|x l IH]; intros [|x' l'] L H; simpl in L; try lia; auto.
  simpl. f_equal; [apply (H 0%nat); simpl; lia|]. apply IH; [lia|].
  intros i Hi. apply (H (S i)). simpl. lia.
Qed.

(** Loop invariant: the rows not yet visited are intact, and the first [lines] rows of
    the buffer start with the kept rows. *)
Lemma compress_invariant width data masks i :
  length masks = length data -> (i <= length data)%nat ->
  exists buf,
    fold_left (compress_step masks) (seq 0 i) (data, 0%nat, width) =
      (buf, length (kept_rows (firstn i data) (firstn i masks)),
       cols_of width (kept_rows (firstn i data) (firstn i masks))) /\
    length buf = length data /\
    skipn i buf = skipn i data /\
    (length (kept_rows (firstn i data) (firstn i masks)) <= i)%nat /\
    Forall2 (fun b r => firstn (length r) b = r)
      (firstn (length (kept_rows (firstn i data) (firstn i masks))) buf)
      (kept_rows (firstn i data) (firstn i masks)).
Proof.
  intros Lm. induction i; intro Hi.
  - exists data. repeat split; simpl; auto.
  - destruct IHi as (buf & E & Lb & Sk & Le & F); [lia|].
    set (K := kept_rows (firstn i data) (firstn i masks)) in *.
    rewrite seq_S, fold_left_app, E. cbn [fold_left Nat.add].
    rewrite kept_rows_snoc by lia. fold K.
    assert (Row : nth i buf [] = nth i data []).
    { rewrite <- (Nat.add_0_r i). rewrite <- !nth_skipn, Sk. reflexivity. }
    unfold compress_step. rewrite Row, compressed_unmasked.
    assert (Sk' : skipn (S i) buf = skipn (S i) data).
    { rewrite <- !skipn_S_tl, Sk. reflexivity. }
    set (line := unmasked (nth i data []) (nth i masks [])) in *.
    destruct (length line =? 0)%nat eqn:Z0.
    + apply Nat.eqb_eq in Z0. destruct line; [|simpl in Z0; lia].
      rewrite app_nil_r. exists buf. repeat split; auto.
    + assert (Hl : match line with [] => [] | z :: l => [z :: l] end = [line]).
      { destruct line; [discriminate|reflexivity]. }
      rewrite Hl, app_length. cbn [length].
      exists (set_row (length K) line buf).
      split; [|split; [|split; [|split]]].
      * unfold cols_of. rewrite fold_left_app. cbn [fold_left].
        replace (length K + 1)%nat with (S (length K)) by lia. reflexivity.
      * rewrite set_row_length. auto.
      * rewrite set_row_skip by lia. exact Sk'.
      * lia.
      * replace (length K + 1)%nat with (S (length K)) by lia.
        rewrite set_row_firstn by lia.
        apply Forall2_app; [exact F|]. constructor; [|constructor].
        unfold write_prefix. rewrite firstn_app, firstn_all, Nat.sub_diag, firstn_O, app_nil_r.
        reflexivity.
Qed.

Lemma cols_of_le rows : forall width r, In r rows -> (cols_of width rows <= length r)%nat.
Proof.
  assert (G : forall rows c, (fold_left (fun c r => Nat.min c (length (A := Z) r)) rows c <= c)%nat).
  { induction rows0; intro c; simpl; auto.
    specialize (IHrows0 (Nat.min c (length a))). lia. }
  unfold cols_of. induction rows as [|x rows IH]; intros width r; [intros []|].
  intros [->|H]; simpl.
  - specialize (G rows (Nat.min width (length r))). lia.
  - apply IH; auto.
Qed.

Lemma cols_of_spec rows width :
  (forall r, In r rows -> (length r <= width)%nat) ->
  (rows = [] -> cols_of width rows = width) /\
  (rows <> [] -> exists r, In r rows /\ length r = cols_of width rows).
Proof.
  intro H. split; [intros ->; reflexivity|]. intro N.
  assert (G : forall rows c, cols_of c rows = c \/ exists r, In r rows /\ length r = cols_of c rows).
  { clear. induction rows as [|x rows IH]; intro c; [left; reflexivity|].
    unfold cols_of in *. cbn [fold_left].
    destruct (IH (Nat.min c (length x))) as [E|(r & I & E)].
    - rewrite E. destruct (Nat.min_spec c (length x)) as [[_ ->]|[_ ->]]; [left; auto|].
      right. exists x. simpl; auto.
    - right. exists r. simpl; auto. }
  destruct (G rows width) as [E|E]; auto.
  destruct rows as [|x rows]; [congruence|]. exists x. split; [simpl; auto|].
  assert (A := cols_of_le (x :: rows) width x (or_introl eq_refl)).
  specialize (H x (or_introl eq_refl)). lia.
Qed.

Lemma kept_rows_in data : forall masks r, In r (kept_rows data masks) ->
  r <> [] /\ exists d m, In d data /\ r = unmasked d m.
Proof.
  induction data as [|d data IH]; intros [|m masks] r; simpl; try tauto.
  destruct (unmasked d m) eqn:E.
  - intro H. destruct (IH _ _ H) as (N & d' & m' & I & Er). split; auto. exists d', m'. auto.
  - intros [<-|H].
    + split; [discriminate|]. exists d, m. auto.
    + destruct (IH _ _ H) as (N & d' & m' & I & Er). split; auto. exists d', m'. auto.
Qed.

Lemma compress_spec width data masks :
  length masks = length data ->
  (forall d, In d data -> length d = width) ->
  exists c,
    row_wise_compress width data masks = map (firstn c) (kept_rows data masks) /\
    (forall r, In r (kept_rows data masks) -> (1 <= c <= length r)%nat) /\
    (kept_rows data masks <> [] -> exists r, In r (kept_rows data masks) /\ length r = c).
Proof.
  intros Lm Ld.
  destruct (compress_invariant width data masks (length data) Lm (Nat.le_refl _))
    as (buf & E & Lb & _ & Le & F).
  assert (FA : firstn (length data) masks = masks).
  { rewrite <- Lm. apply firstn_all. }
  rewrite firstn_all, FA in E, Le, F.
  set (K := kept_rows data masks) in *.
  assert (W : forall r, In r K -> (length r <= width)%nat).
  { intros r Hr. destruct (kept_rows_in _ _ _ Hr) as (_ & d & m & I & ->).
    rewrite <- (Ld d I). apply unmasked_length. }
  exists (cols_of width K). split; [|split].
  - unfold row_wise_compress. rewrite E. clear E Le.
    assert (B : forall r, In r K -> (cols_of width K <= length r)%nat) by (apply cols_of_le).
    revert B. generalize (cols_of width K) as c. intros c B.
    revert F B. generalize (firstn (length K) buf) as bs. clear.
    induction K as [|k K IH]; intros bs F B; inversion F as [|b r bs' K' Hb Hf]; subst; [reflexivity|].
    simpl. f_equal; [|apply IH; auto; intros; apply B; simpl; auto].
    rewrite <- Hb. rewrite firstn_firstn.
    rewrite Nat.min_l; auto. apply B. simpl; auto.
  - intros r Hr. split; [|apply cols_of_le; auto].
    destruct (cols_of_spec K width W) as [_ S].
    destruct S as (r' & Hr' & E'). { intro Z0. rewrite Z0 in Hr. destruct Hr. }
    destruct (kept_rows_in _ _ _ Hr') as (N & _). rewrite <- E'. destruct r'; [congruence|]. simpl. lia.
  - intro N. destruct (cols_of_spec K width W) as [_ S]. auto.
Qed.

(** ** Masked or empty input of the histogram *)
Lemma filter_nil_ {A} (f : A -> bool) l : filter f l = [] <-> forall x, In x l -> f x = false.
Proof.
  induction l as [|a l IH]; simpl; [tauto|]. destruct (f a) eqn:E.
  - split; [discriminate|]. intro H. specialize (H a (or_introl eq_refl)). congruence.
  - rewrite IH. split; [intros H x [<-|G]; auto|auto].
Qed.

Lemma histogram_empty y Qmax :
  (y = [] -> histogram1288 y Qmax = Err ValueError) /\
  (y <> [] -> (forall c, In c y -> snd c = true) -> histogram1288 y Qmax = Err TypeError).
Proof.
  split; [intros ->; reflexivity|]. intros N H.
  assert (V : visible y = []).
  { unfold visible. rewrite (proj2 (filter_nil_ _ _)); [reflexivity|]. intros c Hc. rewrite (H c Hc). reflexivity. }
  unfold histogram1288. destruct y; [congruence|]. rewrite V. reflexivity.
Qed.

Lemma masked_counted :
  exists y h, (exists a b, In (a, false) y /\ In (b, true) y) /\
    histogram1288 y 256 = Ok h /\
    lsumz (h_values h) <> Z.of_nat (length (filter (fun c => negb (snd c)) y)).
Proof.
  exists [(0, false); (1, true); (2, false)]. eexists. split; [|split; [reflexivity|]].
  - exists 0, 1. simpl. auto.
  - vm_compute. discriminate.
Qed.

Lemma size_one_empty :
  exists im im', ih im = 3%nat /\ iw im = 3%nat /\
    high_pass_filter im 1 = Ok (im', 1) /\ ih im' = 0%nat /\ iw im' = 0%nat.
Proof.
  exists (mkImg 3 3 (fun r c => Z.of_nat (r + c))). eexists.
  split; [reflexivity|]. split; [reflexivity|]. split; [reflexivity|]. split; reflexivity.
Qed.
