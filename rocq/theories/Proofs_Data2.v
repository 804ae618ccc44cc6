From Coq Require Import List Bool Arith ZArith QArith Lia Permutation Sorting.Sorted Setoid Morphisms.
From Verif Require Import Base_Prelude Base_Num Base_Order Base_Sum Model_Images Model_Loader
  Model_Data Spec_Images Spec_Data Proofs_Images Proofs_Data.
Import ListNotations.
Open Scope Q_scope.
Local Arguments feq : simpl never.
Local Arguments flt : simpl never.

Lemma sumq2_dev h w f m :
  sumq2 h w (fun r c => (f r c - m) * (f r c - m)) ==
  sumq2 h w (fun r c => f r c * f r c) - 2 * m * sumq2 h w f + qn (h * w) * (m * m).
Proof.
  rewrite (sumq2_ext h w _ (fun r c => f r c * f r c - (2 * m) * f r c + m * m)) by (intros; ring).
  rewrite sumq2_plus, sumq2_minus, sumq2_scal, sumq2_const. reflexivity.
Qed.

(** ** C16 *)
Lemma pair_documented h w A B : pair_ok h w A B -> documented h w [A; B].
Proof.
  intros (P & Lm & A1 & A2 & B1 & B2 & Hb). split; [discriminate|]. split; [simpl; lia|].
  split; [|exact Hb]. repeat (apply Forall_cons || apply Forall_nil); auto.
Qed.

Lemma pair_summary h w A B : pair_ok h w A B ->
  exists r, get_int_imgs [A; B] = Ok r /\
    t_sum (temporal_summary r) = sumz2 h w (fun i j => px A i j + px B i j)%Z /\
    t_pvar (temporal_summary r) =
      sumz2 h w (fun i j => 2 * ((px A i j - px B i j) * (px A i j - px B i j)))%Z /\
    t_dmean (temporal_summary r) == grey_mean B - grey_mean A.
Proof.
  intro H. pose proof (pair_documented h w A B H) as D.
  destruct (documented_exact h w [A; B] D) as (r & E & EL & H1 & H2 & H3 & H4 & X).
  exists r. split; auto. destruct H as (P & Lm & A1 & A2 & B1 & B2 & Hb).
  assert (BA : forall i j, (i < h)%nat -> (j < w)%nat -> (0 <= px A i j < 2 ^ 16)%Z /\ (0 <= px B i j < 2 ^ 16)%Z).
  { inversion Hb as [|? ? Ha Hb']; subst. inversion Hb' as [|? ? Hc _]; subst. auto. }
  assert (Es : sumz2 h w (px (ii_sum r)) = sumz2 h w (fun i j => px A i j + px B i j)%Z).
  { apply sumz2_ext. intros i j Hi Hj. destruct (X i j Hi Hj) as (-> & _).
    unfold exact_sum, history. simpl. lia. }
  assert (Ep : sumz2 h w (px (ii_pvar r)) =
               sumz2 h w (fun i j => 2 * ((px A i j - px B i j) * (px A i j - px B i j)))%Z).
  { apply sumz2_ext. intros i j Hi Hj. destruct (X i j Hi Hj) as (_ & ->).
    unfold exact_sum, exact_sq, history. cbn [map lsumz length Z.of_nat Pos.of_succ_nat Pos.succ]. ring. }
  assert (Bs : (0 <= sumz2 h w (fun i j => px A i j + px B i j) <= Z.of_nat (h * w) * 2 ^ 17)%Z).
  { pose proof (sumz2_bounds h w (fun i j => px A i j + px B i j)%Z 0 (2 ^ 17)) as Q.
    rewrite Z.mul_0_r in Q. apply Q. intros i j Hi Hj. destruct (BA i j Hi Hj). lia. }
  assert (Bp : (0 <= sumz2 h w (fun i j => 2 * ((px A i j - px B i j) * (px A i j - px B i j)))
                <= Z.of_nat (h * w) * 2 ^ 33)%Z).
  { pose proof (sumz2_bounds h w (fun i j => 2 * ((px A i j - px B i j) * (px A i j - px B i j)))%Z 0 (2 ^ 33)) as Q.
    rewrite Z.mul_0_r in Q. apply Q. intros i j Hi Hj. destruct (BA i j Hi Hj) as (Ha & Hc).
    set (d := (px A i j - px B i j)%Z) in *. assert (- 2 ^ 16 <= d <= 2 ^ 16)%Z by (unfold d; lia).
    pose proof (Z.square_nonneg d). split; [lia|]. nia. }
  split; [|split].
  - unfold temporal_summary, img_sum. cbn [t_sum]. rewrite H1, H2, Es. apply wrap64_id. lia.
  - unfold temporal_summary, img_sum. cbn [t_pvar]. rewrite H3, H4, Ep. apply wrap64_id. lia.
  - unfold temporal_summary. cbn [t_dmean].
    destruct D as (_ & _ & Sh & _).
    rewrite (dmean_telescopes h w A [B] r Sh); [reflexivity| |exact E].
    unfold int64_pixels. repeat (apply Forall_cons || apply Forall_nil); intros i j Hi Hj;
      destruct (BA i j Hi Hj); lia.
Qed.

Lemma grey_mean_sum h w A : ih A = h -> iw A = w ->
  grey_mean A == sumq2 h w (fun r c => inject_Z (px A r c)) / qn (h * w).
Proof. intros <- <-. reflexivity. Qed.

Lemma pair_estimators h w A B : pair_ok h w A B ->
  exists r, get_int_imgs [A; B] = Ok r /\
    td_mean (h * w) (temporal_summary r) == stack_mean h w [A; B] /\
    td_s2 (h * w) (temporal_summary r) == pair_variance h w A B.
Proof.
  intro H. destruct (pair_summary h w A B H) as (r & E & S & V & Dm). exists r. split; auto.
  destruct H as (P & Lm & A1 & A2 & B1 & B2 & Hb). pose proof (qn_neq0 _ P) as NZ. split.
  - unfold td_mean, stack_mean. rewrite S, <- sumq2_inject.
    rewrite (sumq2_ext h w _ (fun i j => inject_Z (px A i j) + inject_Z (px B i j)))
      by (intros; rewrite inject_Z_plus; reflexivity).
    rewrite sumq2_plus. cbn [map lsumq length]. rewrite (qn_mult 2). change (qn 2) with 2.
    field. auto.
  - unfold td_s2, td_var, td_dmean, pair_variance. rewrite V, Dm, <- sumq2_inject.
    rewrite (grey_mean_sum h w A A1 A2), (grey_mean_sum h w B B1 B2).
    set (SA := sumq2 h w (fun r c => inject_Z (px A r c))).
    set (SB := sumq2 h w (fun r c => inject_Z (px B r c))).
    set (n := qn (h * w)) in *.
    set (d := fun i j => inject_Z (px A i j) - inject_Z (px B i j)).
    rewrite (sumq2_ext h w (fun i j => inject_Z _) (fun i j => 2 * (d i j * d i j))).
    2:{ intros. unfold d, Z.sub. rewrite !inject_Z_mult, inject_Z_plus, inject_Z_opp.
        change (inject_Z 2) with 2. ring. }
    assert (Ed : sumq2 h w d == SA - SB) by (unfold d; apply sumq2_minus).
    match goal with |- _ == _ * ?S =>
      assert (Es : S == sumq2 h w (fun i j => (d i j - (SA / n - SB / n)) * (d i j - (SA / n - SB / n))))
        by (apply sumq2_ext; intros; rewrite (grey_mean_sum h w A A1 A2), (grey_mean_sum h w B B1 B2);
            unfold d; fold SA SB n; ring) end.
    rewrite Es, sumq2_scal, sumq2_dev. fold n. rewrite Ed. field. auto.
Qed.

Lemma pair_variance_nonneg h w A B : (0 < h * w)%nat -> 0 <= pair_variance h w A B.
Proof.
  intro P. unfold pair_variance. apply Qmult_le_0_compat.
  - unfold Qdiv. rewrite Qmult_1_l. apply Qinv_le_0_compat.
    apply Qmult_le_0_compat; [discriminate|apply qn_nonneg].
  - apply sumq2_nonneg. intros. apply qsq_nonneg.
Qed.

Lemma pair_variance_swap h w A B : pair_variance h w A B == pair_variance h w B A.
Proof.
  unfold pair_variance. apply Qmult_comp; [reflexivity|]. apply sumq2_ext. intros. ring.
Qed.

Lemma pair_variance_shift h w A k :
  ih A = h -> iw A = w -> (0 < h * w)%nat -> pair_variance h w A (shift k A) == 0.
Proof.
  intros A1 A2 P. unfold pair_variance.
  assert (G : grey_mean (shift k A) == grey_mean A + inject_Z k).
  { rewrite (grey_mean_sum h w (shift k A)), (grey_mean_sum h w A) by auto. simpl.
    rewrite (sumq2_ext h w _ (fun r c => inject_Z (px A r c) + inject_Z k))
      by (intros; rewrite inject_Z_plus; reflexivity).
    rewrite sumq2_plus, sumq2_const. field. apply qn_neq0. auto. }
  rewrite (sumq2_ext h w _ (fun _ _ => 0)).
  - rewrite sumq2_const. ring.
  - intros. rewrite G. simpl. rewrite inject_Z_plus. ring.
Qed.

(** ** C21 *)
Lemma stack_sum h w imgs :
  sumq2 h w (fun r c => inject_Z (exact_sum (history imgs r c))) ==
  lsumq (map (fun im => sumq2 h w (fun r c => inject_Z (px im r c))) imgs).
Proof.
  induction imgs as [|im imgs IH].
  - simpl. unfold exact_sum, history. simpl. rewrite sumq2_const. ring.
  - cbn [map lsumq]. rewrite <- IH, <- sumq2_plus. apply sumq2_ext. intros.
    unfold exact_sum, history. cbn [map lsumz]. rewrite inject_Z_plus. reflexivity.
Qed.

Lemma avg_pixel_eq imgs r c :
  avg_pixel imgs r c == inject_Z (exact_sum (history imgs r c)) / qn (length imgs).
Proof.
  unfold avg_pixel, mean, exact_sum. rewrite lsumq_inject, map_length, history_length. reflexivity.
Qed.

Lemma qdiv_div a b c : ~ b == 0 -> ~ c == 0 -> a / b / c == a / (b * c).
Proof. intros. field. auto. Qed.

Lemma pop_var_ext n f g : (forall i, (i < n)%nat -> f i == g i) -> pop_var n f == pop_var n g.
Proof.
  intro H. unfold pop_var. pose proof (sumq_ext n f g H) as S.
  apply Qmult_comp; [|reflexivity]. apply sumq_ext. intros i Hi. rewrite (H i Hi), S. reflexivity.
Qed.

Lemma pop_var_mean n f m :
  sumq n f / qn n == m -> pop_var n f == sumq n (fun i => (f i - m) * (f i - m)) / qn n.
Proof.
  intro H. unfold pop_var. apply Qmult_comp; [|reflexivity]. apply sumq_ext. intros.
  rewrite H. reflexivity.
Qed.

Lemma spatial_statistics h w imgs :
  documented h w imgs -> (2 <= length imgs)%nat -> (2 <= h * w)%nat ->
  exists r s, get_int_imgs imgs = Ok r /\ get_spatial_data h w r = Ok s /\
    sd_L s = length imgs /\ sd_M s = h /\ sd_N s = w /\
    sd_avg_mean s == stack_mean h w imgs /\
    exists var_mean avg_var cav rav,
      sd_var_mean s = Some var_mean /\ sd_avg_var s = Some avg_var /\
      sd_avg_var_cav s = Some cav /\ sd_avg_var_rav s = Some rav /\
      var_mean == pixel_mean h w (fun r c => unbiased_var (map inject_Z (history imgs r c))) /\
      avg_var == sumq2 h w (fun r c =>
         (avg_pixel imgs r c - stack_mean h w imgs) * (avg_pixel imgs r c - stack_mean h w imgs))
         / qn (h * w - 1) /\
      cav == pop_var w (col_mean h (avg_pixel imgs)) - var_mean / (qn (length imgs) * qn h) /\
      rav == pop_var h (row_mean w (avg_pixel imgs)) - var_mean / (qn (length imgs) * qn w).
Proof.
  intros D L2 P2.
  assert (hw : (0 < h)%nat /\ (0 < w)%nat) by nia. destruct hw as (hp & wp).
  destruct (documented_exact h w imgs D) as (r & E & EL & H1 & H2 & H3 & H4 & X).
  destruct (pvar_is_variance h w imgs D L2) as (r' & E' & V). rewrite E in E'. injection E' as <-.
  exists r. unfold get_spatial_data. rewrite EL, H1, H2.
  destruct (length imgs =? 0)%nat eqn:L0; [apply Nat.eqb_eq in L0; lia|].
  destruct (w =? 0)%nat eqn:W0; [apply Nat.eqb_eq in W0; lia|].
  destruct (h =? 0)%nat eqn:HH0; [apply Nat.eqb_eq in HH0; lia|].
  destruct (length imgs =? 1)%nat eqn:L1; [apply Nat.eqb_eq in L1; lia|].
  destruct (h * w =? 1)%nat eqn:HW1; [apply Nat.eqb_eq in HW1; lia|].
  eexists. split; [exact E|]. split; [reflexivity|]. cbn [sd_L sd_M sd_N sd_avg_mean sd_var_mean
    sd_avg_var sd_avg_var_cav sd_avg_var_rav omap].
  split; auto. split; auto. split; auto.
  set (L := qn (length imgs)) in *.
  assert (NL : ~ L == 0) by (apply qn_neq0; lia).
  assert (Nh : ~ qn h == 0) by (apply qn_neq0; lia).
  assert (Nw : ~ qn w == 0) by (apply qn_neq0; lia).
  assert (Nhw : ~ qn (h * w) == 0) by (apply qn_neq0; lia).
  assert (NL1 : ~ qn (length imgs - 1) == 0) by (apply qn_neq0; lia).
  assert (AV : forall i j, (i < h)%nat -> (j < w)%nat ->
            inject_Z (px (ii_sum r) i j) / L == avg_pixel imgs i j).
  { intros i j Hi Hj. destruct (X i j Hi Hj) as (-> & _). symmetry. apply avg_pixel_eq. }
  assert (AM : sumq2 h w (fun r0 c => inject_Z (px (ii_sum r) r0 c) / L) / qn (h * w)
               == stack_mean h w imgs).
  { rewrite (sumq2_ext h w _ (fun i j => inject_Z (exact_sum (history imgs i j)) / L)).
    2:{ intros i j Hi Hj. destruct (X i j Hi Hj) as (-> & _). reflexivity. }
    rewrite sumq2_div, stack_sum. unfold stack_mean. rewrite (qn_mult (length imgs)).
    fold L. apply qdiv_div; auto. }
  split; [exact AM|].
  do 4 eexists. split; [reflexivity|]. split; [reflexivity|]. split; [reflexivity|]. split; [reflexivity|].
  split; [|split; [|split]].
  - unfold pixel_mean. apply Qmult_comp; [|reflexivity]. apply sumq2_ext. intros i j Hi Hj.
    rewrite (V i j Hi Hj). fold L. field. auto.
  - apply Qmult_comp; [|reflexivity]. apply sumq2_ext. intros i j Hi Hj.
    rewrite AM, (AV i j Hi Hj). reflexivity.
  - rewrite (qn_mult (length imgs)). fold L. apply Qplus_comp; [|reflexivity].
    assert (CM : forall c, (c < w)%nat ->
       sumq h (fun r0 => inject_Z (px (ii_sum r) r0 c) / L) / qn h == col_mean h (avg_pixel imgs) c).
    { intros c Hc. unfold col_mean. apply Qmult_comp; [|reflexivity]. apply sumq_ext. auto. }
    assert (MM : sumq w (col_mean h (avg_pixel imgs)) / qn w == stack_mean h w imgs).
    { unfold col_mean. rewrite sumq_div. rewrite sumq_swap. rewrite qdiv_div by auto.
      rewrite <- qn_mult. rewrite <- AM. apply Qmult_comp; [|reflexivity].
      apply sumq2_ext. intros. symmetry. auto. }
    rewrite (pop_var_mean _ _ _ MM). unfold Qdiv at 1. rewrite Qmult_1_l, Qmult_comm.
    apply Qmult_comp; [|reflexivity]. apply sumq_ext. intros c Hc. rewrite (CM c Hc), AM. reflexivity.
  - rewrite (qn_mult (length imgs)). fold L. apply Qplus_comp; [|reflexivity].
    assert (CM : forall i, (i < h)%nat ->
       sumq w (fun c => inject_Z (px (ii_sum r) i c) / L) / qn w == row_mean w (avg_pixel imgs) i).
    { intros i Hi. unfold row_mean. apply Qmult_comp; [|reflexivity]. apply sumq_ext. auto. }
    assert (MM : sumq h (row_mean w (avg_pixel imgs)) / qn h == stack_mean h w imgs).
    { unfold row_mean. rewrite sumq_div. rewrite qdiv_div by auto.
      rewrite (Qmult_comm (qn w)), <- qn_mult. rewrite <- AM. apply Qmult_comp; [|reflexivity].
      apply sumq2_ext. intros. symmetry. auto. }
    rewrite (pop_var_mean _ _ _ MM). unfold Qdiv at 1. rewrite Qmult_1_l, Qmult_comm.
    apply Qmult_comp; [|reflexivity]. apply sumq_ext. intros i Hi. rewrite (CM i Hi), AM. reflexivity.
Qed.

(** ** C22 *)
Lemma existsb_sorted_dark {V} (inner : dict pyfloat V) :
  existsb (feq fzero) (py_sorted (dkeys inner)) = true <-> Exists (fun x => is_dark (fst x)) inner.
Proof.
  rewrite existsb_exists, Exists_exists. unfold is_dark, dkeys. split.
  - intros (p & Hp & F). apply (Permutation_in _ (sorted_perm _)) in Hp.
    apply in_map_iff in Hp. destruct Hp as (x & <- & Hx). eauto.
  - intros (x & Hx & F). exists (fst x). split; auto.
    apply (Permutation_in _ (Permutation_sym (sorted_perm _))). apply in_map. auto.
Qed.

Lemma sorted_length l : length (py_sorted l) = length l.
Proof. apply Permutation_length, sorted_perm. Qed.

Lemma dkeys_length {V} (d : dict pyfloat V) : length (dkeys d) = length d.
Proof. apply map_length. Qed.

Lemma spatial_data_ok M N d : (0 < M)%nat -> (0 < N)%nat -> (0 < ii_L d)%nat ->
  exists s, get_spatial_data M N d = Ok s.
Proof.
  intros HM HN HL. unfold get_spatial_data.
  destruct (ii_L d =? 0)%nat eqn:E1; [apply Nat.eqb_eq in E1; lia|].
  destruct (N =? 0)%nat eqn:E2; [apply Nat.eqb_eq in E2; lia|].
  destruct (M =? 0)%nat eqn:E3; [apply Nat.eqb_eq in E3; lia|]. eauto.
Qed.

Lemma two_sorted {V} (inner : dict pyfloat V) :
  numeric_keys inner -> length inner = 2%nat ->
  exists p1 d1 p2 d2, Permutation [(p1, d1); (p2, d2)] inner /\
    py_sorted (dkeys inner) = [p1; p2] /\ flt p1 p2 = true.
Proof.
  intros K L. destruct (sort_entries inner) as (E & HE & P).
  pose proof (Permutation_length P) as PL. rewrite L in PL.
  destruct E as [|(p1 & d1) [|(p2 & d2) [|? ?]]]; simpl in PL; try lia.
  exists p1, d1, p2, d2. split; auto. split; [symmetry; exact HE|].
  pose proof (py_sorted_strict _ (proj1 K) (proj2 K)) as S. unfold dkeys in HE. rewrite <- HE in S.
  inversion S as [|? ? _ F]; subst. inversion F; auto.
Qed.

Lemma spatial_outcome M N data :
  (0 < M)%nat -> (0 < N)%nat ->
  Forall (fun e => numeric_keys (snd e)) data ->
  Forall (fun e => Forall (fun x => (0 < ii_L (snd x))%nat) (snd e)) data ->
  (one_dark_one_bright data /\ exists s, get_spatial M N data = Ok s) \/
  (~ one_dark_one_bright data /\ get_spatial M N data = Err ValueError).
Proof.
  intros HM HN K HL. destruct data as [|(t & inner) [|e data]].
  - right. split; [|reflexivity]. intros (t & i & E & _). discriminate.
  - cbn [get_spatial]. destruct (existsb (feq fzero) (py_sorted (dkeys inner))) eqn:X; simpl negb; cbv iota.
    2:{ right. split; auto. intros (t' & i & E & _ & Ex). injection E as <- <-.
        apply existsb_sorted_dark in Ex. congruence. }
    apply existsb_sorted_dark in X. rewrite sorted_length, dkeys_length.
    destruct (length inner =? 2)%nat eqn:L; simpl negb; cbv iota.
    2:{ right. split; auto. intros (t' & i & E & L2 & _). injection E as <- <-.
        apply Nat.eqb_neq in L. exact (L L2). }
    apply Nat.eqb_eq in L. left. split; [exists t, inner; auto|].
    inversion K as [|? ? K1 _]; subst. simpl in K1. inversion HL as [|? ? HL1 _]; subst. simpl in HL1.
    destruct (two_sorted inner K1 L) as (p1 & d1 & p2 & d2 & P & ES & F).
    apply Exists_exists in X. destruct X as ((z & d0) & Hz & Dz). simpl in Dz.
    rewrite (dget_feq inner fzero z d0 K1 Hz Dz). simpl bind.
    rewrite Forall_forall in HL1. destruct (spatial_data_ok M N d0 HM HN (HL1 _ Hz)) as (s0 & ->).
    simpl bind. rewrite ES. simpl bind.
    assert (H2 : In (p2, d2) inner) by (eapply Permutation_in; [exact P|]; simpl; auto).
    rewrite (dget_in inner p2 d2 K1 H2). simpl bind.
    destruct (spatial_data_ok M N d2 HM HN (HL1 _ H2)) as (s2 & ->). simpl. eauto.
  - right. split; [|reflexivity]. intros (t' & i & E & _). discriminate.
Qed.

Lemma spatial_accepts_iff M N data :
  (0 < M)%nat -> (0 < N)%nat ->
  Forall (fun e => numeric_keys (snd e)) data ->
  Forall (fun e => Forall (fun x => (0 < ii_L (snd x))%nat) (snd e)) data ->
  ((exists s, get_spatial M N data = Ok s) <-> one_dark_one_bright data) /\
  (get_spatial M N data = Err ValueError <-> ~ one_dark_one_bright data).
Proof.
  intros HM HN K HL. destruct (spatial_outcome M N data HM HN K HL) as [(C & s & E)|(C & E)]; rewrite E.
  - split; split; eauto; try discriminate. intro. contradiction.
  - split; split; auto; try contradiction. intros (s & F). discriminate.
Qed.

Lemma spatial_roles M N data s :
  Forall (fun e => numeric_keys (snd e)) data -> nonneg_photons data ->
  get_spatial M N data = Ok s ->
  exists inner z d0 d1, data = [(sp_texp s, inner)] /\
    Permutation inner [(z, d0); (sp_up s, d1)] /\ is_dark z /\ ~ is_dark (sp_up s) /\
    get_spatial_data M N d0 = Ok (sp_dark s) /\ get_spatial_data M N d1 = Ok (sp_bright s).
Proof.
  intros K NN H. destruct data as [|(t & inner) [|e data]]; try discriminate.
  cbn [get_spatial] in H.
  destruct (existsb (feq fzero) (py_sorted (dkeys inner))) eqn:X; simpl negb in H; cbv iota in H; [|discriminate].
  apply existsb_sorted_dark in X. rewrite sorted_length, dkeys_length in H.
  destruct (length inner =? 2)%nat eqn:L; simpl negb in H; cbv iota in H; [|discriminate].
  apply Nat.eqb_eq in L. inversion K as [|? ? K1 _]; subst. simpl in K1.
  inversion NN as [|? ? N1 _]; subst. simpl in N1.
  destruct (two_sorted inner K1 L) as (p1 & d1 & p2 & d2 & P & ES & F).
  assert (H1 : In (p1, d1) inner) by (eapply Permutation_in; [exact P|]; simpl; auto).
  assert (H2 : In (p2, d2) inner) by (eapply Permutation_in; [exact P|]; simpl; auto).
  unfold nonneg_counts in N1. rewrite Forall_forall in N1.
  pose proof (N1 _ H1) as G1. simpl in G1.
  assert (D1 : is_dark p1).
  { apply Exists_exists in X. destruct X as ((z & d0) & Hz & Dz). simpl in Dz.
    apply (Permutation_in _ (Permutation_sym P)) in Hz. destruct Hz as [E|[E|[]]]; injection E as -> ->; auto.
    unfold is_dark in Dz. rewrite <- (feq_flt_r _ _ p1 Dz) in F. congruence. }
  assert (D2 : ~ is_dark p2).
  { intro Q. unfold is_dark in *. rewrite <- (feq_flt_r _ _ p1 Q), <- (feq_flt_l _ _ fzero D1), flt_irrefl in F.
    discriminate. }
  rewrite (dget_feq inner fzero p1 d1 K1 H1 D1) in H. simpl bind in H.
  destruct (get_spatial_data M N d1) as [s1|] eqn:E1; [|discriminate]. simpl bind in H.
  rewrite ES in H. simpl bind in H. rewrite (dget_in inner p2 d2 K1 H2) in H. simpl bind in H.
  destruct (get_spatial_data M N d2) as [s2|] eqn:E2; [|discriminate]. simpl bind in H.
  injection H as <-. simpl. exists inner, p1, d1, d2. repeat split; auto.
  apply Permutation_sym. auto.
Qed.

(** ** Forms used in the property file *)
Lemma pair_ok_swap h w A B : pair_ok h w A B -> pair_ok h w B A.
Proof.
  intros (P & L & A1 & A2 & B1 & B2 & Hb). unfold pair_ok. repeat split; auto.
  inversion Hb as [|? ? Ha Hb']; subst. inversion Hb' as [|? ? Hc _]; subst.
  constructor; auto.
Qed.

Lemma pair_nonneg_symmetric h w A B : pair_ok h w A B ->
  exists r r', get_int_imgs [A; B] = Ok r /\ get_int_imgs [B; A] = Ok r' /\
    0 <= td_s2 (h * w) (temporal_summary r) /\
    td_s2 (h * w) (temporal_summary r') == td_s2 (h * w) (temporal_summary r).
Proof.
  intro H. destruct (pair_estimators h w A B H) as (r & E & _ & S).
  destruct (pair_estimators h w B A (pair_ok_swap _ _ _ _ H)) as (r' & E' & _ & S').
  exists r, r'. split; auto. split; auto. rewrite S, S'. split.
  - apply pair_variance_nonneg. apply H.
  - apply pair_variance_swap.
Qed.

Lemma pair_shift h w A k : pair_ok h w A (shift k A) ->
  exists r, get_int_imgs [A; shift k A] = Ok r /\ td_s2 (h * w) (temporal_summary r) == 0.
Proof.
  intro H. destruct (pair_estimators h w A _ H) as (r & E & _ & S). exists r. split; auto.
  rewrite S. destruct H as (P & L & A1 & A2 & _). apply pair_variance_shift; auto.
Qed.

Lemma lengths_differ n data : well_keyed data /\ nonneg_photons data ->
  (exists T, get_temporal n data = Ok T /\ length (tp_uydark T) <> length (tp_uy T)) ->
  exists T, well_keyed data /\ nonneg_photons data /\ get_temporal n data = Ok T /\
    length (tp_uydark T) <> length (tp_uy T).
Proof. intros (A & B) (T & E & L). exists T. auto. Qed.

Lemma dark_among_bright n data : well_keyed data ->
  (exists T, get_temporal n data = Ok T /\ Exists is_dark (tp_up T)) ->
  exists T, well_keyed data /\ get_temporal n data = Ok T /\ Exists is_dark (tp_up T).
Proof. intros A (T & E & L). exists T. auto. Qed.

Lemma spatial_dark_twice M N data : Forall (fun e => numeric_keys (snd e)) data ->
  (exists s, get_spatial M N data = Ok s /\ is_dark (sp_up s)) ->
  exists s, Forall (fun e => numeric_keys (snd e)) data /\
    get_spatial M N data = Ok s /\ is_dark (sp_up s).
Proof. intros A (s & E & L). exists s. auto. Qed.
