(** SNR curves, dark curve and axis limits. *)
From Coq Require Import Ascii String List Bool Arith ZArith QArith Reals Qreals Sorting.Sorted Lia Lra Psatz.
From Verif Require Import Base_Prelude Base_Str Base_Num Base_Float Base_Order Base_Sum Base_Xreal Model_Images
  Model_Data Model_Results Model_Hist Model_Profile Model_Plot Spec_Results Spec_Plot Proofs_Results Proofs_Fit
  Proofs_Results2 Proofs_Results3 Proofs_Results4 Proofs_Plot.
Import ListNotations.

(** ** Dark curve *)
Open Scope Q_scope.

Lemma lsumq_ge t l : Forall (fun x => t <= x) l -> qn (length l) * t <= lsumq l /\
  (lsumq l == qn (length l) * t -> Forall (fun x => x == t) l).
Proof.
  induction l as [|x l IH]; intro F.
  - split; [simpl; unfold qn; simpl; setoid_replace (0 * t) with 0 by ring; apply Qle_refl|constructor].
  - inversion F; subst. destruct (IH H2) as (A & B).
    assert (Q : qn (length (x :: l)) == qn (length l) + 1).
    { unfold qn. cbn [length]. rewrite Nat2Z.inj_succ. unfold Z.succ. rewrite inject_Z_plus. reflexivity. }
    cbn [lsumq fold_right]. rewrite Q. split.
    + setoid_replace ((qn (length l) + 1) * t) with (t + qn (length l) * t) by ring.
      apply Qplus_le_compat; auto.
    + intro E. assert (E' : x + lsumq l == t + qn (length l) * t) by (rewrite E; ring).
      assert (X : x == t).
      { apply Qle_antisym; auto. apply Qplus_le_l with (z := lsumq l). rewrite E'. apply Qplus_le_r. auto. }
      constructor; auto. apply B. rewrite X in E'. apply (Qplus_inj_l _ _ t). auto.
Qed.

Lemma xy_at a b n : length a = n -> length b = n -> xy a b = Ok (map (fun i => (at_ a i, at_ b i)) (seq 0 n)).
Proof. intros A B. rewrite (at_list a n A) at 1. rewrite (at_list b n B) at 1. apply xy_seq. Qed.

Lemma show_uydark o n : shaped o n -> (0 < n)%nat -> ascending (r_texp (o_t o)) ->
  exists data, plot_uydark o = Ok [data] /\
    (k_joined data = false <-> all_same (r_texp (o_t o))) /\
    k_points data = map (fun i => (at_ (r_texp (o_t o)) i, at_ (r_uydark (o_t o)) i)) (all_points n).
Proof.
  intros (L1 & _ & _ & _ & L2 & _) P A. unfold plot_uydark, all_points.
  rewrite (xy_at _ _ n L1 L2).
  destruct (r_texp (o_t o)) as [|t l] eqn:E; [simpl in L1; lia|].
  change (get (t :: l) 0) with (Ok t). cbn [bind np_mean]. eexists. split; [reflexivity|]. split; [|reflexivity].
  cbn [k_joined]. rewrite negb_false_iff, Qeq_bool_iff. inversion A; subst.
  assert (F : Forall (fun x => t <= x) (t :: l)) by (constructor; auto; apply Qle_refl).
  destruct (lsumq_ge t (t :: l) F) as (_ & G).
  assert (NZ : ~ qn (length (t :: l)) == 0) by (unfold qn, Qeq; simpl; lia).
  split.
  - intro M. assert (S : Forall (fun x => x == t) (t :: l)).
    { apply G. transitivity (qn (length (t :: l)) * (lsumq (t :: l) / qn (length (t :: l)))); [field; auto|].
      apply Qmult_comp; [reflexivity|exact M]. }
    rewrite Forall_forall in S. intros x y Hx Hy. rewrite (S x Hx), (S y Hy). reflexivity.
  - intro S. assert (S' : lsumq (t :: l) == qn (length (t :: l)) * t).
    { clear - S. assert (H : forall x, In x (t :: l) -> x == t) by (intros x Hx; apply S; simpl; auto).
      revert H. generalize (t :: l) as k. induction k as [|x k IH]; intro H.
      - unfold qn. simpl. ring.
      - cbn [lsumq fold_right length]. rewrite IH by (intros; apply H; right; auto). rewrite (H x) by (left; auto).
        unfold qn. rewrite Nat2Z.inj_succ. unfold Z.succ. rewrite inject_Z_plus. ring. }
    rewrite S'. field. auto.
Qed.

(** Three exposures of 0.1 ns are joined by a line. *)
Lemma uydark_rounds : exists t, t = rnd64 (1 # 10) /\ joined_f [t; t; t] = Ok true.
Proof. eexists. split; [reflexivity|]. vm_compute. reflexivity. Qed.

(** Exposures of 1, 1 and 1 + 2^-52 are different but not joined. *)
Lemma uydark_hides : exists a b, flt a b = true /\ joined_f [a; a; b] = Ok false.
Proof. exists (FFin 1), (FFin (1 + (1 # 2 ^ 52))). split; vm_compute; reflexivity. Qed.

(** ** SNR *)
Open Scope R_scope.

Lemma ceil_int z : ceil (IZR z) = z.
Proof.
  unfold ceil, Int_part. rewrite <- (tech_up (- IZR z) (- z + 1)); [lia| |];
    rewrite plus_IZR, opp_IZR; lra.
Qed.

Lemma Q2R_hundred : Q2R 100 = 100.
Proof. unfold Q2R. simpl. lra. Qed.

Section Snr.
  Context (o : robj) (n : nat) (lo : R) (hi : Q) (OT : ordinary_test o n lo hi).

  Lemma threshold_positive : 0 < lo.
  Proof.
    destruct (ot_gain _ _ _ _ OT) as (k & K & PK). destruct (ot_responsivity _ _ _ _ OT) as (r & R & PR).
    destruct (ot_dark _ _ _ _ OT) as (s & S & PS & _).
    assert (NK : ~ (k == 0)%Q) by (intro E; rewrite E in PK; discriminate).
    assert (NR : ~ (r == 0)%Q) by (intro E; rewrite E in PR; discriminate).
    destruct (sensitivity_identities o k r s hi K R NK NR S (ot_sat _ _ _ _ OT))
      as (qe & um & ue & us & ik & _ & M & _ & _ & _ & E1 & E2 & E3 & _ & _).
    rewrite (ot_min _ _ _ _ OT) in M. injection M as <-.
    apply Qlt_Rlt in PK. apply Qlt_Rlt in PR. rewrite RMicromega.Q2R_0 in PK, PR.
    assert (PU : 0 < ue). { rewrite E2. assert (0 < s / Q2R k) by (apply Rdiv_lt_0_compat; auto). lra. }
    assert (PQ : 0 < qe). { apply Rmult_lt_reg_r with (Q2R k); auto. rewrite E1. nra. }
    assert (PL : 0 < qe * lo) by lra. apply Rmult_lt_reg_l with qe; auto. lra.
  Qed.

  Lemma samples_value : snr_samples o = Ok (map (sample lo hi) (seq 0 100)).
  Proof.
    pose proof (ot_below _ _ _ _ OT) as B.
    unfold snr_samples. rewrite (ot_min _ _ _ _ OT), (ot_sat _ _ _ _ OT). cbn [bind].
    unfold xsub, xq. cbn [xneg xadd]. rewrite Q2R_hundred, xdiv_fin by lra. unfold arange, xsub. cbn [xneg xadd].
    rewrite xdiv_fin by lra.
    replace ((Q2R hi + - lo) / ((Q2R hi + - lo) / 100)) with (IZR 100) by (field; lra).
    rewrite ceil_int. reflexivity.
  Qed.

  Lemma sample_mono i j : (i <= j)%nat -> sample lo hi i <= sample lo hi j.
  Proof.
    intro H. apply le_INR in H. pose proof (ot_below _ _ _ _ OT) as B. unfold sample.
    apply Rplus_le_compat_l. apply Rmult_le_compat_r; [lra|auto].
  Qed.

  Lemma sample_range i : (i < 100)%nat -> lo <= sample lo hi i < Q2R hi.
  Proof.
    intro H. pose proof (ot_below _ _ _ _ OT) as B. split.
    - replace lo with (sample lo hi 0) at 1 by (unfold sample; simpl; lra). apply sample_mono. lia.
    - apply lt_INR in H. unfold sample. replace (INR 100) with 100 in H by (simpl; lra).
      apply Rlt_le_trans with (lo + 100 * ((Q2R hi - lo) / 100)); [|right; field].
      apply Rplus_lt_compat_l. apply Rmult_lt_compat_r; [lra|auto].
  Qed.

  Lemma mapM_all {A B} (f : A -> res B) (g : A -> B) l : (forall x, In x l -> f x = Ok (g x)) ->
    mapM f l = Ok (map g l).
  Proof.
    induction l as [|x l IH]; intro H; auto. cbn [mapM map]. rewrite H by (left; auto). cbn [bind].
    rewrite IH by (intros; apply H; right; auto). reflexivity.
  Qed.

  Lemma take_seq {A} (f : nat -> A) l : Forall (fun i => (i < n)%nat) l -> take (map f (seq 0 n)) l = Ok (map f l).
  Proof.
    intro F. apply mapM_all. intros i I. rewrite Forall_forall in F. apply get_seq. auto.
  Qed.

  Lemma data_value : snr_data o = Ok (map (fun i => (photons o i, XR (Q2R (sig o i) / sqrt (Q2R (at_ (r_s2y (o_t o)) i)))))
    (filter (fun i => negb (Qeq_bool (at_ (r_s2y (o_t o)) i) 0)) (seq 0 n))).
  Proof.
    pose proof (ot_shaped _ _ _ _ OT) as SH. unfold snr_data. cbv zeta.
    assert (L : length (r_s2y (o_t o)) = n) by apply SH.
    assert (NZ : nonzero (r_s2y (o_t o)) = filter (fun i => negb (Qeq_bool (at_ (r_s2y (o_t o)) i) 0)) (seq 0 n))
      by (rewrite (at_list _ n L) at 1; apply argwhere_seq).
    rewrite NZ. clear NZ. set (nz := filter _ _).
    assert (F : Forall (fun i => (i < n)%nat) nz).
    { apply Forall_forall. intros i I. apply filter_In in I. destruct I as (I & _). apply in_seq in I. lia. }
    rewrite (up_seq o n SH), take_seq by auto. cbn [bind]. rewrite (signal_shaped o n SH). cbn [bind].
    rewrite !take_seq by auto. cbn [bind].
    assert (TK : take (r_s2y (o_t o)) nz = Ok (map (at_ (r_s2y (o_t o))) nz))
      by (rewrite (at_list _ n L) at 1; apply take_seq; auto).
    rewrite TK. cbn [bind]. rewrite !map_length, Nat.eqb_refl.
    assert (C : forall l, combine (map (sig o) l) (map (at_ (r_s2y (o_t o))) l) = map (fun i => (sig o i, at_ (r_s2y (o_t o)) i)) l)
      by (induction l; simpl; congruence).
    rewrite C, map_map, xy_seq. f_equal. apply map_ext_in. intros i I. f_equal. cbn [fst snd].
    unfold nz in I. apply filter_In in I. destruct I as (I & NZ). apply in_seq in I.
    apply negb_true_iff in NZ. apply Qeq_bool_false in NZ.
    assert (P : (0 < at_ (r_s2y (o_t o)) i)%Q).
    { assert (V := ot_variance _ _ _ _ OT i). destruct (Qle_lt_or_eq _ _ (V ltac:(lia))) as [H|H]; auto.
      exfalso. apply NZ. symmetry. auto. }
    apply Qlt_Rlt in P. rewrite RMicromega.Q2R_0 in P. unfold xq. rewrite xsqrt_fin by lra.
    rewrite xdiv_fin; auto. assert (0 < sqrt (Q2R (at_ (r_s2y (o_t o)) i))) by (apply sqrt_lt_R0; auto). lra.
  Qed.

  Lemma curve_heights x : 0 <= x -> exists th tot,
    snr_theoretical o x = Ok (XR th) /\ snr_total o x = Ok (XR tot) /\ snr_ideal x = XR (sqrt x) /\
    th <= sqrt x /\ tot <= sqrt x.
  Proof.
    intro X.
    destruct (ot_gain _ _ _ _ OT) as (k & K & PK). destruct (ot_responsivity _ _ _ _ OT) as (r & R & PR).
    destruct (ot_dark _ _ _ _ OT) as (s & S & PS & S2). destruct (ot_efficiency _ _ _ _ OT) as (q & Q & Q100).
    destruct (ot_dsnu _ _ _ _ OT) as (ds & DS). destruct (ot_prnu _ _ _ _ OT) as (pr & PRN).
    destruct (curves_ordered o k r s K R PK PR S PS S2 x ds pr X DS PRN) as (qe & th & tot & E1 & E2 & E3 & E4 & E5 & E6 & E7).
    rewrite Q in E1. injection E1 as <-. specialize (E7 Q100). exists th, tot. repeat split; auto; lra.
  Qed.

  Lemma heights_exist f (F : f = snr_theoretical o \/ f = snr_total o) : exists g, forall i, (i < 100)%nat ->
    f (sample lo hi i) = Ok (XR (g i)) /\ g i <= sqrt (sample lo hi i).
  Proof.
    exists (fun i => match f (sample lo hi i) with Ok (XR v) => v | _ => 0 end). intros i I.
    destruct (sample_range i I) as (A & _). pose proof threshold_positive as P.
    destruct (curve_heights (sample lo hi i)) as (th & tot & E1 & E2 & _ & E4 & E5); [lra|].
    destruct F as [->| ->]; rewrite ?E1, ?E2; auto.
  Qed.

  Lemma one_snr mi (FM : Forall (fun x => exists r, x = XR r) mi) : exists pl top,
    plot_snr mi o = Ok (pl, (mi ++ [XR (sqrt (sample lo hi 99))])%list, top) /\
    (forall r, In (XR r) mi -> r <= top) /\ sqrt (sample lo hi 99) <= top /\
    n_data pl = map (fun i => (photons o i, XR (Q2R (sig o i) / sqrt (Q2R (at_ (r_s2y (o_t o)) i)))))
      (filter (fun i => negb (Qeq_bool (at_ (r_s2y (o_t o)) i) 0)) (seq 0 n)) /\
    drawn_at (map (sample lo hi) (seq 0 100)) (snr_theoretical o) (n_theoretical pl) /\
    drawn_at (map (sample lo hi) (seq 0 100)) (snr_total o) (n_total pl) /\
    drawn_at (map (sample lo hi) (seq 0 100)) (fun x => Ok (XR (sqrt x))) (n_ideal pl) /\
    n_lines pl = (XR lo, hi) /\
    forall t, sqrt (sample lo hi 99) <= t ->
      below t (n_theoretical pl) /\ below t (n_total pl) /\ below t (n_ideal pl).
  Proof.
    destruct (heights_exist (snr_theoretical o) (or_introl eq_refl)) as (g1 & G1).
    destruct (heights_exist (snr_total o) (or_intror eq_refl)) as (g2 & G2).
    unfold plot_snr. rewrite samples_value, data_value. cbn [bind].
    pose proof threshold_positive as P.
    assert (M : forall f g, (forall i, (i < 100)%nat -> f (sample lo hi i) = Ok (XR (g i)) /\ g i <= sqrt (sample lo hi i)) ->
              mapM f (map (sample lo hi) (seq 0 100)) = Ok (map (fun i => XR (g i)) (seq 0 100))).
    { intros f g G. assert (H : forall l, Forall (fun i => (i < 100)%nat) l ->
        mapM f (map (sample lo hi) l) = Ok (map (fun i => XR (g i)) l)).
      { induction l as [|i l IH]; intro F; auto. inversion F; subst. cbn [map mapM].
        rewrite (proj1 (G i ltac:(auto))). cbn [bind]. rewrite IH by auto. reflexivity. }
      apply H. apply Forall_forall. intros i I. apply in_seq in I. lia. }
    rewrite (M _ _ G1), (M _ _ G2). cbn [bind].
    assert (I : map snr_ideal (map (sample lo hi) (seq 0 100)) = map (fun i => XR (sqrt (sample lo hi i))) (seq 0 100)).
    { rewrite map_map. apply map_ext_in. intros i I. apply in_seq in I. unfold snr_ideal.
      destruct (sample_range i ltac:(lia)). rewrite xsqrt_fin by lra. reflexivity. }
    rewrite I.
    replace (py_get (map (fun i => XR (sqrt (sample lo hi i))) (seq 0 100)) (-1)) with (Ok (XR (sqrt (sample lo hi 99)))) by reflexivity.
    cbn [bind]. rewrite (ot_min _ _ _ _ OT), (ot_sat _ _ _ _ OT). cbn [bind].
    assert (MX : forall l x, Forall (fun x => exists r, x = XR r) l -> exists t,
       fold_left (fun m y => if xgt y m then y else m) l (XR x) = XR t /\ x <= t /\ forall r, In (XR r) l -> r <= t).
    { induction l as [|y l IH]; intros x F.
      - exists x. simpl. split; auto. split; [lra|]. intros r [].
      - inversion F as [|? ? (r & ->) F']; subst. cbn [fold_left xgt]. destruct (Rlt_dec x r) as [L|L].
        + destruct (IH r F') as (t & E & A & B). exists t. split; auto. split; [lra|].
          intros r' [H|H]; [injection H as <-; auto|auto].
        + destruct (IH x F') as (t & E & A & B). exists t. split; auto. split; auto.
          intros r' [H|H]; [injection H as <-; lra|auto]. }
    assert (TOP : exists t, py_max (mi ++ [XR (sqrt (sample lo hi 99))]) = Ok (XR t) /\
              forall r, In (XR r) (mi ++ [XR (sqrt (sample lo hi 99))]) -> r <= t).
    { assert (F : Forall (fun x => exists r, x = XR r) (mi ++ [XR (sqrt (sample lo hi 99))])).
      { apply Forall_app. split; auto. repeat constructor. eexists. reflexivity. }
      destruct (mi ++ [XR (sqrt (sample lo hi 99))])%list as [|x l] eqn:E; [destruct mi; discriminate|].
      inversion F as [|? ? (r & ->) F']; subst. destruct (MX l r F') as (t & T & A & B). exists t.
      split; [unfold py_max; rewrite T; auto|]. intros r' [H|H]; [injection H as <-; auto|auto]. }
    destruct TOP as (top & T & TB). rewrite T. cbn [bind].
    assert (DR : forall f g, (forall i, (i < 100)%nat -> f (sample lo hi i) = Ok (XR (g i)) /\ g i <= sqrt (sample lo hi i)) ->
        drawn_at (map (sample lo hi) (seq 0 100)) f (combine (map (sample lo hi) (seq 0 100)) (map (fun i => XR (g i)) (seq 0 100))) /\
        forall t, sqrt (sample lo hi 99) <= t ->
          below t (combine (map (sample lo hi) (seq 0 100)) (map (fun i => XR (g i)) (seq 0 100)))).
    { intros f g G.
      assert (C : forall l, combine (map (sample lo hi) l) (map (fun i => XR (g i)) l) = map (fun i => (sample lo hi i, XR (g i))) l)
        by (induction l; cbn [map combine]; congruence).
      rewrite C. split; [split|].
      - rewrite map_map. reflexivity.
      - intros x y H. apply in_map_iff in H. destruct H as (i & H & J). injection H as <- <-. apply in_seq in J.
        apply G. lia.
      - intros t Ht x y H. apply in_map_iff in H. destruct H as (i & H & J). injection H as <- <-. apply in_seq in J.
        eexists. split; [reflexivity|]. destruct (G i ltac:(lia)) as (_ & B).
        assert (SQ : sqrt (sample lo hi i) <= sqrt (sample lo hi 99)).
        { destruct (sample_range i ltac:(lia)). destruct (sample_range 99 ltac:(lia)).
          apply sqrt_le_1; try lra. apply sample_mono. lia. }
        lra. }
    destruct (DR _ _ G1) as (D1 & B1). destruct (DR _ _ G2) as (D2 & B2).
    destruct (DR (fun x => Ok (XR (sqrt x))) (fun i => sqrt (sample lo hi i))) as (D3 & B3).
    { intros i _. split; [reflexivity|lra]. }
    do 2 eexists. split; [reflexivity|]. cbn [n_data n_theoretical n_ideal n_total n_lines].
    split; [intros r H; apply TB; apply in_app_iff; auto|].
    split; [apply TB; apply in_app_iff; right; left; auto|].
    split; [reflexivity|]. split; [exact D1|]. split; [exact D2|]. split; [exact D3|]. split; [reflexivity|].
    intros t Ht. auto.
  Qed.
End Snr.

(** Several tests in one figure. *)
Definition final_top (l : list (snr_plot * R)) : option R :=
  match rev l with (_, t) :: _ => Some t | [] => None end.

Lemma final_cons x l : l <> [] -> final_top (x :: l) = final_top l.
Proof.
  intro N. unfold final_top. simpl. destruct (rev l) as [|(p & t) r] eqn:E; auto.
  exfalso. apply N. apply (f_equal (@rev _)) in E. rewrite rev_involutive in E. auto.
Qed.

Lemma many_snrs tests : Forall (fun o => exists n lo hi, ordinary_test o n lo hi) tests ->
  forall mi, Forall (fun x => exists r, x = XR r) mi ->
  exists l, plot_snrs mi tests = Ok l /\ length l = length tests /\
    forall top, final_top l = Some top ->
      (forall r, In (XR r) mi -> r <= top) /\
      forall p t, In (p, t) l -> below top (n_theoretical p) /\ below top (n_total p) /\ below top (n_ideal p).
Proof.
  induction tests as [|o tests IH]; intros F mi FM.
  - exists []. simpl. split; auto. split; auto. discriminate.
  - inversion F as [|? ? (n & lo & hi & OT) F']; subst.
    destruct (one_snr o n lo hi OT mi FM) as (pl & top & E & MI & S & _ & _ & _ & _ & _ & B).
    destruct (IH F' (mi ++ [XR (sqrt (sample lo hi 99))])%list) as (l & El & Ll & M).
    { apply Forall_app. split; auto. repeat constructor. eexists. reflexivity. }
    exists ((pl, top) :: l). cbn [plot_snrs]. rewrite E. cbn [bind]. rewrite El. cbn [bind].
    split; auto. split; [simpl; auto|]. intros t T. destruct l as [|q l].
    + injection T as <-. split; auto. intros p t [H|[]]. injection H as <- <-. auto.
    + rewrite final_cons in T by discriminate. destruct (M t T) as (M1 & M2). split.
      * intros r H. apply M1. apply in_app_iff. auto.
      * intros p t' [H|H]; [injection H as <- <-|eauto]. apply B. apply M1. apply in_app_iff. right. left. auto.
Qed.

(** In binary64: threshold 5 and saturation 62 give 101 samples, the last one beyond the
    saturation. *)
Lemma samples_beyond : exists X x, snr_samples_f (FFin 5) (FFin 62) = Ok X /\ length X = 101%nat /\
  In x X /\ flt (FFin 62) x = true.
Proof.
  eexists. exists (last (match snr_samples_f (FFin 5) (FFin 62) with Ok X => X | Err _ => [] end) FNan).
  split; [vm_compute; reflexivity|]. split; [reflexivity|]. split; [|vm_compute; reflexivity].
  vm_compute. do 100 right. left. reflexivity.
Qed.

(** ** Histograms *)
Open Scope Z_scope.
Lemma fold_zmax l : forall x, x <= fold_left Z.max l x /\ forall y, In y l -> y <= fold_left Z.max l x.
Proof.
  induction l as [|a l IH]; intro x; simpl; [split; [lia|intros y []]|].
  destruct (IH (Z.max x a)) as (A & B). split; [lia|]. intros y [<-|H]; [lia|auto].
Qed.

Lemma hist_visible ymin h v : (ymin <= 1)%Q -> In v (h_values h) -> 0 < v ->
  exists top, hist_limits ymin h = Ok (ymin, top) /\ (ymin <= inject_Z v < top)%Q.
Proof.
  intros Y I P. unfold hist_limits. destruct (h_values h) as [|x l] eqn:E; [contradiction|].
  eexists. split; [reflexivity|]. split.
  - apply Qle_trans with 1%Q; auto. unfold Qle. simpl. lia.
  - unfold zmax. destruct (fold_zmax l x) as (A & B).
    assert (V : v <= fold_left Z.max l x) by (destruct I as [<-|I]; auto).
    unfold Qlt. simpl. lia.
Qed.

(** ** Profiles *)
Open Scope Q_scope.

Lemma qmin_le l : forall x, qmin x l <= x /\ forall y, In y l -> qmin x l <= y.
Proof.
  unfold qmin. induction l as [|a l IH]; intro x; simpl; [split; [apply Qle_refl|intros y []]|].
  destruct (IH (if Qle_bool x a then x else a)) as (A & B).
  assert (M : fold_left (fun a b => if Qle_bool a b then a else b) l (if Qle_bool x a then x else a) <= x /\
              fold_left (fun a b => if Qle_bool a b then a else b) l (if Qle_bool x a then x else a) <= a).
  { destruct (Qle_bool x a) eqn:E.
    - apply Qle_bool_iff in E. split; auto. eapply Qle_trans; eauto.
    - apply Qle_bool_false in E. split; auto. eapply Qle_trans; [exact A|]. apply Qlt_le_weak. auto. }
  split; [apply M|]. intros y [<-|H]; [apply M|auto].
Qed.

Lemma qmax_ge l : forall x, x <= qmax x l /\ forall y, In y l -> y <= qmax x l.
Proof.
  unfold qmax. induction l as [|a l IH]; intro x; simpl; [split; [apply Qle_refl|intros y []]|].
  destruct (IH (if Qle_bool a x then x else a)) as (A & B).
  assert (M : x <= fold_left (fun a b => if Qle_bool b a then a else b) l (if Qle_bool a x then x else a) /\
              a <= fold_left (fun a b => if Qle_bool b a then a else b) l (if Qle_bool a x then x else a)).
  { destruct (Qle_bool a x) eqn:E.
    - apply Qle_bool_iff in E. split; auto. eapply Qle_trans; eauto.
    - apply Qle_bool_false in E. split; auto. eapply Qle_trans; [apply Qlt_le_weak, E|]. auto. }
  split; [apply M|]. intros y [<-|H]; [apply M|auto].
Qed.

Lemma py_minq_le l v : py_minq l = Ok v -> forall y, In y l -> v <= y.
Proof.
  destruct l as [|x l]; [discriminate|]. intros H. injection H as <-. destruct (qmin_le l x) as (A & B).
  intros y [<-|I]; auto.
Qed.
Lemma py_maxq_ge l v : py_maxq l = Ok v -> forall y, In y l -> y <= v.
Proof.
  destruct l as [|x l]; [discriminate|]. intros H. injection H as <-. destruct (qmax_ge l x) as (A & B).
  intros y [<-|I]; auto.
Qed.

Lemma plot_tests_limits vertical ts : forall a l a', plot_tests vertical ts a = Ok (Some (l, a')) ->
  (incl (m_bmin a) (m_bmin a') /\ incl (m_bmax a) (m_bmax a') /\ incl (m_dmin a) (m_dmin a') /\
   incl (m_dmax a) (m_dmax a')) /\
  length l = length ts /\
  forall b d, In (b, d) l -> exists bm dn dx,
    curve_mean (f_mean b) = Some bm /\ curve_mean (f_min d) = Some dn /\ curve_mean (f_max d) = Some dx /\
    In ((9 # 10) * bm) (m_bmin a') /\ In ((11 # 10) * bm) (m_bmax a') /\
    In ((9 # 10) * dn) (m_dmin a') /\ In ((11 # 10) * dx) (m_dmax a').
Proof.
  induction ts as [|s ts IH]; intros a l a' H.
  - injection H as <- <-. split; [repeat split; apply incl_refl|]. split; auto. intros b d [].
  - cbn [plot_tests] in H. apply bind_ok in H. destruct H as (r & H1 & H).
    destruct r as [((b0 & d0) & a1)|]; [|discriminate]. apply bind_ok in H. destruct H as (r' & H2 & H).
    destruct r' as [(l' & a2)|]; [|discriminate]. injection H as <- <-.
    destruct (IH _ _ _ H2) as ((I1 & I2 & I3 & I4) & L & F).
    unfold add_limits in H1. apply bind_ok in H1. destruct H1 as ((b1 & d1) & _ & H1).
    destruct (curve_mean (f_mean b1)) as [bm|] eqn:E1; [|discriminate].
    destruct (curve_mean (f_min d1)) as [dn|] eqn:E2; [|discriminate].
    destruct (curve_mean (f_max d1)) as [dx|] eqn:E3; [|discriminate].
    injection H1 as <- <- <-. cbn [m_bmin m_bmax m_dmin m_dmax] in *.
    split; [|split].
    + repeat split; intros x Hx; [apply I1|apply I2|apply I3|apply I4]; apply in_app_iff; auto.
    + simpl. auto.
    + intros b d [H|H]; [|eauto]. injection H as <- <-. exists bm, dn, dx. repeat split; auto;
        [apply I1|apply I2|apply I3|apply I4]; apply in_app_iff; right; left; auto.
Qed.

Lemma profile_levels vertical ts l a bl bh dl dh :
  plot_tests vertical ts no_limits = Ok (Some (l, a)) -> rearrange a = Ok ((bl, bh), (dl, dh)) ->
  length l = length ts /\
  forall b d, In (b, d) l -> exists bm dn dx,
    curve_mean (f_mean b) = Some bm /\ curve_mean (f_min d) = Some dn /\ curve_mean (f_max d) = Some dx /\
    (0 <= bm -> bl <= bm <= bh) /\ (0 <= dn -> dl <= dn) /\ (0 <= dx -> dx <= dh).
Proof.
  intros P R. destruct (plot_tests_limits vertical ts _ _ _ P) as (_ & L & F). split; auto.
  unfold rearrange in R. apply bind_ok in R. destruct R as (v1 & R1 & R). apply bind_ok in R.
  destruct R as (v2 & R2 & R). apply bind_ok in R. destruct R as (v3 & R3 & R). apply bind_ok in R.
  destruct R as (v4 & R4 & R). injection R as <- <- <- <-.
  intros b d H. destruct (F b d H) as (bm & dn & dx & E1 & E2 & E3 & I1 & I2 & I3 & I4). exists bm, dn, dx.
  split; auto. split; auto. split; auto.
  assert (A1 := py_minq_le _ _ R1 _ I1). assert (A2 := py_maxq_ge _ _ R2 _ I2).
  assert (A3 := py_minq_le _ _ R3 _ I3). assert (A4 := py_maxq_ge _ _ R4 _ I4).
  assert (LO : forall x, 0 <= x -> (9 # 10) * x <= x).
  { intros x X. setoid_replace x with (1 * x) at 2 by ring. apply Qmult_le_compat_r; auto. discriminate. }
  assert (HI : forall x, 0 <= x -> x <= (11 # 10) * x).
  { intros x X. setoid_replace x with (1 * x) at 1 by ring. apply Qmult_le_compat_r; auto. discriminate. }
  split; [|split].
  - intro X. split; [eapply Qle_trans; eauto|eapply Qle_trans; [|exact A2]; auto].
  - intro X. eapply Qle_trans; eauto.
  - intro X. eapply Qle_trans; [|exact A4]; auto.
Qed.
