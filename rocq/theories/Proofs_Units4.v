(** Figures of a measurement with other grey values, photon counts and exposure times. *)
From Coq Require Import Ascii String List Bool Arith ZArith QArith Qfield Reals Qreals Lia Lqa Permutation Sorting.Sorted.
From Verif Require Import Base_Prelude Base_Str Base_Num Base_Order Base_Sum Base_Xreal Model_Path Model_Images
  Model_Loader Model_Data Model_Parser Model_Results Model_Emva Spec_Parser Spec_Images Spec_Loader
  Spec_Data Spec_Results Spec_Emva Spec_Units Proofs_Parser Proofs_Parser2 Proofs_Images Proofs_Loader
  Proofs_Data Proofs_Data2 Proofs_Results Proofs_Results2 Proofs_Same Proofs_Emva Proofs_Emva2
  Proofs_Emva3 Proofs_Emva4 Proofs_Units Proofs_Units2 Proofs_Units3.
Import ListNotations.
Open Scope Q_scope.
Local Arguments feq : simpl never.
Local Arguments flt : simpl never.

(** ** Sums of regraded numbers *)
Section Stats.
Context (a b : Q).
Definition gr (x : Q) : Q := a * x + b.

Lemma sumq_gr n f f' : (forall i, (i < n)%nat -> f' i == gr (f i)) -> sumq n f' == a * sumq n f + qn n * b.
Proof.
  intro H. rewrite (sumq_ext n f' (fun i => a * f i + b)) by exact H.
  rewrite sumq_plus, sumq_scal, sumq_const. reflexivity.
Qed.
Lemma sumq2_gr h w f f' : (forall i j, (i < h)%nat -> (j < w)%nat -> f' i j == gr (f i j)) ->
  sumq2 h w f' == a * sumq2 h w f + qn (h * w) * b.
Proof.
  intro H. rewrite (sumq2_ext h w f' (fun i j => a * f i j + b)) by exact H.
  rewrite (sumq2_plus h w (fun i j => a * f i j) (fun _ _ => b)), sumq2_scal, sumq2_const. reflexivity.
Qed.
Lemma lsumq_gr l l' : Forall2 (fun x y => y == gr x) l l' -> lsumq l' == a * lsumq l + qn (length l) * b.
Proof.
  induction 1 as [|x y l l' E H IH]; [unfold qn; simpl; ring|].
  cbn [lsumq length]. rewrite IH, E, qn_S. unfold gr. ring.
Qed.

Lemma pop_var_gr n f f' : (0 < n)%nat -> (forall i, (i < n)%nat -> f' i == gr (f i)) ->
  pop_var n f' == a * a * pop_var n f.
Proof.
  intros N H. unfold pop_var. assert (Nn := qn_neq0 n N).
  rewrite (sumq_ext n (fun i => (f' i - sumq n f' / qn n) * (f' i - sumq n f' / qn n))
            (fun i => a * a * ((f i - sumq n f / qn n) * (f i - sumq n f / qn n)))).
  - rewrite sumq_scal. field. auto.
  - intros i I. rewrite (sumq_gr n f f' H), (H i I). unfold gr. field. auto.
Qed.

Lemma mean_gr l l' : l <> [] -> Forall2 (fun x y => y == gr x) l l' -> mean l' == gr (mean l).
Proof.
  intros N H. unfold mean. rewrite (lsumq_gr _ _ H), <- (f2_length _ _ _ H). unfold gr.
  assert (Nl : ~ qn (length l) == 0) by (apply qn_neq0; destruct l; [congruence|simpl; lia]). field. auto.
Qed.
Lemma unbiased_gr l l' : l <> [] -> Forall2 (fun x y => y == gr x) l l' ->
  unbiased_var l' == a * a * unbiased_var l.
Proof.
  intros N H. unfold unbiased_var. rewrite <- (f2_length _ _ _ H).
  assert (E : lsumq (map (fun y => (y - mean l') * (y - mean l')) l') ==
              a * a * lsumq (map (fun y => (y - mean l) * (y - mean l)) l)).
  { pose proof (mean_gr _ _ N H) as M. apply lsumq_times. eapply map_rel; [exact H|].
    intros x y E. unfold times_q. rewrite E, M. unfold gr. ring. }
  rewrite E. unfold Qdiv. ring.
Qed.
End Stats.

Section Images.
Context (g c : Z) (h w : nat).
Hypothesis SZ : (0 < h)%nat /\ (0 < w)%nat.
Let gq := inject_Z g.
Let cq := inject_Z c.

Lemma szq : ~ qn (h * w) == 0. Proof. apply qn_neq0. destruct SZ. nia. Qed.

Definition sized (im : image) : Prop := ih im = h /\ iw im = w.

Lemma px_gr x y : sized x -> regraded g c x y -> sized y /\
  forall i j, (i < h)%nat -> (j < w)%nat -> inject_Z (px y i j) == gr gq cq (inject_Z (px x i j)).
Proof.
  intros (S1 & S2) (R1 & R2 & R). split; [split; congruence|]. intros i j I J.
  rewrite R by (rewrite ?S1, ?S2; auto). unfold gr, gq, cq. rewrite inject_Z_plus, inject_Z_mult. reflexivity.
Qed.

Lemma grey_gr x y : sized x -> regraded g c x y -> grey_mean y == gr gq cq (grey_mean x).
Proof.
  intros S R. destruct (px_gr x y S R) as ((A1 & A2) & P). destruct S as (S1 & S2).
  unfold grey_mean, pixel_mean. rewrite A1, A2, S1, S2.
  rewrite (sumq2_gr gq cq h w (fun i j => inject_Z (px x i j))) by exact P. unfold gr. field. apply szq.
Qed.

Lemma pair_gr x y x' y' : sized x -> sized y -> regraded g c x x' -> regraded g c y y' ->
  pair_variance h w x' y' == gq * gq * pair_variance h w x y.
Proof.
  intros SX SY RX RY. destruct (px_gr _ _ SX RX) as (_ & PX). destruct (px_gr _ _ SY RY) as (_ & PY).
  pose proof (grey_gr _ _ SX RX) as GX. pose proof (grey_gr _ _ SY RY) as GY.
  unfold pair_variance.
  set (F := fun r k => (inject_Z (px x r k) - grey_mean x - (inject_Z (px y r k) - grey_mean y)) *
                       (inject_Z (px x r k) - grey_mean x - (inject_Z (px y r k) - grey_mean y))).
  rewrite (sumq2_ext h w _ (fun r k => gq * gq * F r k)).
  - rewrite sumq2_scal. ring.
  - intros i j I J. unfold F. rewrite (PX i j I J), (PY i j I J), GX, GY. unfold gr. ring.
Qed.

Lemma hist_gr ims ims' i j : Forall sized ims -> Forall2 (regraded g c) ims ims' -> (i < h)%nat -> (j < w)%nat ->
  Forall2 (fun x y => y == gr gq cq x) (map inject_Z (history ims i j)) (map inject_Z (history ims' i j)).
Proof.
  intros S R I J. induction R as [|x y l l' E R IH]; simpl; constructor.
  - inversion S; subst. apply (px_gr x y); auto.
  - inversion S; subst. auto.
Qed.

Lemma stack_gr ims ims' : ims <> [] -> Forall sized ims -> Forall2 (regraded g c) ims ims' ->
  stack_mean h w ims' == gr gq cq (stack_mean h w ims).
Proof.
  intros N S R. unfold stack_mean. rewrite <- (f2_length _ _ _ R).
  assert (E : Forall2 (fun x y => y == gr gq (qn (h * w) * cq) x)
     (map (fun im => sumq2 h w (fun r k => inject_Z (px im r k))) ims)
     (map (fun im => sumq2 h w (fun r k => inject_Z (px im r k))) ims')).
  { clear N. induction R as [|x y l l' E R IH]; simpl; constructor; inversion S; subst; auto.
    destruct (px_gr x y) as (_ & P); auto. rewrite (sumq2_gr gq cq h w (fun i j => inject_Z (px x i j))) by exact P.
    reflexivity. }
  rewrite (lsumq_gr _ _ _ _ E), map_length. unfold gr. rewrite (qn_mult (length ims) (h * w)).
  assert (Nl : ~ qn (length ims) == 0) by (apply qn_neq0; destruct ims; [congruence|simpl; lia]).
  pose proof szq. field. split; auto.
Qed.

Lemma avg_gr ims ims' i j : ims <> [] -> Forall sized ims -> Forall2 (regraded g c) ims ims' ->
  (i < h)%nat -> (j < w)%nat -> avg_pixel ims' i j == gr gq cq (avg_pixel ims i j).
Proof.
  intros N S R I J. unfold avg_pixel. apply mean_gr; [|apply hist_gr; auto].
  destruct ims; [congruence|discriminate].
Qed.

Lemma series_gr ims ims' s s' : ims <> [] -> Forall sized ims -> Forall2 (regraded g c) ims ims' ->
  series_stats h w ims s -> series_stats h w ims' s' -> graded_series gq cq s s'.
Proof.
  intros N S R (A1 & A2 & A3 & A4 & vm & av & ca & ra & E1 & E2 & E3 & E4 & V1 & V2 & V3 & V4)
           (B1 & B2 & B3 & B4 & vm' & av' & ca' & ra' & F1 & F2 & F3 & F4 & W1 & W2 & W3 & W4).
  pose proof (f2_length _ _ _ R) as LL. pose proof szq as SQ.
  assert (Nl : ~ qn (length ims) == 0) by (apply qn_neq0; destruct ims; [congruence|simpl; lia]).
  assert (Nh : ~ qn h == 0) by (apply qn_neq0; tauto).
  assert (Nw : ~ qn w == 0) by (apply qn_neq0; tauto).
  assert (VM : vm' == gq * gq * vm).
  { rewrite V1, W1. unfold pixel_mean.
    rewrite (sumq2_ext h w _ (fun r k => gq * gq * unbiased_var (map inject_Z (history ims r k)))).
    - rewrite sumq2_scal. field. auto.
    - intros i j I J. apply unbiased_gr with (b := cq); [destruct ims; [congruence|discriminate]|].
      apply hist_gr; auto. }
  unfold graded_series. rewrite A1, A2, A3, B1, B2, B3, E1, E2, E3, E4, F1, F2, F3, F4.
  split; [auto|]. split; [auto|]. split; [auto|].
  split. { rewrite A4, B4. apply stack_gr; auto. }
  simpl. unfold times_q. split; [exact VM|]. split; [|split].
  - rewrite V2, W2. rewrite (sumq2_ext h w _ (fun r k => gq * gq *
       ((avg_pixel ims r k - stack_mean h w ims) * (avg_pixel ims r k - stack_mean h w ims)))).
    + rewrite sumq2_scal. unfold Qdiv. ring.
    + intros i j I J. rewrite (avg_gr ims ims' i j), (stack_gr ims ims') by auto. unfold gr. ring.
  - rewrite V3, W3, VM, <- LL. rewrite (pop_var_gr gq cq w (col_mean h (avg_pixel ims))).
    + field. auto.
    + tauto.
    + intros j J. unfold col_mean. rewrite (sumq_gr gq cq h (fun r => avg_pixel ims r j)).
      * unfold gr. field. auto.
      * intros i I. apply avg_gr; auto.
  - rewrite V4, W4, VM, <- LL. rewrite (pop_var_gr gq cq h (row_mean w (avg_pixel ims))).
    + field. auto.
    + tauto.
    + intros i I. unfold row_mean. rewrite (sumq_gr gq cq w (fun r => avg_pixel ims i r)).
      * unfold gr. field. auto.
      * intros j J. apply avg_gr; auto.
Qed.
End Images.

(** ** The objects *)
Section Objects.
Context (fs fs' : fsys) (h w : nat) (g c : Z) (t p : Q) (es es' : list entry).
Hypothesis HG : (0 < g)%Z.
Hypothesis HT : 0 < t.
Hypothesis HP : 0 < p.
Hypothesis RE : Forall2 (restated fs fs' (regraded g c) t p) es es'.
Hypothesis CS : complete_set fs h w es.
Hypothesis CS' : complete_set fs' h w es'.
Hypothesis AP : apart es.
Hypothesis NE : forall e, In e es -> (2 <= length (e_files e))%nat.

Lemma sz : (0 < h)%nat /\ (0 < w)%nat.
Proof. destruct (cs_size _ _ _ _ CS) as (S & _). destruct h, w; simpl in *; lia. Qed.

Lemma sized_of e ims : In e es -> images fs (e_files e) ims -> Forall (sized h w) ims.
Proof.
  intros He I. destruct (cs_files _ _ _ _ CS e He) as (_ & ims' & I' & F).
  rewrite (images_fun _ _ _ _ I I'). eapply Forall_impl; [|exact F]. intros a (A & B & _). split; auto.
Qed.

Lemma qmap_gr (R : Q -> Q -> Prop) (f f' : row -> Q) (Rr : row -> row -> Prop) rows rows' l l' :
  (forall x y u v, x == y -> u == v -> R y v -> R x u) ->
  (forall r r', In r rows -> Rr r r' -> R (f r) (f' r')) -> Forall2 Rr rows rows' ->
  Forall2 Qeq l (map f rows) -> Forall2 Qeq l' (map f' rows') -> Forall2 R l l'.
Proof.
  intros X F S. revert l l'. induction S as [|r r' rows rows' E S IH]; intros l l' A B; inversion A; inversion B; subst; constructor.
  - eapply X; [eassumption|eassumption|]. apply F; [left|]; auto.
  - apply IH; auto. intros a b I. apply F. right. auto.
Qed.

Lemma objects_rescaled o o' rows rows' : object_ok fs h w es o rows -> object_ok fs' h w es' o' rows' ->
  rescaled (inject_Z g) (inject_Z c) p t o o'.
Proof.
  intros (R & A1 & A2 & A3 & A4 & A5 & A6 & SP & AA & AI) (R' & B1 & B2 & B3 & B4 & B5 & B6 & SP' & BA & BI).
  pose proof (rows_restated fs fs' h w h w (regraded g c) t p es es' HT HP RE CS CS' AP _ _ R R') as S.
  destruct (series_match fs fs' h w h w (regraded g c) t p es es' HP RE CS CS' _ _ SP SP')
    as (x & y & dk & br & dk' & br' & Hx & Hy & Ix & Iy & Fd & Fb & T1 & T2 & T3 & T4).
  assert (SR : forall r, In r rows -> sized h w (w_b1 r) /\ sized h w (w_b2 r) /\ sized h w (w_d1 r) /\ sized h w (w_d2 r)).
  { intros r Hr. destruct R as (O & _ & _ & RR). rewrite Forall_forall in O.
    destruct (O r Hr) as (I & Hd & _ & _ & _ & J).
    destruct (proj1 (RR (w_bright r)) (in_map _ _ _ Hr)) as (He & _).
    pose proof (sized_of _ _ He I) as F1. pose proof (sized_of _ _ Hd J) as F2.
    inversion F1 as [|? ? F11 F12]; subst. inversion F12; subst.
    inversion F2 as [|? ? F21 F22]; subst. inversion F22; subst. auto. }
  pose proof sz as SZ.
  assert (MM : forall a b a' b', sized h w a -> sized h w b -> regraded g c a a' -> regraded g c b b' ->
     stack_mean h w [a'; b'] == gr (inject_Z g) (inject_Z c) (stack_mean h w [a; b])).
  { intros a b a' b' S1 S2 G1 G2. apply stack_gr; auto. discriminate. }
  assert (QT : forall k x y u v, x == y -> u == v -> times_q k y v -> times_q k x u).
  { intros k x0 y0 u v E F H. unfold times_q in *. rewrite E, F. auto. }
  assert (QG : forall k d x y u v, x == y -> u == v -> v == k * y + d -> u == k * x + d).
  { intros k d x0 y0 u v E F H. rewrite E, F. auto. }
  constructor.
  - rewrite A1, B1. eapply map_rel; [exact S|]. intros r r' (E & _). exact E.
  - rewrite A2, B2. eapply map_rel; [exact S|]. intros r r' (_ & E & _). exact E.
  - eapply (qmap_gr _ (w_mean h w) (w_mean h w)); [apply QG| |exact S|exact A3|exact B3].
    intros r r' Hr (_ & _ & G1 & G2 & _). destruct (SR r Hr) as (S1 & S2 & _). apply MM; auto.
  - eapply (qmap_gr _ (w_var h w) (w_var h w)); [apply QT| |exact S|exact A4|exact B4].
    intros r r' Hr (_ & _ & G1 & G2 & _). destruct (SR r Hr) as (S1 & S2 & _). eapply pair_gr; eauto.
  - eapply (qmap_gr _ (w_dark_mean h w) (w_dark_mean h w)); [apply QG| |exact S|exact A5|exact B5].
    intros r r' Hr (_ & _ & _ & _ & G1 & G2). destruct (SR r Hr) as (_ & _ & S1 & S2). apply MM; auto.
  - eapply (qmap_gr _ (w_dark_var h w) (w_dark_var h w)); [apply QT| |exact S|exact A6|exact B6].
    intros r r' Hr (_ & _ & _ & _ & G1 & G2). destruct (SR r Hr) as (_ & _ & S1 & S2). eapply pair_gr; eauto.
  - eapply series_gr; [exact SZ| |exact (sized_of _ _ Hx Ix)|exact Fd|exact T1|exact T3].
    intros ->. inversion Ix as [E|]. specialize (NE _ Hx). rewrite <- E in NE. simpl in NE. lia.
  - eapply series_gr; [exact SZ| |exact (sized_of _ _ Hy Iy)|exact Fb|exact T2|exact T4].
    intros ->. inversion Iy as [E|]. specialize (NE _ Hy). rewrite <- E in NE. simpl in NE. lia.
  - congruence.
  - congruence.
Qed.

Lemma light o rows : object_ok fs h w es o rows -> has_light o.
Proof.
  intros OK m M. simpl in M. injection M as M. exists 0%nat. split; [lia|].
  pose proof (ok_shaped fs h w es o rows OK) as SH. pose proof (sensitivity_max_lt _ _ _ SH M) as L.
  rewrite (ok_photons fs h w es o rows OK). unfold m_photons, at_row.
  destruct rows as [|r rows]; [simpl in L; lia|]. simpl.
  destruct OK as ((_ & _ & _ & R) & _).
  destruct (proj1 (R (w_bright r)) (or_introl eq_refl)) as (He & _ & D).
  rewrite (dark_number (w_bright r)) in D by (apply (cs_finite _ _ _ _ CS); auto). exact D.
Qed.
End Objects.

Lemma restated_figures fs fs' h w g c t p fname fname' d d' es es' visit_t visit_s visit_t' visit_s' :
  any_order visit_t -> any_order visit_s -> any_order visit_t' -> any_order visit_s' ->
  lists fname d es -> lists fname' d' es' -> complete_set fs h w es -> complete_set fs' h w es' ->
  (0 < g)%Z -> 0 < t -> 0 < p -> Forall2 (restated fs fs' (regraded g c) t p) es es' ->
  exists o o', emva fs visit_t visit_s fname (Some d) = Ok (Some o) /\
    emva fs' visit_t' visit_s' fname' (Some d') = Ok (Some o') /\
    forall f, g = 1%Z \/ has_signal o ->
      uses_dark_noise f = false \/ g = 1%Z \/
        (is_sigma_d f = false /\ above_floor (inject_Z g) o (length (r_texp (o_t o)))) ->
      follows (inject_Z g) p t f o o'.
Proof.
  intros VT VS VT' VS' L L' CS CS' HG HT HP RE.
  pose proof (lists_apart _ _ _ L) as AP. pose proof (lists_files _ _ _ L) as NE.
  destruct (emva_chain fs h w visit_t visit_s fname d es VT VS L CS) as (o & rows & E & OK).
  destruct (emva_chain fs' h w visit_t' visit_s' fname' d' es' VT' VS' L' CS') as (o' & rows' & E' & OK').
  exists o, o'. split; [auto|]. split; [auto|]. intros f S D.
  pose proof (objects_rescaled fs fs' h w g c t p es es' HT HP RE CS CS' AP NE _ _ _ _ OK OK') as RS.
  pose proof (ok_shaped fs h w es o rows OK) as SH.
  assert (LT : length (r_texp (o_t o)) = length rows) by (unfold shaped in SH; tauto). rewrite LT in D.
  apply (figures_units (inject_Z g) (inject_Z c) p t o o' (length rows)); auto.
  - unfold Qlt. simpl. lia.
  - destruct S as [->|S]; [left; reflexivity|right; auto].
  - right. eapply light; [exact CS|exact OK].
  - destruct D as [D|[->|D]]; [left; auto|right; left; reflexivity|right; right; auto].
Qed.

(** ** No change of units *)
Lemma qpow1 k : 1 ^ k == 1.
Proof. apply Qpower.Qpower_1. Qed.

Lemma follows_same f o o' : follows 1 1 1 f o o' -> same_value (value_of f o) (value_of f o').
Proof.
  unfold follows. assert (E : factor 1 1 1 (dimension_of f) == 1).
  { unfold factor. rewrite !qpow1. reflexivity. }
  generalize dependent (factor 1 1 1 (dimension_of f)). intros k E.
  assert (TQ : forall x y, times_q k x y -> x == y).
  { intros x y H. unfold times_q in H. rewrite H, E. ring. }
  assert (TX : forall x y, times_x k x y -> x = y).
  { intros x y H. apply times_x_iff in H. rewrite xt_one in H; auto. }
  assert (RX : forall a b, same_res (times_x k) a b -> a = b).
  { intros [x|e] [y|e'] H; simpl in H; try contradiction; [f_equal; apply TX; auto|congruence]. }
  destruct (value_of f o) as [a|a|a|a|a|a|a], (value_of f o') as [b|b|b|b|b|b|b]; simpl; auto.
  - apply same_res_impl. auto.
  - intro H. destruct a as [[x|]|e], b as [[y|]|e']; simpl in H; try contradiction; try congruence.
    rewrite (TX x y); auto.
  - apply same_res_impl. intros x y. apply same_opt_impl. auto.
  - apply same_res_impl. intros x y (A & B & C & D). split; [|auto].
    revert A. apply same_opt_impl. intros u v (U & V). split; [rewrite U|rewrite V]; field.
Qed.
