(** Proofs for C102: gain and responsivity of a measurement. *)
From Coq Require Import List Bool Arith ZArith QArith Qreals Reals Lia Lra.
From Verif Require Import Base_Prelude Base_Num Base_Sum Base_SumR Base_Xreal Model_Images Model_Loader Model_Data
  Model_Results Spec_Images Spec_Data Spec_Results Spec_Chance Spec_Linear Spec_Any Spec_Near Proofs_Linear Proofs_Any
  Proofs_Any2 Proofs_Any3 Proofs_Near Proofs_Near2.
Import ListNotations.
Open Scope R_scope.

(** The data of a pair. *)
Definition the_data (s : list image) : tdata :=
  match get_int_imgs s with Ok r => temporal_summary r | Err _ => mkT 0 0 0 end.
Lemma the_data_of s d : temporal_data_of s d -> d = the_data s /\ temporal_data_of s (the_data s).
Proof.
  intros (r & E & ->). unfold the_data. rewrite E. split; [reflexivity|]. exists r. split; [exact E|reflexivity].
Qed.

Lemma true_pair_unlikely W (C : chance W) S h w V M m v e : true_pair C S h w V M m v ->
  (2 <= h * w)%nat -> (forall o, exists u s, computed h w (S o) u s) -> 0 < e ->
  let N := INR (h * w) in
  unlikely C (fun o => exists u s, computed h w (S o) u s /\ e < Rabs (Q2R u - m)) (V / (2 * N * (e * e))) /\
  unlikely C (fun o => exists u s, computed h w (S o) u s /\ e < Rabs (Q2R s - v))
    (M / (N * (e * e)) + 2 * V / (N * e)).
Proof.
  intros (OK & mu & s2 & NP & -> & ->) HN HC e0 N.
  assert (HT : forall o, temporal_data_of (S o) (the_data (S o))).
  { intros o. destruct (HC o) as (u & s & d & Hd & _). apply (the_data_of _ d Hd). }
  split.
  - eapply unlikely_mono; [|apply Rle_refl|apply (pair_mean C S h w mu s2 V M NP (fun o => the_data (S o)) HN OK HT e e0)].
    intros o (u & s & (d & Hd & Eu & _) & L). destruct (the_data_of _ _ Hd) as (-> & _).
    rewrite (Qeq_eqR _ _ Eu) in L. exact L.
  - eapply unlikely_mono; [|apply Rle_refl|apply (pair_var C S h w mu s2 V M NP (fun o => the_data (S o)) HN OK HT e e0)].
    intros o (u & s & (d & Hd & _ & Es) & L). destruct (the_data_of _ _ Hd) as (-> & _).
    rewrite (Qeq_eqR _ _ Es) in L. exact L.
Qed.

Lemma computed_nonneg h w s u v : (forall A B, s = [A; B] -> pair_ok h w A B) -> length s = 2%nat ->
  (0 < h * w)%nat -> computed h w s u v -> (0 <= v)%Q.
Proof.
  intros OK L HN (d & Hd & _ & E). apply Rle_Qle. rewrite (Qeq_eqR _ _ E), Q2R_0'.
  destruct s as [|A [|B [|D s]]]; try discriminate L.
  destruct (pair_figures h w A B d (OK A B eq_refl) Hd) as (_ & ->).
  apply Rmult_le_pos; [apply sumR_nonneg; intros; apply Rle_0_sqr|].
  apply Rlt_le, Rinv_0_lt_compat. assert (0 < INR (h * w)) by (apply lt_0_INR; lia). lra.
Qed.

Lemma law_ext T x x' p eta K q : (forall i, (i <= p)%nat -> x i = x' i) -> linear_law T x p eta K q -> linear_law T x' p eta K q.
Proof.
  intros E [A B D F]. constructor; [exact A|exact B| |exact F]. intros i Hi. rewrite (D i Hi), (E i Hi). reflexivity.
Qed.

Section Measured.
Context {W : Type} (C : chance W) (O : W -> robj) (B D : nat -> W -> list image) (n h w p : nat).
Variables (T : truth) (x : nat -> R) (V M eta K q e : R).
Hypothesis ME : measurement C O B D n h w T x V M.
Hypothesis HL : linear_law T x p eta K q.
Hypothesis HC : clear_points T n p e.
Hypothesis HN : (2 <= h * w)%nat.
Hypothesis e0 : 0 < e.

Lemma measured_right o : measured_within (O o) T n e -> right_within (O o) p eta K q e.
Proof.
  intros MW. pose proof (cl_points _ _ _ _ HC) as PN.
  apply (stable_figures (O o) T n p eta K q e).
  - apply (law_ext T x); [|exact HL]. intros i Hi. symmetry. apply (me_light _ _ _ _ _ _ _ _ _ _ _ ME). lia.
  - exact HC.
  - exact MW.
  - apply (me_shape _ _ _ _ _ _ _ _ _ _ _ ME).
  - apply (me_unforced _ _ _ _ _ _ _ _ _ _ _ ME).
  - apply Forall_forall. intros v Hv. apply (In_nth _ _ 0%Q) in Hv. destruct Hv as (i & Hi & <-).
    destruct (me_shape _ _ _ _ _ _ _ _ _ _ _ ME o) as (_ & _ & _ & EL & _). rewrite EL in Hi.
    destruct (me_computed _ _ _ _ _ _ _ _ _ _ _ ME o i Hi) as (CB & _).
    destruct (me_bright _ _ _ _ _ _ _ _ _ _ _ ME i Hi) as (OK & mu & s2 & NP & _).
    apply (computed_nonneg h w (B i o) (at_ (r_uy (o_t (O o))) i)); [apply OK| |lia|exact CB].
    apply (rs_length _ _ _ _ _ _ _ _ (np_series _ _ _ _ _ _ _ _ NP)).
  - intros i Hi. apply (me_clipped _ _ _ _ _ _ _ _ _ _ _ ME o i Hi).
Qed.

Lemma abs_le_dec a b : {Rabs a <= b} + {b < Rabs a}.
Proof. destruct (Rlt_le_dec b (Rabs a)); [right|left]; assumption. Qed.

Lemma not_within o : ~ measured_within (O o) T n e ->
  exists i, (i < n)%nat /\
    ((e < Rabs (Q2R (at_ (r_uy (o_t (O o))) i) - tr_mean T i) \/ e < Rabs (Q2R (at_ (r_s2y (o_t (O o))) i) - tr_var T i)) \/
     (e < Rabs (Q2R (at_ (r_uydark (o_t (O o))) i) - tr_dark_mean T i) \/
      e < Rabs (Q2R (at_ (r_s2ydark (o_t (O o))) i) - tr_dark_var T i))).
Proof.
  intros NW.
  set (P := fun i => (e < Rabs (Q2R (at_ (r_uy (o_t (O o))) i) - tr_mean T i) \/ e < Rabs (Q2R (at_ (r_s2y (o_t (O o))) i) - tr_var T i)) \/
     (e < Rabs (Q2R (at_ (r_uydark (o_t (O o))) i) - tr_dark_mean T i) \/
      e < Rabs (Q2R (at_ (r_s2ydark (o_t (O o))) i) - tr_dark_var T i))).
  assert (dec : forall i, {P i} + {~ P i}).
  { intros i. unfold P.
    destruct (abs_le_dec (Q2R (at_ (r_uy (o_t (O o))) i) - tr_mean T i) e); [|left; tauto].
    destruct (abs_le_dec (Q2R (at_ (r_s2y (o_t (O o))) i) - tr_var T i) e); [|left; tauto].
    destruct (abs_le_dec (Q2R (at_ (r_uydark (o_t (O o))) i) - tr_dark_mean T i) e); [|left; tauto].
    destruct (abs_le_dec (Q2R (at_ (r_s2ydark (o_t (O o))) i) - tr_dark_var T i) e); [|left; tauto].
    right. intros [[A|A]|[A|A]]; lra. }
  destruct (Exists_dec P (seq 0 n) dec) as [E|E].
  - apply Exists_exists in E. destruct E as (i & Hi & Pi). apply in_seq in Hi. exists i. split; [lia|exact Pi].
  - exfalso. apply NW.
    assert (A : forall i, (i < n)%nat -> ~ P i).
    { intros i Hi Pi. apply E, Exists_exists. exists i. split; [apply in_seq; lia|exact Pi]. }
    constructor; intros i Hi; apply Rnot_lt_le; intro L; apply (A i Hi); unfold P; tauto.
Qed.

Lemma measured_unlikely :
  unlikely C (fun o => ~ right_within (O o) p eta K q e)
    (INR n / INR (h * w) * ((V + 2 * M) / (e * e) + 4 * V / e)).
Proof.
  assert (N0 : 0 < INR (h * w)) by (apply lt_0_INR; lia).
  set (dm := V / (2 * INR (h * w) * (e * e))).
  set (dv := M / (INR (h * w) * (e * e)) + 2 * V / (INR (h * w) * e)).
  eapply unlikely_mono; [|apply Req_le; symmetry|apply (unlikely_some C n (fun i o =>
     (e < Rabs (Q2R (at_ (r_uy (o_t (O o))) i) - tr_mean T i) \/ e < Rabs (Q2R (at_ (r_s2y (o_t (O o))) i) - tr_var T i)) \/
     (e < Rabs (Q2R (at_ (r_uydark (o_t (O o))) i) - tr_dark_mean T i) \/
      e < Rabs (Q2R (at_ (r_s2ydark (o_t (O o))) i) - tr_dark_var T i))) ((dm + dv) + (dm + dv)))].
  - intros o NR. apply not_within. intros MW. apply NR, measured_right, MW.
  - unfold dm, dv. field. lra.
  - intros i Hi.
    assert (CB : forall o, exists u s, computed h w (B i o) u s).
    { intros o. destruct (me_computed _ _ _ _ _ _ _ _ _ _ _ ME o i Hi) as (A & _). eauto. }
    assert (CD : forall o, exists u s, computed h w (D i o) u s).
    { intros o. destruct (me_computed _ _ _ _ _ _ _ _ _ _ _ ME o i Hi) as (_ & A). eauto. }
    destruct (true_pair_unlikely W C (B i) h w V M _ _ e (me_bright _ _ _ _ _ _ _ _ _ _ _ ME i Hi) HN CB e0) as (U1 & U2).
    destruct (true_pair_unlikely W C (D i) h w V M _ _ e (me_dark _ _ _ _ _ _ _ _ _ _ _ ME i Hi) HN CD e0) as (U3 & U4).
    eapply unlikely_mono; [|apply Rle_refl|apply (unlikely_or C _ _ _ _ (unlikely_or C _ _ _ _ U1 U2) (unlikely_or C _ _ _ _ U3 U4))].
    intros o E. destruct (me_computed _ _ _ _ _ _ _ _ _ _ _ ME o i Hi) as (A1 & A2).
    destruct E as [[E|E]|[E|E]].
    + left. left. eauto.
    + left. right. eauto.
    + right. left. eauto.
    + right. right. eauto.
Qed.
End Measured.
