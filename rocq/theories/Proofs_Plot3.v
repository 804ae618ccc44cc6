(** Lemmas behind the plot properties: axis limits, several tests, plots of a whole
    evaluation. *)
From Coq Require Import Ascii String List Bool Arith ZArith QArith Lia.
From Verif Require Import Base_Prelude Base_Str Base_Num Base_Float Base_Order Base_Sum Base_Xreal Model_Path Model_Parser
  Model_Images Model_Loader Model_Data Model_Results Model_Hist Model_Profile Model_Emva Model_Plot
  Spec_Parser Spec_Data Spec_Results Spec_Emva Spec_Plot
  Proofs_Fit Proofs_Results Proofs_Emva2 Proofs_Emva3 Proofs_Emva4 Proofs_Plot Proofs_Plot2.
Import ListNotations.
Open Scope Q_scope.

Lemma level_mean (c : list (nat * Q)) v : curve_mean c = Some v -> level c v.
Proof.
  intro H. assert (L : level c v <-> c <> [] /\ v * qn (length (map snd c)) == lsumq (map snd c)).
  { unfold level. rewrite map_length. assert (F : fold_right Qplus 0 (map snd c) == lsumq (map snd c)).
    { clear. induction (map snd c); simpl; [reflexivity|]. rewrite IHl. reflexivity. }
    rewrite F. reflexivity. }
  apply L. clear L. unfold curve_mean, np_mean in H. destruct (map snd c) as [|x l] eqn:E; [discriminate|].
  injection H as <-. split; [intros ->; discriminate|]. 
  assert (NZ : ~ qn (length (x :: l)) == 0) by (unfold qn, Qeq; simpl; lia).
  rewrite Qmult_comm. apply Qmult_div_r. exact NZ.
Qed.

Lemma profile_axes vertical ts l a bx dx :
  plot_tests vertical ts no_limits = Ok (Some (l, a)) -> rearrange a = Ok (bx, dx) ->
  length l = length ts /\
  forall b d, In (b, d) l -> exists bm dn dm,
    level (f_mean b) bm /\ level (f_min d) dn /\ level (f_max d) dm /\
    (0 <= bm -> visible bx bm) /\ (0 <= dn <= dm -> visible dx dn /\ visible dx dm).
Proof.
  destruct bx as (bl & bh), dx as (dl & dh). intros P R.
  destruct (profile_levels _ _ _ _ _ _ _ _ P R) as (L & F). split; auto.
  intros b d H. destruct (F b d H) as (bm & dn & dm & E1 & E2 & E3 & V1 & V2 & V3).
  exists bm, dn, dm. split; [apply level_mean; auto|]. split; [apply level_mean; auto|].
  split; [apply level_mean; auto|]. unfold visible. cbn [fst snd]. split; auto.
  intros (D1 & D2). assert (D3 : 0 <= dm) by (eapply Qle_trans; eauto).
  specialize (V2 D1). specialize (V3 D3). split; split; auto; eapply Qle_trans; eauto.
Qed.

Definition flat (v : Z) : image := mkImg 1 2 (fun _ _ => v).
Definition pair_img (a b : Z) : image := mkImg 1 2 (fun _ j => if (j =? 0)%nat then a else b).
Definition spatial_of (b d : image) : spatial :=
  mkSpatial (FFin 1) (FFin 10) (mkS d 1 1 2 None None 0 None None) (mkS b 1 1 2 None None 0 None None).

(** Two pixels of 0 and 20 over a dark image of 0: the axis reaches from 9 to 11. *)
Lemma profile_outside : exists s l a bx dx b v,
  plot_tests false [s] no_limits = Ok (Some (l, a)) /\ rearrange a = Ok (bx, dx) /\
  In (b, v) l /\ (forall p, In p (f_mean b) -> ~ visible bx (snd p)) /\ (length (f_mean b) = 2)%nat.
Proof.
  exists (spatial_of (pair_img 0 20) (flat 0)). do 6 eexists.
  split; [vm_compute; reflexivity|]. split; [vm_compute; reflexivity|].
  split; [left; reflexivity|]. split; [|reflexivity].
  intros p [<-|[<-|[]]] (H1 & H2); revert H1 H2; vm_compute; intros H1 H2;
    first [apply H1; reflexivity | apply H2; reflexivity].
Qed.

(** Bright images darker than the dark ones: the lower end of the axis is above the upper
    one. *)
Lemma profile_reversed : exists s l a bx dx,
  plot_tests false [s] no_limits = Ok (Some (l, a)) /\ rearrange a = Ok (bx, dx) /\ snd bx < fst bx.
Proof.
  exists (spatial_of (flat 10) (flat 30)). do 4 eexists.
  split; [vm_compute; reflexivity|]. split; [vm_compute; reflexivity|]. reflexivity.
Qed.

(** ** Histograms of several tests *)
Definition dark_only (im : image) : robj :=
  mkObj (mkRT [] [] [] [] [] []) (spatial_of im im) None None.

Lemma hist_hidden : exists o1 o2 h1 h2 ax v,
  histogram_DSNU o1 = Ok h1 /\ histogram_DSNU o2 = Ok h2 /\ hist_figure 1 [h1; h2] = Ok (Some ax) /\
  In v (h_values h1) /\ ~ visible ax (inject_Z v).
Proof.
  exists (dark_only (mkImg 2 4 (fun _ _ => 5%Z))), (dark_only (flat 5)). do 3 eexists. exists 8%Z.
  split; [vm_compute; reflexivity|]. split; [vm_compute; reflexivity|]. split; [vm_compute; reflexivity|].
  split; [left; reflexivity|]. intros (_ & H). apply H. reflexivity.
Qed.

Lemma hist_axis ymin h v : ymin <= 1 -> In v (h_values h) -> (0 < v)%Z ->
  exists ax, hist_figure ymin [h] = Ok (Some ax) /\ visible ax (inject_Z v).
Proof.
  intros Y I P. destruct (hist_visible ymin h v Y I P) as (top & E & V1 & V2). exists (ymin, top).
  split.
  - unfold hist_figure. cbn [mapM]. rewrite E. reflexivity.
  - split; auto. apply Qlt_le_weak. auto.
Qed.

(** ** The plots of a whole evaluation *)
Lemma plots_of_measurement fs h w visit_t visit_s fname t es :
  any_order visit_t -> any_order visit_s -> lists fname t es -> complete_set fs h w es ->
  (exists e, In e es /\ temporal_entry e) ->
  exists o rows i, emva fs visit_t visit_s fname (Some t) = Ok (Some o) /\ rows_of fs es rows /\
    value_of F_index_u_ysat o = VZ (Ok (Z.of_nat i)) /\ (i < length rows)%nat /\
    forall m, largest (length rows) (fun j => m_signal h w rows j <= (7 # 10) * m_signal h w rows i) m ->
      (exists data fit range, plot_sensitivity o = Ok [data; fit; range] /\
         Forall2 same_pair (k_points data)
           (map (fun j => (m_photons rows j, m_signal h w rows j)) (seq 0 (length rows)))) /\
      (exists data fit sat range, plot_ptc o = Ok [data; fit; sat; range] /\
         Forall2 same_pair (k_points data)
           (map (fun j => (m_signal h w rows j, m_noise h w rows j)) (seq 0 (length rows))) /\
         Forall2 same_pair (k_points sat) [(m_signal h w rows i, m_noise h w rows i)]).
Proof.
  intros VT VS L CS TE. destruct (emva_chain fs h w visit_t visit_s fname t es VT VS L CS) as (o & rows & E & OK).
  destruct (ok_saturation fs h w es o rows CS OK) as (i & I1 & I2 & _).
  { eapply rows_nonempty; eauto. }
  pose proof (ok_shaped fs h w es o rows OK) as SH.
  assert (SP : sat_point o (length rows) i).
  { split; auto. eexists. split; [injection I1 as H; exact H|]. left. auto. }
  exists o, rows, i. split; auto. split; [exact (proj1 OK)|]. split; auto. split; auto.
  intros m (M1 & M2 & M3).
  assert (SE : sensitivity_end o (length rows) i m).
  { split; auto. split.
    - rewrite !(ok_sig fs h w es o rows OK). auto.
    - intros j J1 J2. apply (M3 j J1). rewrite !(ok_sig fs h w es o rows OK) in J2. auto. }
  assert (PT : forall (f g : nat -> Q * Q) l, (forall j, same_pair (f j) (g j)) -> Forall2 same_pair (map f l) (map g l)).
  { intros f g l F. induction l; simpl; constructor; auto. }
  split.
  - destruct (proj1 (show_sensitivity o (length rows) i SH SP) m SE) as (r & data & fit & range & _ & P & D & _).
    exists data, fit, range. split; auto. destruct D as (_ & _ & ->). apply PT. intro j. split; cbn [fst snd].
    + rewrite (ok_photons fs h w es o rows OK). reflexivity.
    + apply (ok_sig fs h w es o rows OK).
  - destruct (proj1 (show_ptc o (length rows) i SH SP) m SE) as (g & data & fit & sat & range & _ & P & D & _ & S & _).
    exists data, fit, sat, range. split; auto. destruct D as (_ & _ & ->), S as (_ & _ & ->). split.
    + apply PT. intro j. split; cbn [fst snd]; [apply (ok_sig fs h w es o rows OK)|apply (ok_noise fs h w es o rows OK)].
    + constructor; [|constructor]. split; cbn [fst snd]; [apply (ok_sig fs h w es o rows OK)|apply (ok_noise fs h w es o rows OK)].
Qed.

(** ** SNR *)
Lemma snr_figure tests : Forall (fun o => exists n lo hi, ordinary_test o n lo hi) tests ->
  exists l, plot_snrs [] tests = Ok l /\ length l = length tests /\
    forall top, final_top l = Some top -> forall p t, In (p, t) l ->
      below top (n_theoretical p) /\ below top (n_total p) /\ below top (n_ideal p).
Proof.
  intro F. destruct (many_snrs tests F [] (Forall_nil _)) as (l & E & L & B). exists l.
  split; auto. split; auto. intros top T. apply (B top T).
Qed.
