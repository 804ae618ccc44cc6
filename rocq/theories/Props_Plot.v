(** Properties of the plots: C72 (measured points and fits), C73 (SNR), C74 (dark signal),
    C75 (axes of the profiles), C76 (axes of the histograms). *)
From Coq Require Import Ascii String List Bool Arith ZArith QArith Reals Qreals Lia Lra.
From Verif Require Import Base_Prelude Base_Str Base_Num Base_Float Base_Order Base_Sum Base_Xreal Model_Path Model_Parser
  Model_Images Model_Loader Model_Data Model_Results Model_Hist Model_Profile Model_Emva Model_Plot
  Spec_Parser Spec_Data Spec_Results Spec_Emva Spec_Plot Proofs_Results Proofs_Results2 Proofs_Results3
  Proofs_Plot Proofs_Plot2 Proofs_Plot3 Props_Results Props_Emva.
Import ListNotations.
Open Scope Q_scope.

(** ** C72: the plots show the measured points and the fits that give the figures *)
Theorem C72_sensitivity : forall o n k, shaped o n -> sat_point o n k ->
  (forall m, sensitivity_end o n k m ->
     exists r data fit range, responsivity o = Ok r /\ plot_sensitivity o = Ok [data; fit; range] /\
       shows_points data "Data" true (all_points n) (fun i => (photons o i, sig o i)) /\
       shows_points fit "Fit" true (all_points n) (fun i => (photons o i, r * photons o i)) /\
       shows_points range "Fit range" false [0%nat; m] (fun i => (photons o i, sig o i)) /\
       ((exists i, (i <= m)%nat /\ ~ photons o i == 0) -> best_slope (photons o) (sig o) m r)) /\
  ((forall j, (j < n)%nat -> ~ sig o j <= (7 # 10) * sig o k) -> plot_sensitivity o = Err ValueError).
Proof. exact show_sensitivity. Qed.
Print Assumptions C72_sensitivity.

Theorem C72_ptc : forall o n k, shaped o n -> sat_point o n k ->
  (forall m, sensitivity_end o n k m ->
     exists g data fit sat range, gain o = Ok g /\ plot_ptc o = Ok [data; fit; sat; range] /\
       shows_points data "Data" true (all_points n) (fun i => (sig o i, noise o i)) /\
       shows_points fit "Fit" true (all_points n) (fun i => (sig o i, g * sig o i)) /\
       shows_points sat "Saturation" false [k] (fun i => (sig o i, noise o i)) /\
       shows_points range "Fit range" false [0%nat; m] (fun i => (sig o i, noise o i)) /\
       ((exists i, (i <= m)%nat /\ ~ sig o i == 0) -> best_slope (sig o) (noise o) m g)) /\
  ((forall j, (j < n)%nat -> ~ sig o j <= (7 # 10) * sig o k) -> plot_ptc o = Err ValueError).
Proof. exact show_ptc. Qed.
Print Assumptions C72_ptc.

Example C72_case : sensitivity_end sample 5 3 1 /\
  (exists i, (i <= 1)%nat /\ ~ photons sample i == 0) /\ (exists i, (i <= 1)%nat /\ ~ sig sample i == 0) /\
  match plot_ptc sample with
  | Ok [_; _; sat; range] =>
      map (fun p => (Qred (fst p), Qred (snd p))) (k_points sat ++ k_points range) = [(10, 5); (5 # 2, 5 # 4); (5, 5 # 2)]
  | _ => False
  end.
Proof.
  split; [|split; [|split]].
  - split; [lia|]. split; [vm_compute; discriminate|]. intros j J.
    assert (C : j = 2%nat \/ j = 3%nat \/ j = 4%nat) by lia.
    destruct C as [->|[->| ->]]; vm_compute; intro H; apply H; reflexivity.
  - exists 0%nat. split; [lia|]. vm_compute. discriminate.
  - exists 0%nat. split; [lia|]. vm_compute. discriminate.
  - vm_compute. reflexivity.
Qed.

Theorem C72_linearity : forall o n k, shaped o n -> sat_point o n k -> forall lo hi, linear_range o n k lo hi ->
  (forall i, in_range lo hi i -> ~ sig o i == 0) ->
  (exists i j, in_range lo hi i /\ in_range lo hi j /\ ~ photons o i == photons o j) ->
  exists a b data fit range, best_relative_line (photons o) (sig o) lo hi a b /\
    plot_linearity o = Ok [data; fit; range] /\
    shows_points data "Data" true (all_points n) (fun i => (photons o i, Some (sig o i))) /\
    shows_points fit "Fit" true (all_points n) (fun i => (photons o i, Some (a * photons o i + b))) /\
    shows_points range "Fit range" false [lo; hi] (fun i => (photons o i, Some (sig o i))).
Proof. exact show_linearity. Qed.
Print Assumptions C72_linearity.

(** The deviations drawn are those of the linear range, between LE_min and LE_max, and
    both are reached. *)
Theorem C72_deviation : forall o n k, shaped o n -> sat_point o n k -> forall lo hi, linear_range o n k lo hi ->
  (forall i, in_range lo hi i -> ~ sig o i == 0) ->
  (exists i j, in_range lo hi i /\ in_range lo hi j /\ ~ photons o i == photons o j) ->
  exists a b data range, best_relative_line (photons o) (sig o) lo hi a b /\
    plot_deviation o = Ok [data; range] /\
    ((forall i, in_range lo hi i -> ~ a * photons o i + b == 0) ->
     shows_points data "Data" true (range_points lo hi) (fun i => (photons o i, Some (rel_dev o a b i))) /\
     shows_points range "Fit range" false [lo; hi] (fun i => (photons o i, Some (rel_dev o a b i))) /\
     exists mn mx, LE_min o = Ok (Some mn) /\ LE_max o = Ok (Some mx) /\
       (forall x y, In (x, Some y) (k_points data) -> mn <= y <= mx) /\
       (exists x, In (x, Some mn) (k_points data)) /\ (exists x, In (x, Some mx) (k_points data))).
Proof. exact show_deviation. Qed.
Print Assumptions C72_deviation.

(** The points of [sample] lie on a line through 0; a bent series shows more. *)
Definition bent : robj :=
  mkObj (mkRT [1; 2; 3; 4; 5] [10; 20; 30; 40; 50] [11; 21; 33; 40; 41] [11; 21; 33; 40; 1]
              [1; 1; 1; 1; 1] [1; 1; 1; 1; 1]) sample_s None None.
Example C72_linear_case : sat_point bent 5 3 /\ linear_range bent 5 3 0 2 /\
  (forall i, in_range 0 2 i -> ~ sig bent i == 0) /\
  (exists i j, in_range 0 2 i /\ in_range 0 2 j /\ ~ photons bent i == photons bent j) /\
  match plot_deviation bent with
  | Ok [data; _] => map fst (k_points data) = [10; 20; 30] /\
      (match k_points data with [(_, Some x); (_, Some y); (_, Some z)] => 0 < x /\ y < 0 /\ 0 < z | _ => False end)
  | _ => False
  end.
Proof.
  split; [split; [lia|]; exists 3%Z; split; [reflexivity|left; reflexivity]|].
  split; [split|split; [|split]].
  - split; [lia|]. split; [vm_compute; discriminate|]. intros j J. lia.
  - split; [lia|]. split; [vm_compute; discriminate|]. intros j J.
    assert (C : j = 3%nat \/ j = 4%nat) by lia.
    destruct C as [->| ->]; vm_compute; intro H; apply H; reflexivity.
  - intros i I. unfold in_range in I. assert (C : i = 0%nat \/ i = 1%nat \/ i = 2%nat) by lia.
    destruct C as [->|[->| ->]]; vm_compute; discriminate.
  - exists 0%nat, 1%nat. unfold in_range. split; [lia|]. split; [lia|]. vm_compute. discriminate.
  - vm_compute. repeat split.
Qed.

(** Without a linear range both plots end with an exception. *)
Theorem C72_no_range : forall o n k, shaped o n -> sat_point o n k -> forall lo hi,
  linear_range o n k lo hi -> (hi < lo)%nat ->
  plot_linearity o = Err ValueError /\ plot_deviation o = Err ValueError.
Proof. exact no_linear_range. Qed.
Print Assumptions C72_no_range.

(** Four points, none between 5 % and 95 % of the saturation. *)
Definition steep : robj :=
  mkObj (mkRT [1; 2; 3; 4] [10; 20; 30; 40] [1; 2; 101; 101] [0; 1; 5; 1] [1; 1; 1; 1] [1; 1; 1; 1]) sample_s None None.
Example C72_no_range_case : shaped steep 4 /\ sat_point steep 4 2 /\ linear_range steep 4 2 2 1.
Proof.
  split; [repeat split|]. split; [split; [lia|]; exists 2%Z; split; [reflexivity|left; reflexivity]|].
  split; (split; [lia|]; split; [vm_compute; discriminate|]; intros j J).
  - assert (C : j = 0%nat \/ j = 1%nat) by lia.
    destruct C as [->| ->]; vm_compute; intro H; apply H; reflexivity.
  - assert (C : j = 2%nat \/ j = 3%nat) by lia.
    destruct C as [->| ->]; vm_compute; intro H; apply H; reflexivity.
Qed.

(** From the descriptor and the image files to the points of the plots. *)
Theorem C72_end_to_end :
  forall fs h w visit_t visit_s fname t es,
  any_order visit_t -> any_order visit_s -> lists fname t es -> complete_set fs h w es ->
  (exists e, In e es /\ temporal_entry e) ->
  exists o rows i, emva fs visit_t visit_s fname (Some t) = Ok (Some o) /\ rows_of fs es rows /\
    value_of F_index_u_ysat o = VZ (Ok (Z.of_nat i)) /\ (i < length rows)%nat /\
    forall m, largest (length rows) (fun j => m_signal h w rows j <= (7 # 10) * m_signal h w rows i) m ->
      (exists data fit range, plot_sensitivity o = Ok [data; fit; range] /\
         Forall2 same_pair (k_points data)
           (map (fun j => (m_photons rows j, m_signal h w rows j)) (seq 0 (length rows)))) /\
      (exists data fit sat range, plot_ptc o = Ok [data; fit; sat; range] /\
         Forall2 same_pair (k_points data)
           (map (fun j => (m_signal h w rows j, m_noise h w rows j)) (seq 0 (length rows))) /\
         Forall2 same_pair (k_points sat) [(m_signal h w rows i, m_noise h w rows i)]).
Proof. exact plots_of_measurement. Qed.
Print Assumptions C72_end_to_end.

(** The data set of C62. *)
Example C72_end_to_end_case : lists set_file set_text set_entries /\ complete_set set_fs 1 2 set_entries /\
  match emva set_fs (fun m => m) (fun m => m) set_file (Some set_text) with
  | Ok (Some o) => match plot_ptc o with
                   | Ok [data; _; _; _] => map (fun p => (Qred (fst p), Qred (snd p))) (k_points data) =
                                           [(10, 16); (20, 48); (30, 96); (40, -2)]
                   | _ => False
                   end
  | _ => False
  end.
Proof. split; [exact set_listed|]. split; [exact set_complete|]. vm_compute. reflexivity. Qed.

(** ** C73: the SNR plot *)
Open Scope R_scope.

Theorem C73_one_test : forall o n lo hi, ordinary_test o n lo hi ->
  forall drawn, Forall (fun x => exists r, x = XR r) drawn -> exists pl top,
  plot_snr drawn o = Ok (pl, (drawn ++ [XR (sqrt (Spec_Plot.sample lo hi 99))])%list, top) /\
  (forall r, In (XR r) drawn -> r <= top) /\ sqrt (Spec_Plot.sample lo hi 99) <= top /\
  n_data pl = map (fun i => (photons o i, XR (Q2R (sig o i) / sqrt (Q2R (at_ (r_s2y (o_t o)) i)))))
    (filter (fun i => negb (Qeq_bool (at_ (r_s2y (o_t o)) i) 0)) (seq 0 n)) /\
  drawn_at (map (Spec_Plot.sample lo hi) (seq 0 100)) (snr_theoretical o) (n_theoretical pl) /\
  drawn_at (map (Spec_Plot.sample lo hi) (seq 0 100)) (snr_total o) (n_total pl) /\
  drawn_at (map (Spec_Plot.sample lo hi) (seq 0 100)) (fun x => Ok (XR (sqrt x))) (n_ideal pl) /\
  n_lines pl = (XR lo, hi) /\
  forall t, sqrt (Spec_Plot.sample lo hi 99) <= t ->
    below t (n_theoretical pl) /\ below t (n_total pl) /\ below t (n_ideal pl).
Proof. exact one_snr. Qed.
Print Assumptions C73_one_test.

(** Several tests in one figure: none of the computed curves leaves the axis. *)
Theorem C73_figure : forall tests,
  Forall (fun o => exists n lo hi, ordinary_test o n lo hi) tests ->
  exists l, plot_snrs [] tests = Ok l /\ length l = length tests /\
    forall top, final_top l = Some top -> forall p t, In (p, t) l ->
      below top (n_theoretical p) /\ below top (n_total p) /\ below top (n_ideal p).
Proof. exact snr_figure. Qed.
Print Assumptions C73_figure.

(** Threshold at 1 + 4 sqrt(1/2), saturation at 40. *)
Example C73_case : exists lo hi, ordinary_test sample 5 lo hi /\ (hi == 40)%Q.
Proof.
  assert (K : exists k, gain sample = Ok k /\ (k == 1 # 2)%Q) by (eexists; split; vm_compute; reflexivity).
  assert (G : exists r, responsivity sample = Ok r /\ (r == 1 # 4)%Q) by (eexists; split; vm_compute; reflexivity).
  assert (D : exists d, dark_variance sample = Ok d /\ (d == 1 # 2)%Q) by (eexists; split; vm_compute; reflexivity).
  assert (P : exists p, u_p_sat sample = Ok p /\ (p == 40)%Q) by (eexists; split; vm_compute; reflexivity).
  destruct K as (k & Ek & Hk), G as (r & Er & Hr), D as (d & Ed & Hd), P as (p & Ep & Hp).
  apply Qeq_eqR in Hk. apply Qeq_eqR in Hr. apply Qeq_eqR in Hd. pose proof (Qeq_eqR _ _ Hp) as Hp'.
  assert (Vk : Q2R k = / 2) by (rewrite Hk; unfold Q2R; simpl; lra).
  assert (Vr : Q2R r = / 4) by (rewrite Hr; unfold Q2R; simpl; lra).
  assert (Vd : Q2R d = / 2) by (rewrite Hd; unfold Q2R; simpl; lra).
  assert (Vp : Q2R p = 40) by (rewrite Hp'; unfold Q2R; simpl; lra).
  assert (S : sigma_y_dark sample = Ok (XR (sqrt (/ 2)))).
  { unfold sigma_y_dark. rewrite Ed. cbn [bind]. unfold xq. rewrite xsqrt_fin by lra. rewrite Vd. reflexivity. }
  assert (SP : 0 < sqrt (/ 2)) by (apply sqrt_lt_R0; lra).
  assert (SS : sqrt (/ 2) * sqrt (/ 2) = / 2) by (apply sqrt_sqrt; lra).
  assert (Pk : (0 < k)%Q) by (apply Rlt_Qlt; unfold Q2R at 1; simpl; lra).
  assert (Pr : (0 < r)%Q) by (apply Rlt_Qlt; unfold Q2R at 1; simpl; lra).
  destruct (C28_identities sample k r _ p Ek Er ltac:(intro H; rewrite H in Pk; discriminate)
              ltac:(intro H; rewrite H in Pr; discriminate) S Ep) as (qe & lo & ue & us & ik & E1 & E2 & _ & _ & _ & I1 & I2 & I3 & _).
  exists lo, p. split; auto. constructor; eauto.
  - exact sample_shaped.
  - exists qe. split; auto. rewrite Vk, Vr in I1. lra.
  - exists (sqrt (/ 2)). split; auto. split; auto. lra.
  - intros i Hi. do 5 (destruct i as [|i]; [vm_compute; discriminate|]). lia.
  - destruct (C33_dsnu sample k Ek ltac:(intro H; rewrite H in Pk; discriminate)) as (A & _).
    destruct (A _ eq_refl) as (_ & B). destruct B as (x & B & _); [vm_compute; discriminate|]. eauto.
  - destruct (C33_prnu sample C33_sample) as (A & _).
    destruct (A _ _ eq_refl eq_refl) as (_ & B). destruct B as (x & B & _); [vm_compute; discriminate|]. eauto.
  - rewrite Vk, Vr in *. assert (qe = 50) by lra. subst. nra.
Qed.

(** In binary64 the samples may be 101, the last one beyond the saturation. *)
Theorem C73_samples_refuted : exists X x, snr_samples_f (FFin 5) (FFin 62) = Ok X /\ length X = 101%nat /\
  In x X /\ flt (FFin 62) x = true.
Proof. exact samples_beyond. Qed.
Print Assumptions C73_samples_refuted.

(** ** C74: mean gray value in dark *)
Open Scope Q_scope.

Theorem C74_dark_partial : forall o n, shaped o n -> (0 < n)%nat -> ascending (r_texp (o_t o)) ->
  exists data, plot_uydark o = Ok [data] /\
    (k_joined data = false <-> all_same (r_texp (o_t o))) /\
    k_points data = map (fun i => (at_ (r_texp (o_t o)) i, at_ (r_uydark (o_t o)) i)) (all_points n).
Proof. exact show_uydark. Qed.
Print Assumptions C74_dark_partial.

Example C74_case : ascending (r_texp (o_t sample)) /\ ~ all_same (r_texp (o_t sample)).
Proof.
  split.
  - repeat constructor; vm_compute; discriminate.
  - intro H. specialize (H 1 2 (or_introl eq_refl) (or_intror (or_introl eq_refl))). discriminate H.
Qed.

(** In binary64: three exposures of 0.1 are joined; 1, 1 and the next number are not. *)
Theorem C74_joined_refuted : exists t, t = rnd64 (1 # 10) /\ joined_f [t; t; t] = Ok true.
Proof. exact uydark_rounds. Qed.
Print Assumptions C74_joined_refuted.
Theorem C74_apart_refuted : exists a b, flt a b = true /\ joined_f [a; a; b] = Ok false.
Proof. exact uydark_hides. Qed.
Print Assumptions C74_apart_refuted.

(** ** C75: axes of the profiles *)
Theorem C75_levels_partial : forall vertical ts l a bx dx,
  plot_tests vertical ts no_limits = Ok (Some (l, a)) -> rearrange a = Ok (bx, dx) ->
  length l = length ts /\
  forall b d, In (b, d) l -> exists bm dn dm,
    level (f_mean b) bm /\ level (f_min d) dn /\ level (f_max d) dm /\
    (0 <= bm -> visible bx bm) /\ (0 <= dn <= dm -> visible dx dn /\ visible dx dm).
Proof. exact profile_axes. Qed.
Print Assumptions C75_levels_partial.

Example C75_case :
  let ts := [spatial_of (pair_img 40 60) (pair_img 4 6); spatial_of (pair_img 140 160) (flat 8)] in
  exists l a bx dx, plot_tests true ts no_limits = Ok (Some (l, a)) /\ rearrange a = Ok (bx, dx) /\
    fst bx == 81 # 2 /\ snd bx == 781 # 5 /\ fst dx == 18 # 5 /\ snd dx == 44 # 5.
Proof. do 4 eexists. split; [vm_compute; reflexivity|]. split; [vm_compute; reflexivity|]. repeat split. Qed.

(** Two bright pixels of 0 and 20 and a dark image of 0: the axis goes from 9 to 11, no
    point of the mean curve is on it. *)
Theorem C75_outside_refuted : exists s l a bx dx b v,
  plot_tests false [s] no_limits = Ok (Some (l, a)) /\ rearrange a = Ok (bx, dx) /\
  In (b, v) l /\ (forall p, In p (f_mean b) -> ~ visible bx (snd p)) /\ (length (f_mean b) = 2)%nat.
Proof. exact profile_outside. Qed.
Print Assumptions C75_outside_refuted.
Theorem C75_reversed_refuted : exists s l a bx dx,
  plot_tests false [s] no_limits = Ok (Some (l, a)) /\ rearrange a = Ok (bx, dx) /\ snd bx < fst bx.
Proof. exact profile_reversed. Qed.
Print Assumptions C75_reversed_refuted.

(** ** C76: axes of the histograms *)
Theorem C76_bins : forall ymin h v, ymin <= 1 -> In v (h_values h) -> (0 < v)%Z ->
  exists ax, hist_figure ymin [h] = Ok (Some ax) /\ visible ax (inject_Z v).
Proof. exact hist_axis. Qed.
Print Assumptions C76_bins.

(** Two tests: the axis of the second hides the first. *)
Theorem C76_two_tests_refuted : exists o1 o2 h1 h2 ax v,
  histogram_DSNU o1 = Ok h1 /\ histogram_DSNU o2 = Ok h2 /\ hist_figure 1 [h1; h2] = Ok (Some ax) /\
  In v (h_values h1) /\ ~ visible ax (inject_Z v).
Proof. exact hist_hidden. Qed.
Print Assumptions C76_two_tests_refuted.

Example C76_case : exists h ax, histogram_DSNU (dark_only (pair_img 3 8)) = Ok h /\ In 1%Z (h_values h) /\
  hist_figure 1 [h] = Ok (Some ax) /\ visible ax 1.
Proof.
  do 2 eexists. split; [vm_compute; reflexivity|]. split; [left; reflexivity|].
  split; [vm_compute; reflexivity|]. split; vm_compute; discriminate.
Qed.
