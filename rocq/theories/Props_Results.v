(** C23-C35: the figures of Results1288. *)
From Coq Require Import List Bool Arith ZArith QArith Reals Qreals Rpower Lia Lra.
From Verif Require Import Base_Prelude Base_Num Base_Sum Base_Xreal Model_Images Model_Data Model_Results
  Spec_Results Proofs_Results Proofs_Fit Proofs_Results2 Proofs_Results3 Proofs_Results4.
Import ListNotations.
Open Scope Q_scope.

(** A data set: quantum efficiency 50 %, gain 1/2, saturation at index 3. *)
Definition sample_t : rtemporal :=
  mkRT [1; 2; 3; 4; 5] [10; 20; 30; 40; 50]
       [7 # 2; 6; 17 # 2; 11; 27 # 2] [7 # 4; 3; 17 # 4; 11 # 2; 1]
       [1; 1; 1; 1; 1] [1 # 2; 1 # 2; 1 # 2; 1 # 2; 1 # 2].
Definition img0 : image := mkImg 3 4 (fun _ _ => 0%Z).
Definition sample_s : spatial :=
  mkSpatial (FFin 1) (FFin 10)
    (mkS img0 4 3 4 (Some 2) (Some 3) 1 (Some (1 # 2)) (Some (1 # 3)))
    (mkS img0 4 3 4 (Some 4) (Some 9) 11 (Some (3 # 2)) (Some 1)).
Definition sample : robj := mkObj sample_t sample_s (Some (9 # 2)) None.

Example sample_shaped : shaped sample 5.
Proof. repeat split. Qed.
Example sample_sat : sat_point sample 5 3.
Proof. split; [lia|]. exists 3%Z. split; [reflexivity|left; reflexivity]. Qed.
Example sample_index : index_sensitivity_max sample = Ok 1%nat.
Proof. vm_compute. reflexivity. Qed.
Example sample_gain : match gain sample with Ok k => k == 1 # 2 | Err _ => False end.
Proof. vm_compute. reflexivity. Qed.
Example sample_responsivity : match responsivity sample with Ok r => r == 1 # 4 | Err _ => False end.
Proof. vm_compute. reflexivity. Qed.

(** ** C23: the saturation index *)
Theorem C23_saturation_index :
  forall o, unforced o ->
  let s := r_s2y (o_t o) in
  (2 <= length s)%nat \/ length s = 1%nat /\ Forall (fun x => 0 <= x) s ->
  exists i, fst (index_u_ysat o) = Ok (Z.of_nat i) /\ (i < length s)%nat /\
    (goes_on s (length s - 1) ->
       (forall j, (i <= j < length s)%nat -> goes_on s j) /\ (i = 0%nat \/ ~ goes_on s (i - 1))) /\
    (~ goes_on s (length s - 1) -> i = 0%nat).
Proof. exact saturation_index. Qed.
Print Assumptions C23_saturation_index.

(** For variances (not negative) the last point always counts. *)
Theorem C23_last_point_counts :
  forall s, s <> [] -> Forall (fun x => 0 <= x) s -> goes_on s (length s - 1).
Proof. exact last_goes_on. Qed.
Print Assumptions C23_last_point_counts.

Example C23_sample : fst (index_u_ysat sample) = Ok 3%Z.
Proof. reflexivity. Qed.
Example C23_noisy :
  fst (index_u_ysat (mkObj (mkRT [] [] [] [1; 2; 3; 9; 8; 10; 4; 5; 0] [] []) sample_s None None)) = Ok 5%Z.
Proof. reflexivity. Qed.

(** A single negative value is not a valid variance; the code then fails. *)
Theorem C23_single_negative_raises :
  forall o x, unforced o -> r_s2y (o_t o) = [x] -> x < 0 -> fst (index_u_ysat o) = Err IndexError.
Proof. exact single_negative. Qed.
Print Assumptions C23_single_negative_raises.

Example C23_single_negative_case :
  fst (index_u_ysat (mkObj (mkRT [] [] [] [-1] [] []) sample_s None None)) = Err IndexError.
Proof. reflexivity. Qed.

(** ** C24: the peak is found.  Full statement: for every p; it fails for p = 1. *)
Theorem C24_peak_found_partial :
  forall o p, unforced o -> peak_at (r_s2y (o_t o)) p -> p <> 1%nat ->
  fst (index_u_ysat o) = Ok (Z.of_nat p).
Proof. exact peak_found. Qed.
Print Assumptions C24_peak_found_partial.

Example C24_sample : peak_at (r_s2y (o_t sample)) 3.
Proof.
  split; [simpl; lia|]. split; [repeat (apply Forall_cons || apply Forall_nil); discriminate|].
  unfold at_. split.
  - intros i j H. destruct j as [|[|[|[|j]]]]; destruct i as [|[|[|i]]]; try lia; reflexivity.
  - intros i j H L. simpl in L. destruct j as [|[|[|[|[|j]]]]]; try lia.
    destruct i as [|[|[|[|i]]]]; try lia; discriminate.
Qed.

Definition peak1 : robj := mkObj (mkRT [] [] [] [1; 5; 2] [] []) sample_s None None.
Example peak1_peak : peak_at (r_s2y (o_t peak1)) 1.
Proof.
  split; [simpl; lia|]. split; [repeat (apply Forall_cons || apply Forall_nil); discriminate|].
  unfold at_. split.
  - intros i j H. destruct j as [|[|j]]; destruct i as [|i]; try lia; reflexivity.
  - intros i j H L. simpl in L. destruct j as [|[|[|j]]]; try lia.
    destruct i as [|[|i]]; try lia; discriminate.
Qed.

Theorem C24_peak_refuted :
  exists o p, unforced o /\ peak_at (r_s2y (o_t o)) p /\ fst (index_u_ysat o) <> Ok (Z.of_nat p).
Proof.
  exact (ex_intro _ peak1 (ex_intro _ 1%nat (conj eq_refl (conj peak1_peak (never_one peak1 eq_refl))))).
Qed.
Print Assumptions C24_peak_refuted.

(** Stronger: 1 is never the answer. *)
Theorem C24_never_index_one :
  forall o, unforced o -> fst (index_u_ysat o) <> Ok 1%Z.
Proof. exact never_one. Qed.
Print Assumptions C24_never_index_one.

(** ** C25: forced index and access history.  Full statement: for every forced index;
    it fails for index 0. *)
Theorem C25_history_irrelevant :
  forall o l o', accesses o l o' -> Forall (fun fv => snd fv = value_of (fst fv) o) l.
Proof. exact history_irrelevant. Qed.
Print Assumptions C25_history_irrelevant.

Theorem C25_forced_index_partial :
  forall o z l o', o_sat o = Some z -> z <> 0%Z -> accesses o l o' ->
  Forall (fun fv => fst fv = F_index_u_ysat -> snd fv = VZ (Ok z)) l.
Proof. exact forced_index_history. Qed.
Print Assumptions C25_forced_index_partial.

Definition forced (z : Z) : robj := mkObj sample_t sample_s None (Some z).
Example C25_history :
  exists l o', accesses (forced 2) l o' /\ length l = 3%nat /\
    nth_error l 2 = Some (F_index_u_ysat, VZ (Ok 2%Z)).
Proof.
  do 2 eexists. split.
  - eapply acc_cons; [apply (access_store _ F_K)|].
    eapply acc_cons; [apply (access_plain _ F_sigma_y_dark)|].
    eapply acc_cons; [apply (access_store _ F_index_u_ysat)|]. apply acc_nil.
  - split; reflexivity.
Qed.

Example forced_zero : fst (index_u_ysat (forced 0)) <> Ok 0%Z.
Proof. vm_compute. discriminate. Qed.

Theorem C25_forced_index_refuted :
  exists o z, o_sat o = Some z /\ fst (index_u_ysat o) <> Ok z.
Proof.
  exact (ex_intro _ (forced 0) (ex_intro _ 0%Z (conj eq_refl forced_zero))).
Qed.
Print Assumptions C25_forced_index_refuted.

(** ** C26: fit ranges *)
Theorem C26_sensitivity_max :
  forall o n k, shaped o n -> sat_point o n k ->
  (forall m, index_sensitivity_max o = Ok m <->
     largest n (fun i => sig o i <= (7 # 10) * sig o k) m) /\
  (index_sensitivity_max o = Err ValueError <->
     forall j, (j < n)%nat -> ~ sig o j <= (7 # 10) * sig o k).
Proof. exact sensitivity_max_iff. Qed.
Print Assumptions C26_sensitivity_max.

Theorem C26_linearity_max :
  forall o n k, shaped o n -> sat_point o n k ->
  (forall m, index_linearity_max o = Ok m <->
     largest n (fun i => sig o i <= (95 # 100) * sig o k) m) /\
  (index_linearity_max o = Err ValueError <->
     forall j, (j < n)%nat -> ~ sig o j <= (95 # 100) * sig o k).
Proof. exact linearity_max_iff. Qed.
Print Assumptions C26_linearity_max.

Theorem C26_linearity_min :
  forall o n k, shaped o n -> sat_point o n k ->
  (forall m, index_linearity_min o = Ok m <->
     smallest n (fun i => (5 # 100) * sig o k <= sig o i) m) /\
  (index_linearity_min o = Err ValueError <->
     forall j, (j < n)%nat -> ~ (5 # 100) * sig o k <= sig o j).
Proof. exact linearity_min_iff. Qed.
Print Assumptions C26_linearity_min.

Theorem C26_below_saturation :
  forall o n k, shaped o n -> sat_point o n k ->
  forall m, (forall i j, (i <= j < n)%nat -> sig o i <= sig o j) -> 0 < sig o k ->
  index_sensitivity_max o = Ok m -> (m < k)%nat.
Proof. exact sensitivity_below_saturation. Qed.
Print Assumptions C26_below_saturation.

Example C26_sample :
  index_linearity_min sample = Ok 0%nat /\ index_linearity_max sample = Ok 2%nat /\ 0 < sig sample 3.
Proof. vm_compute. repeat split. Qed.
Example C26_none :
  index_sensitivity_max (mkObj (mkRT [1; 1] [1; 2] [8; 9] [1; 2] [0; 0] [0; 0]) sample_s None (Some 1%Z))
  = Err ValueError.
Proof. reflexivity. Qed.

(** ** C27: least squares *)
Theorem C27_responsivity :
  forall o n m, shaped o n -> index_sensitivity_max o = Ok m ->
  (exists i, (i <= m)%nat /\ ~ photons o i == 0) ->
  exists r, responsivity o = Ok r /\ best_slope (photons o) (sig o) m r.
Proof. exact responsivity_best. Qed.
Print Assumptions C27_responsivity.

Theorem C27_gain :
  forall o n m, shaped o n -> index_sensitivity_max o = Ok m ->
  (exists i, (i <= m)%nat /\ ~ sig o i == 0) ->
  exists k, gain o = Ok k /\ best_slope (sig o) (noise o) m k.
Proof. exact gain_best. Qed.
Print Assumptions C27_gain.

Theorem C27_proportional_exact :
  forall X Y m a c, best_slope X Y m a -> (forall i, (i <= m)%nat -> Y i == c * X i) -> a == c.
Proof. exact best_slope_exact. Qed.
Print Assumptions C27_proportional_exact.

Theorem C27_line :
  forall X Y m, length X = S m -> length Y = S m -> (0 < m)%nat ->
  (exists i j, (i <= m)%nat /\ (j <= m)%nat /\ ~ at_ X i == at_ X j) ->
  exists a b, linear_b X Y = Ok (a, b) /\ best_line (at_ X) (at_ Y) m a b.
Proof. exact linear_b_best. Qed.
Print Assumptions C27_line.

Theorem C27_line_exact :
  forall X Y m a b c d, best_line X Y m a b ->
  (forall i, (i <= m)%nat -> Y i == c * X i + d) -> a == c /\ b == d.
Proof. exact best_line_exact. Qed.
Print Assumptions C27_line_exact.

Example C27_sample :
  (exists i, (i <= 1)%nat /\ ~ photons sample i == 0) /\ (exists i, (i <= 1)%nat /\ ~ sig sample i == 0).
Proof. split; exists 0%nat; split; [lia|discriminate|lia|discriminate]. Qed.
Example C27_line_case :
  match linear_b [1; 2; 4] [3; 5; 9] with Ok (a, b) => a == 2 /\ b == 1 | Err _ => False end.
Proof. vm_compute. split; reflexivity. Qed.

(** ** C28: identities between the sensitivity figures *)
Open Scope R_scope.
Theorem C28_identities :
  forall o k r s p, gain o = Ok k -> responsivity o = Ok r -> ~ (k == 0)%Q -> ~ (r == 0)%Q ->
  sigma_y_dark o = Ok (XR s) -> u_p_sat o = Ok p ->
  exists qe upmin uemin uesat invk,
    QE o = Ok (XR qe) /\ u_p_min o = Ok (XR upmin) /\ u_e_min o = Ok (XR uemin) /\
    u_e_sat o = Ok (XR uesat) /\ inverse_K o = Ok (XR invk) /\
    qe * Q2R k = 100 * Q2R r /\
    uemin = s / Q2R k + 1 / 2 /\ uemin = qe * upmin / 100 /\
    uesat = qe * Q2R p / 100 /\ invk * Q2R k = 1.
Proof. exact sensitivity_identities. Qed.
Print Assumptions C28_identities.

Theorem C28_u_p_sat :
  forall o n k, shaped o n -> sat_point o n k -> u_p_sat o = Ok (photons o k).
Proof. exact u_p_sat_value. Qed.
Print Assumptions C28_u_p_sat.

Theorem C28_snr :
  forall o u, u_e_sat o = Ok (XR u) -> 0 < u ->
  exists m db bit inv,
    SNR_max o = Ok (XR m) /\ SNR_max_dB o = Ok (XR db) /\ SNR_max_bit o = Ok (XR bit) /\
    inverse_SNR_max o = Ok (XR inv) /\
    0 < m /\ m * m = u /\ db = 10 * (ln u / ln 10) /\ Rpower 2 (2 * bit) = u /\ inv * m = 100.
Proof. exact snr_identities. Qed.
Print Assumptions C28_snr.

Theorem C28_dynamic_range :
  forall o k r s p, gain o = Ok k -> responsivity o = Ok r -> (0 < k)%Q -> (0 < r)%Q ->
  sigma_y_dark o = Ok (XR s) -> 0 < s -> u_p_sat o = Ok p -> (0 < p)%Q ->
  exists d upmin uemin uesat,
    DR o = Ok (XR d) /\ u_p_min o = Ok (XR upmin) /\ u_e_min o = Ok (XR uemin) /\
    u_e_sat o = Ok (XR uesat) /\ 0 < upmin /\ 0 < uemin /\
    d = Q2R p / upmin /\ d = uesat / uemin /\
    DR_dB o = Ok (XR (20 * (ln d / ln 10))).
Proof. exact dr_identities. Qed.
Print Assumptions C28_dynamic_range.

(** ** C29: the dark noise *)
Theorem C29_sigma_y_dark :
  forall o n, shaped o n -> (0 < n)%nat ->
  exists v s, dark_value o n v /\ sigma_y_dark o = Ok (XR s) /\
    0 < s /\ s * s = Rmax (24 / 100) (Q2R v).
Proof. exact sigma_y_dark_value. Qed.
Print Assumptions C29_sigma_y_dark.

Theorem C29_sigma_d :
  forall o s k, sigma_y_dark o = Ok (XR s) -> 24 / 100 <= s * s -> gain o = Ok k -> ~ (k == 0)%Q ->
  exists d, sigma_d o = Ok (XR d) /\ s * s = (Q2R k * d) * (Q2R k * d) + 1 / 12.
Proof. exact sigma_d_value. Qed.
Print Assumptions C29_sigma_d.

(** The sample meets the hypotheses of C28, C29 and C35. *)
Example sample_hypotheses :
  exists k r s p, gain sample = Ok k /\ responsivity sample = Ok r /\ (0 < k)%Q /\ (0 < r)%Q /\
    sigma_y_dark sample = Ok (XR s) /\ 0 < s /\ 24 / 100 <= s * s /\
    u_p_sat sample = Ok p /\ (0 < p)%Q.
Proof.
  destruct (C29_sigma_y_dark sample 5 sample_shaped ltac:(lia)) as (v & s & _ & E & P & Q).
  do 2 eexists. exists s. eexists.
  split; [vm_compute; reflexivity|]. split; [vm_compute; reflexivity|].
  split; [reflexivity|]. split; [reflexivity|]. split; [exact E|]. split; [exact P|].
  split; [rewrite Q; apply Rmax_l|]. split; [vm_compute; reflexivity|reflexivity].
Qed.

(** ** C30: the dark current *)
Theorem C30_from_mean :
  forall o n k, shaped o n -> gain o = Ok k -> ~ (k == 0)%Q ->
  (at_most_two (r_texp (o_t o)) -> u_I_mean_DN o = Ok XNan /\ u_I_mean o = Ok XNan) /\
  (~ at_most_two (r_texp (o_t o)) ->
   exists a b, best_line (at_ (r_texp (o_t o))) (at_ (r_uydark (o_t o))) (n - 1) a b /\
     u_I_mean_DN o = Ok (XR (10 ^ 9 * Q2R a)) /\
     u_I_mean o = Ok (XR (10 ^ 9 * Q2R a / Q2R k))).
Proof. exact u_I_mean_value. Qed.
Print Assumptions C30_from_mean.

Theorem C30_from_variance :
  forall o n k, shaped o n -> gain o = Ok k -> ~ (k == 0)%Q ->
  (at_most_two (r_texp (o_t o)) -> u_I_var_DN o = Ok XNan /\ u_I_var o = Ok XNan) /\
  (~ at_most_two (r_texp (o_t o)) ->
   exists a b, best_line (at_ (r_texp (o_t o))) (at_ (r_s2ydark (o_t o))) (n - 1) a b /\
     ((a < 0)%Q -> u_I_var_DN o = Ok XNan /\ u_I_var o = Ok XNan) /\
     ((0 <= a)%Q -> u_I_var_DN o = Ok (XR (10 ^ 9 * Q2R a / Q2R k)) /\
                    u_I_var o = Ok (XR (10 ^ 9 * Q2R a / (Q2R k * Q2R k))))).
Proof. exact u_I_var_value. Qed.
Print Assumptions C30_from_variance.

Example C30_three_exposures : ~ at_most_two (r_texp sample_t).
Proof.
  intros (a & b & H). rewrite Forall_forall in H.
  assert (A := H 1%Q ltac:(simpl; auto)). assert (B := H 2%Q ltac:(simpl; auto)).
  assert (C := H 3%Q ltac:(simpl; auto)).
  destruct A as [A|A], B as [B|B], C as [C|C];
    solve [rewrite <- A in B; discriminate | rewrite <- A in C; discriminate
          | rewrite <- B in C; discriminate].
Qed.
Example C30_two_exposures : at_most_two [5; 5; 7]%Q.
Proof. exists 5%Q, 7%Q. repeat (apply Forall_cons || apply Forall_nil); auto with qarith. Qed.

(** ** C31: linearity *)
Theorem C31_relative_least_squares :
  forall o n lo hi, shaped o n -> index_linearity_min o = Ok lo -> index_linearity_max o = Ok hi ->
  (forall i, in_range lo hi i -> ~ (sig o i == 0)%Q) ->
  (exists i j, in_range lo hi i /\ in_range lo hi j /\ ~ (photons o i == photons o j)%Q) ->
  exists l a b, linearity o = Ok l /\ lin_fit l = Some (a, b) /\
    best_relative_line (photons o) (sig o) lo hi a b /\
    length (lin_dev l) = n /\
    (forall i, (i < n)%nat -> ~ (a * photons o i + b == 0)%Q ->
       nth_error (lin_dev l) i = Some (Some (rel_dev o a b i))) /\
    ((forall i, in_range lo hi i -> ~ (a * photons o i + b == 0)%Q) ->
     exists mn mx, LE_min o = Ok (Some mn) /\ LE_max o = Ok (Some mx) /\
       (forall i, in_range lo hi i -> (mn <= rel_dev o a b i <= mx)%Q) /\
       (exists i, in_range lo hi i /\ mn = rel_dev o a b i) /\
       (exists i, in_range lo hi i /\ mx = rel_dev o a b i)).
Proof. exact linearity_figures. Qed.
Print Assumptions C31_relative_least_squares.

Theorem C31_exactly_linear :
  forall o n lo hi c d, shaped o n -> index_linearity_min o = Ok lo -> index_linearity_max o = Ok hi ->
  (forall i, in_range lo hi i -> ~ (sig o i == 0)%Q) ->
  (exists i j, in_range lo hi i /\ in_range lo hi j /\ ~ (photons o i == photons o j)%Q) ->
  (forall i, in_range lo hi i -> (sig o i == c * photons o i + d)%Q) ->
  exists l a b mn mx, linearity o = Ok l /\ lin_fit l = Some (a, b) /\ (a == c)%Q /\ (b == d)%Q /\
    LE_min o = Ok (Some mn) /\ LE_max o = Ok (Some mx) /\ (mn == 0)%Q /\ (mx == 0)%Q.
Proof. exact linearity_exact. Qed.
Print Assumptions C31_exactly_linear.

Example C31_sample :
  (forall i, in_range 0 2 i -> ~ (sig sample i == 0)%Q) /\
  (exists i j, in_range 0 2 i /\ in_range 0 2 j /\ ~ (photons sample i == photons sample j)%Q) /\
  (forall i, in_range 0 2 i -> (sig sample i == (1 # 4) * photons sample i + 0)%Q).
Proof.
  unfold in_range. split; [|split].
  - intros i H. destruct i as [|[|[|i]]]; try lia; discriminate.
  - exists 0%nat, 1%nat. split; [lia|]. split; [lia|discriminate].
  - intros i H. destruct i as [|[|[|i]]]; try lia; reflexivity.
Qed.

(** ** C32: row, column and pixel variances *)
Theorem C32_bright :
  forall o total cav rav,
  s_2_y o = Some total -> s_2_y_cav o = Some cav -> s_2_y_rav o = Some rav ->
  (0 < sd_M (sp_bright (o_s o)))%nat -> (0 < sd_N (sp_bright (o_s o)))%nat ->
  (sd_M (sp_bright (o_s o)) = 2%nat /\ sd_N (sp_bright (o_s o)) = 2%nat ->
     s_2_y_row o = Err ZeroDivisionError /\ s_2_y_col o = Err ZeroDivisionError /\
     s_2_y_pixel o = Err ZeroDivisionError) /\
  (~ (sd_M (sp_bright (o_s o)) = 2%nat /\ sd_N (sp_bright (o_s o)) = 2%nat) ->
   exists row col pixel,
     s_2_y_row o = Ok (Some row) /\ s_2_y_col o = Ok (Some col) /\ s_2_y_pixel o = Ok (Some pixel) /\
     decomposition (sd_M (sp_bright (o_s o))) (sd_N (sp_bright (o_s o))) total cav rav row col pixel /\
     forall row' col' pixel',
       decomposition (sd_M (sp_bright (o_s o))) (sd_N (sp_bright (o_s o))) total cav rav row' col' pixel' ->
       (row' == row /\ col' == col /\ pixel' == pixel)%Q).
Proof. exact decompose_bright. Qed.
Print Assumptions C32_bright.

Theorem C32_dark :
  forall o total cav rav,
  s_2_y_dark o = Some total -> s_2_y_cav_dark o = Some cav -> s_2_y_rav_dark o = Some rav ->
  (0 < sd_M (sp_dark (o_s o)))%nat -> (0 < sd_N (sp_dark (o_s o)))%nat ->
  (sd_M (sp_dark (o_s o)) = 2%nat /\ sd_N (sp_dark (o_s o)) = 2%nat ->
     s_2_y_row_dark o = Err ZeroDivisionError /\ s_2_y_col_dark o = Err ZeroDivisionError /\
     s_2_y_pixel_dark o = Err ZeroDivisionError) /\
  (~ (sd_M (sp_dark (o_s o)) = 2%nat /\ sd_N (sp_dark (o_s o)) = 2%nat) ->
   exists row col pixel,
     s_2_y_row_dark o = Ok (Some row) /\ s_2_y_col_dark o = Ok (Some col) /\
     s_2_y_pixel_dark o = Ok (Some pixel) /\
     decomposition (sd_M (sp_dark (o_s o))) (sd_N (sp_dark (o_s o))) total cav rav row col pixel /\
     forall row' col' pixel',
       decomposition (sd_M (sp_dark (o_s o))) (sd_N (sp_dark (o_s o))) total cav rav row' col' pixel' ->
       (row' == row /\ col' == col /\ pixel' == pixel)%Q).
Proof. exact decompose_dark. Qed.
Print Assumptions C32_dark.

Theorem C32_total :
  forall o,
  (forall am vm, sd_avg_var (sp_bright (o_s o)) = Some am -> sd_var_mean (sp_bright (o_s o)) = Some vm ->
     s_2_y o = Some (am - vm / qn (sd_L (sp_bright (o_s o))))%Q) /\
  (forall am vm, sd_avg_var (sp_dark (o_s o)) = Some am -> sd_var_mean (sp_dark (o_s o)) = Some vm ->
     s_2_y_dark o = Some (am - vm / qn (sd_L (sp_dark (o_s o))))%Q).
Proof. exact total_variances. Qed.
Print Assumptions C32_total.

Example C32_sample :
  omap Qred (s_2_y sample) = Some 8%Q /\ omap Qred (s_2_y_dark sample) = Some (5 # 2)%Q /\
  match s_2_y_row sample, s_2_y_col sample, s_2_y_pixel sample with
  | Ok (Some r), Ok (Some c), Ok (Some p) => (r + c + p == 8)%Q
  | _, _, _ => False
  end.
Proof. vm_compute. repeat split. Qed.

(** ** C33: DSNU and PRNU *)
Theorem C33_dsnu :
  forall o k, gain o = Ok k -> ~ (k == 0)%Q ->
  (forall v, s_2_y_dark o = Some v -> root_figure (DSNU1288 o) (Q2R k) v) /\
  (forall v, s_2_y_row_dark o = Ok (Some v) -> root_figure (DSNU1288_row o) (Q2R k) v) /\
  (forall v, s_2_y_col_dark o = Ok (Some v) -> root_figure (DSNU1288_col o) (Q2R k) v) /\
  (forall v, s_2_y_pixel_dark o = Ok (Some v) -> root_figure (DSNU1288_pixel o) (Q2R k) v) /\
  (forall v, s_2_y_dark o = Some v -> root_figure (DSNU1288_DN o) 1 v).
Proof. exact dsnu_figures. Qed.
Print Assumptions C33_dsnu.

Theorem C33_prnu :
  forall o, ~ (sd_avg_mean (sp_bright (o_s o)) - sd_avg_mean (sp_dark (o_s o)) == 0)%Q ->
  let u := Q2R (sd_avg_mean (sp_bright (o_s o)) - sd_avg_mean (sp_dark (o_s o))) / 100 in
  (forall v d, s_2_y o = Some v -> s_2_y_dark o = Some d -> root_figure (PRNU1288 o) u (v - d)) /\
  (forall v d, s_2_y_row o = Ok (Some v) -> s_2_y_row_dark o = Ok (Some d) ->
     root_figure (PRNU1288_row o) u (v - d)) /\
  (forall v d, s_2_y_col o = Ok (Some v) -> s_2_y_col_dark o = Ok (Some d) ->
     root_figure (PRNU1288_col o) u (v - d)) /\
  (forall v d, s_2_y_pixel o = Ok (Some v) -> s_2_y_pixel_dark o = Ok (Some d) ->
     root_figure (PRNU1288_pixel o) u (v - d)).
Proof. exact prnu_figures. Qed.
Print Assumptions C33_prnu.

Example C33_sample :
  ~ (sd_avg_mean (sp_bright (o_s sample)) - sd_avg_mean (sp_dark (o_s sample)) == 0)%Q.
Proof. vm_compute. discriminate. Qed.

(** ** C34: per-area figures *)
Theorem C34_per_area :
  forall o,
  area_figure (o_area o) (u_p_min o) (u_p_min_area o) /\
  area_figure (o_area o) (u_e_min o) (u_e_min_area o) /\
  area_figure (o_area o) (u <- u_p_sat o ;; Ok (XR (Q2R u))) (u_p_sat_area o) /\
  area_figure (o_area o) (u_e_sat o) (u_e_sat_area o).
Proof.
  exact (fun o => conj (per_area_figure _ _) (conj (per_area_figure _ _)
                    (conj (per_area_figure _ _) (per_area_figure _ _)))).
Qed.
Print Assumptions C34_per_area.

Example C34_sample : o_area sample = Some (9 # 2)%Q /\ ~ (9 # 2 == 0)%Q.
Proof. split; [reflexivity|discriminate]. Qed.

(** ** C35: the SNR curves *)
Theorem C35_ordered :
  forall o k r s, gain o = Ok k -> responsivity o = Ok r -> (0 < k)%Q -> (0 < r)%Q ->
  sigma_y_dark o = Ok (XR s) -> 0 < s -> 24 / 100 <= s * s ->
  forall x ds pr, 0 <= x -> DSNU1288 o = Ok (XR ds) -> PRNU1288 o = Ok (XR pr) ->
  exists qe th tot, QE o = Ok (XR qe) /\
    snr_theoretical o x = Ok (XR th) /\ snr_total o x = Ok (XR tot) /\
    snr_ideal x = XR (sqrt x) /\
    0 <= tot <= th /\ th <= sqrt (qe / 100 * x) /\ (qe <= 100 -> th <= sqrt x).
Proof. exact curves_ordered. Qed.
Print Assumptions C35_ordered.

Theorem C35_threshold :
  forall o k r s, gain o = Ok k -> responsivity o = Ok r -> (0 < k)%Q -> (0 < r)%Q ->
  sigma_y_dark o = Ok (XR s) -> 0 < s -> 24 / 100 <= s * s ->
  exists um th, u_p_min o = Ok (XR um) /\ snr_theoretical o um = Ok (XR th) /\
    sqrt (1 / 2) <= th < 1.
Proof. exact threshold_snr. Qed.
Print Assumptions C35_threshold.

Example C35_sample :
  exists ds pr, DSNU1288 sample = Ok (XR ds) /\ PRNU1288 sample = Ok (XR pr).
Proof.
  destruct sample_hypotheses as (k & r & s & p & HK & _ & PK & _).
  assert (NK : ~ (k == 0)%Q) by (intro E; rewrite E in PK; discriminate).
  destruct (C33_dsnu sample k HK NK) as (D & _).
  destruct (D _ eq_refl) as (_ & D').
  destruct (C33_prnu sample C33_sample) as (P & _).
  destruct (P _ _ eq_refl eq_refl) as (_ & P').
  destruct D' as (ds & E1 & _); [vm_compute; discriminate|].
  destruct P' as (pr & E2 & _); [vm_compute; discriminate|].
  exists ds, pr. auto.
Qed.
