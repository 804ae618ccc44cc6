(** Proofs for C128. *)
From Coq Require Import Ascii String List Bool Arith ZArith QArith Reals Qreals Lia.
From Verif Require Import Base_Prelude Base_Str Base_Num Base_Order Base_Sum Base_Xreal Model_Path Model_Parser
  Model_Images Model_Loader Model_Data Model_Results Model_Emva Model_Info Model_Docs Spec_Parser Spec_Images Spec_Data Spec_Results
  Spec_Emva Spec_Units Spec_UnitText Proofs_Parser Proofs_Dict Proofs_Info Proofs_Sheet2 Proofs_Latex Proofs_Emva4 Proofs_Units Proofs_Units4 Proofs_Units2 Proofs_Units3 Proofs_Emva3.
Import ListNotations.
Open Scope Q_scope.

Definition unit_tbl : list (str * option str) := Eval vm_compute in map (fun ni => (fst ni, sget (lit "unit") (snd ni))) info_tbl.
Lemma unit_tbl_eq : map (fun ni => (fst ni, sget (lit "unit") (snd ni))) info_tbl = unit_tbl.
Proof. vm_compute. reflexivity. Qed.
Lemma unit_nodup : NoDup (map fst unit_tbl).
Proof. rewrite <- unit_tbl_eq, map_map. exact info_nodup. Qed.

Lemma result_unit attr out n r : obj_to_dict results_cls attr = Ok out -> In (n, r) out ->
  exists l, In (n, l) unit_tbl /\ oget (lit "unit") r = option_map OStr l.
Proof.
  intros H I. apply obj_to_dict_spec in H. rewrite info_tbl_eq in H. rewrite <- unit_tbl_eq.
  induction H as [|(m, i) (m', r') l l' H0 H IH]; [destruct I|]. destruct I as [E|I].
  - injection E as -> ->. destruct H0 as (X & v & _ & R). cbn [fst snd] in X, R. subst m.
    exists (sget (lit "unit") i). split; [left; reflexivity|].
    rewrite R. destruct v; rewrite oget_oset_other by discriminate; apply oget_map_str.
  - destruct (IH I) as (x & A & B). exists x. split; [right; exact A|exact B].
Qed.
Definition tbl_exponents (n : str) : option exponents :=
  match sget n unit_tbl with Some (Some u) => read_unit u | Some None => Some (mkExp 0 0 0 0) | None => None end.
Lemma shown_tbl attr out n r : obj_to_dict results_cls attr = Ok out -> In (n, r) out -> shown_exponents r = tbl_exponents n /\ In n (map fst unit_tbl).
Proof.
  intros H I. destruct (result_unit _ _ _ _ H I) as (l & A & B). split; [|apply (in_map fst) in A; exact A].
  unfold shown_exponents, tbl_exponents. rewrite B.
  destruct (sget n unit_tbl) as [l'|] eqn:E.
  - apply sget_in in E. rewrite (in_key_unique _ _ _ _ unit_nodup A E). destruct l'; reflexivity.
  - exfalso. revert A. clear -E. induction unit_tbl as [|(x, y) d IH]; intro A; [exact A|]. cbn [dget] in E.
    destruct (str_eqb n x) eqn:Q; [discriminate|]. destruct A as [A|A]; [injection A as -> ->; rewrite str_eqb_refl in Q; discriminate|auto].
Qed.

(** The dimension of each figure is the unit shown. *)
Definition per_pixel_area (f : figure) : Z :=
  match f with F_u_p_min_area | F_u_e_min_area | F_u_p_sat_area | F_u_e_sat_area => -1 | _ => 0 end.
Definition listed (f : figure) : bool := match f with F_linearity => false | _ => true end.
Lemma figure_unit f : listed f = true -> tbl_exponents (figure_name f) =
  Some (mkExp (d_grey (dimension_of f)) (match f with F_QE => 0 | _ => d_photon (dimension_of f) end) (d_time (dimension_of f)) (per_pixel_area f)).
Proof. intro L. destruct f; try discriminate L; vm_compute; reflexivity. Qed.
Lemma linearity_unlisted : ~ In (figure_name F_linearity) (map fst unit_tbl).
Proof. vm_compute. intro H. repeat (destruct H as [H|H]; [discriminate H|]). exact H. Qed.
Lemma in_listed f : In (figure_name f) (map fst unit_tbl) -> listed f = true.
Proof. intro I. destruct f; try reflexivity. destruct (linearity_unlisted I). Qed.
Lemma measured_unit n v : In (n, v) measured_variances -> tbl_exponents n = Some (mkExp 2 0 0 0).
Proof. intro I. unfold measured_variances in I. repeat (destruct I as [I|I]; [injection I as <- <-; vm_compute; reflexivity|]). destruct I. Qed.

(** Every entry with a unit is one of these. *)
Definition figures : list figure :=
  [F_index_u_ysat; F_index_sensitivity_max; F_R; F_K; F_inverse_K; F_QE; F_sigma_y_dark; F_sigma_d; F_u_p_min; F_u_p_min_area; F_u_e_min; F_u_e_min_area;
   F_u_p_sat; F_u_p_sat_area; F_u_e_sat; F_u_e_sat_area; F_SNR_max; F_SNR_max_dB; F_SNR_max_bit; F_inverse_SNR_max; F_DR; F_DR_dB; F_index_linearity_min;
   F_index_linearity_max; F_linearity; F_LE_min; F_LE_max; F_u_I_var_DN; F_u_I_var; F_u_I_mean_DN; F_u_I_mean; F_s_2_y; F_s_2_y_dark; F_s_2_y_row; F_s_2_y_row_dark;
   F_s_2_y_col; F_s_2_y_col_dark; F_s_2_y_pixel; F_s_2_y_pixel_dark; F_DSNU1288; F_DSNU1288_DN; F_DSNU1288_row; F_DSNU1288_col; F_DSNU1288_pixel;
   F_PRNU1288; F_PRNU1288_row; F_PRNU1288_col; F_PRNU1288_pixel].
Lemma all_units : forallb (fun p => match snd p with None => true | Some _ =>
  existsb (fun f => str_eqb (fst p) (figure_name f)) figures || existsb (fun q => str_eqb (fst p) (fst q)) measured_variances end) unit_tbl = true.
Proof. vm_compute. reflexivity. Qed.
Lemma unit_covered attr out n r u : obj_to_dict results_cls attr = Ok out -> In (n, r) out -> oget (lit "unit") r = Some u ->
  (exists f, n = figure_name f) \/ (exists v, In (n, v) measured_variances).
Proof.
  intros H I U. destruct (result_unit _ _ _ _ H I) as (l & A & B). rewrite U in B. destruct l as [l|]; [|discriminate].
  pose proof all_units as C. rewrite forallb_forall in C. specialize (C _ A). cbn [fst snd] in C. apply orb_true_iff in C. destruct C as [C|C].
  - apply existsb_exists in C. destruct C as (f & _ & E). apply str_eqb_eq in E. left. exists f. exact E.
  - apply existsb_exists in C. destruct C as ((m, v) & I' & E). cbn [fst] in E. apply str_eqb_eq in E. subst m. right. exists v. exact I'.
Qed.
Lemma figures_shown attr out f : obj_to_dict results_cls attr = Ok out -> f <> F_linearity -> exists r, In (figure_name f, r) out.
Proof.
  intros H N. assert (I : In (figure_name f) (map fst latex_tbl)).
  { assert (E : existsb (str_eqb (figure_name f)) (map fst latex_tbl) = true) by (destruct f; try (destruct (N eq_refl)); vm_compute; reflexivity).
    apply existsb_exists in E. destruct E as (x & I & E). apply str_eqb_eq in E. rewrite E. exact I. }
  destruct (in_out attr out _ H I) as (r & _ & A & _). exists r. exact A.
Qed.

(** Equal factors. *)
Lemma times_q_ext k j x y : k == j -> times_q k x y -> times_q j x y.
Proof. intros E H. unfold times_q in *. rewrite H, E. reflexivity. Qed.
Lemma times_x_ext k j x y : k == j -> times_x k x y -> times_x j x y.
Proof. intros E H. apply times_x_iff in H. apply times_x_iff. rewrite H. apply xt_ext. exact E. Qed.
Lemma times_value_ext g p k j a b : k == j -> times_value g p k a b -> times_value g p j a b.
Proof.
  intro E. destruct a, b; simpl; auto.
  - apply same_res_impl. intros x y. apply times_q_ext, E.
  - apply same_res_impl. intros x y. apply times_x_ext, E.
  - apply same_res_impl. intros x y. apply same_opt_impl. intros ? ?. apply times_x_ext, E.
  - apply same_res_impl. intros x y. apply same_opt_impl. intros ? ?. apply times_q_ext, E.
Qed.

Lemma follows_unit g p t f o o' : listed f = true -> f <> F_QE \/ p == 1 -> follows g p t f o o' ->
  exists x, tbl_exponents (figure_name f) = Some x /\ times_value g p (unit_factor g p t 1 x) (value_of f o) (value_of f o').
Proof.
  intros L Q F. eexists. split; [apply figure_unit, L|]. eapply times_value_ext; [|exact F].
  unfold unit_factor, factor. cbn [x_grey x_photon x_time x_area]. rewrite qpow1.
  assert (E : p ^ d_photon (dimension_of f) == p ^ (match f with F_QE => 0 | _ => d_photon (dimension_of f) end)).
  { destruct f; try reflexivity. destruct Q as [Q|Q]; [destruct (Q eq_refl)|]. cbn [dimension_of d_photon]. rewrite Q. reflexivity. }
  rewrite E. ring.
Qed.

Lemma measured_follow g c p t o o' n v : rescaled g c p t o o' -> In (n, v) measured_variances -> same_opt (times_q (g * g)) (v o) (v o').
Proof.
  intros R I. destruct (rs_dark _ _ _ _ _ _ R) as (_ & _ & _ & _ & D1 & D2 & D3 & D4). destruct (rs_bright _ _ _ _ _ _ R) as (_ & _ & _ & _ & B1 & B2 & B3 & B4).
  unfold measured_variances in I. repeat (destruct I as [I|I]; [injection I as <- <-; assumption|]). destruct I.
Qed.

Lemma shown_units fs fs' h w g c t p fname fname' d d' es es' visit_t visit_s visit_t' visit_s' attr out :
  any_order visit_t -> any_order visit_s -> any_order visit_t' -> any_order visit_s' ->
  lists fname d es -> lists fname' d' es' -> complete_set fs h w es -> complete_set fs' h w es' ->
  (0 < g)%Z -> 0 < t -> 0 < p -> Forall2 (restated fs fs' (regraded g c) t p) es es' ->
  obj_to_dict results_cls attr = Ok out ->
  exists o o', emva fs visit_t visit_s fname (Some d) = Ok (Some o) /\
    emva fs' visit_t' visit_s' fname' (Some d') = Ok (Some o') /\
    (forall f r, In (figure_name f, r) out -> f <> F_QE \/ p == 1 -> g = 1%Z \/ has_signal o ->
      uses_dark_noise f = false \/ g = 1%Z \/ (is_sigma_d f = false /\ above_floor (inject_Z g) o (length (r_texp (o_t o)))) ->
      exists x, shown_exponents r = Some x /\
        times_value (inject_Z g) p (unit_factor (inject_Z g) p t 1 x) (value_of f o) (value_of f o')) /\
    (forall n v r, In (n, v) measured_variances -> In (n, r) out ->
      exists x, shown_exponents r = Some x /\ same_opt (times_q (unit_factor (inject_Z g) p t 1 x)) (v o) (v o')).
Proof.
  intros VT VS VT' VS' L L' CS CS' HG HT HP RE D.
  destruct (restated_figures fs fs' h w g c t p fname fname' d d' es es' visit_t visit_s visit_t' visit_s' VT VS VT' VS' L L' CS CS' HG HT HP RE)
    as (o & o' & E & E' & F). exists o, o'. split; [exact E|]. split; [exact E'|]. split.
  - intros f r I Q S N. destruct (shown_tbl _ _ _ _ D I) as (-> & J). apply follows_unit; auto. apply in_listed, J.
  - intros n v r I J. destruct (shown_tbl _ _ _ _ D J) as (-> & _). rewrite (measured_unit n v I). eexists. split; [reflexivity|].
    destruct (emva_chain fs h w visit_t visit_s fname d es VT VS L CS) as (o1 & rows & E1 & OK).
    destruct (emva_chain fs' h w visit_t' visit_s' fname' d' es' VT' VS' L' CS') as (o2 & rows' & E2 & OK').
    rewrite E in E1. injection E1 as <-. rewrite E' in E2. injection E2 as <-.
    pose proof (objects_rescaled fs fs' h w g c t p es es' HT HP RE CS CS' (lists_apart _ _ _ L) (lists_files _ _ _ L) _ _ _ _ OK OK') as RS.
    pose proof (measured_follow _ _ _ _ _ _ _ _ RS I) as M. revert M. apply same_opt_impl. intros x y. apply times_q_ext.
    unfold unit_factor. cbn [x_grey x_photon x_time x_area]. change (1 ^ 0) with 1. change (p ^ 0) with 1. change (t ^ 0) with 1.
    change (inject_Z g ^ 2) with (inject_Z g * inject_Z g). ring.
Qed.

(** The pixel area. *)
Lemma times_one g p v : g == 1 -> p == 1 -> times_value g p 1 v v.
Proof.
  intros G P. assert (TQ : forall x, times_q 1 x x) by (intro; unfold times_q; ring).
  assert (TX : forall x, times_x 1 x x) by (intro x; apply times_x_iff; rewrite xt_one; reflexivity).
  destruct v as [v|v|v|v|v|v|v]; simpl; auto.
  - destruct v; simpl; auto.
  - destruct v; simpl; auto.
  - destruct v as [[x|]|e]; simpl; auto.
  - destruct v as [[x|]|e]; simpl; auto.
  - destruct v as [l|e]; simpl; auto. split; [|split; [|split]].
    + destruct (lin_fit l) as [[u v]|]; simpl; auto. rewrite G, P. split; field.
    + induction (lin_dev l) as [|[x|] m IH]; constructor; simpl; auto. reflexivity.
    + destruct (lin_min l); simpl; auto. reflexivity.
    + destruct (lin_max l); simpl; auto. reflexivity.
Qed.
Lemma per_area_times k a v : 0 < k ->
  same_res (same_opt (times_x (k ^ (-1)))) (per_area (Some a) v) (per_area (Some (k * a)) v).
Proof.
  intro K. unfold per_area. destruct (Qeq_bool a 0) eqn:A.
  - apply Qeq_bool_iff in A. assert (E : Qeq_bool (k * a) 0 = true) by (apply Qeq_bool_iff; rewrite A; ring). rewrite E. simpl. auto.
  - assert (E : Qeq_bool (k * a) 0 = false).
    { apply Bool.not_true_is_false. intro E. apply Qeq_bool_iff in E. apply Qmult_integral in E. destruct E as [E|E].
      - rewrite E in K. discriminate K.
      - apply Qeq_bool_iff in E. congruence. }
    rewrite E. destruct v as [x|e]; simpl; auto. apply times_x_iff.
    rewrite (xt_q k a (k * a)) by reflexivity. rewrite <- (xt_one 1 x) at 1 by reflexivity.
    rewrite xt_div by (auto; reflexivity). apply xt_ext. change (k ^ (-1)) with (/ k). unfold Qdiv. ring.
Qed.
Lemma area_unit o k a attr out f r : 0 < k -> obj_to_dict results_cls attr = Ok out -> In (figure_name f, r) out ->
  exists x, shown_exponents r = Some x /\
    times_value 1 1 (unit_factor 1 1 1 k x) (value_of f (with_area (Some a) o)) (value_of f (with_area (Some (k * a)) o)).
Proof.
  intros K D I. destruct (shown_tbl _ _ _ _ D I) as (-> & J). pose proof (in_listed f J) as L. rewrite (figure_unit f L).
  eexists. split; [reflexivity|].
  apply times_value_ext with (k ^ per_pixel_area f).
  { unfold unit_factor. cbn [x_grey x_photon x_time x_area]. rewrite !qpow1. ring. }
  destruct f; cbn [per_pixel_area]; try (change (k ^ 0) with 1; apply times_one; reflexivity);
    cbn [value_of times_value]; unfold u_p_min_area, u_e_min_area, u_p_sat_area, u_e_sat_area; cbn [with_area o_area]; apply per_area_times; exact K.
Qed.
