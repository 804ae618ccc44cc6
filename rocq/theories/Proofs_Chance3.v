(** Proofs for C92, continued: the figures of Results1288. *)
From Coq Require Import List Bool Arith ZArith QArith Reals Qreals Lia Lqa Setoid Morphisms.
From Verif Require Import Base_Prelude Base_Num Base_Sum Base_Xreal Model_Images Model_Loader Model_Data Model_Results
  Spec_Images Spec_Data Spec_Results Spec_Chance Proofs_Data Proofs_Data2 Proofs_Results3 Proofs_Results4
  Proofs_Chance Proofs_Chance2.
Import ListNotations.
Open Scope Q_scope.

(** A decomposition holds of the expected values when it holds of every series. *)
Lemma expected_decomposition P M N T C R row col pix :
  (forall s, possible P s -> decomposition M N (T s) (C s) (R s) (row s) (col s) (pix s)) ->
  decomposition M N (expected P T) (expected P C) (expected P R) (expected P row) (expected P col) (expected P pix).
Proof.
  intros H. unfold decomposition. split; [|split].
  - rewrite (exp_ext P T (fun s => row s + (col s + pix s))).
    + rewrite (exp_plus P row (fun s => col s + pix s)), (exp_plus P col pix). ring.
    + intros s Hs. destruct (H s Hs) as (E & _). rewrite <- E. ring.
  - rewrite (exp_ext P C (fun s => col s + pix s / qn M)).
    + rewrite (exp_plus P col (fun s => pix s / qn M)), (exp_div P (qn M) pix). reflexivity.
    + intros s Hs. destruct (H s Hs) as (_ & E & _). exact E.
  - rewrite (exp_ext P R (fun s => row s + pix s / qn N)).
    + rewrite (exp_plus P row (fun s => pix s / qn N)), (exp_div P (qn N) pix). reflexivity.
    + intros s Hs. destruct (H s Hs) as (_ & _ & E). exact E.
Qed.

Lemma var_n_constant n d f : (0 < n)%nat -> (forall i, (i < n)%nat -> f i == d) -> var_n n f == 0.
Proof.
  intros Hn H. assert (N := qn_neq0 n Hn). unfold var_n, mean_n.
  rewrite (sumq_ext n _ (fun _ => 0)); [rewrite sumq_0; unfold Qdiv; ring|].
  intros i Hi. rewrite (H i Hi). rewrite (sumq_ext n f (fun _ => d) H), sumq_const. field. exact N.
Qed.

Section Figures.
Variables (P : law) (L h w : nat) (mu s2 : nat -> nat -> Q) (drift : nat -> Q).
Hypothesis NY : noisy P L h w mu s2 drift.
Hypothesis L2 : (2 <= L)%nat.
Hypothesis HW : (2 <= h * w)%nat.
Hypothesis DOC : forall s, possible P s -> documented h w s.
Variable O : list image -> robj.

Section Bright.
Hypothesis HS : forall s, possible P s -> spatial_data_of h w s (sp_bright (o_s (O s))).
Let S s := sp_bright (o_s (O s)).

Lemma bright_values s : possible P s ->
  exists vm av ca ra, sigma_2_y_stack (O s) = Some vm /\ s_2_y (O s) = Some (av - vm / qn L) /\
    s_2_y_cav (O s) = Some ca /\ s_2_y_rav (O s) = Some ra /\
    sd_avg_var (S s) = Some av /\ sd_M (S s) = h /\ sd_N (S s) = w.
Proof.
  intros Hs.
  destruct (measured P L h w mu s2 drift NY L2 HW DOC S HS s Hs)
    as (EL & EM & EN & _ & vm & av & ca & ra & E1 & E2 & E3 & E4 & _).
  exists vm, av, ca, ra. unfold sigma_2_y_stack, s_2_y, s_2_y_measured, s_2_y_cav, s_2_y_rav, sigma_2_y_stack, bright.
  unfold S in *. rewrite E1, E2, E3, E4, EL. repeat split; assumption.
Qed.

Lemma bright_expected :
  expected P (fun s => sd_avg_mean (sp_bright (o_s (O s)))) == pixel_mean h w mu + mean_n L drift /\
  expected P (fun s => number (sigma_2_y_stack (O s))) == pixel_mean h w s2 + var_n L drift /\
  expected P (fun s => number (s_2_y (O s))) == spatial_variance h w mu - var_n L drift / qn L /\
  expected P (fun s => number (s_2_y_cav (O s))) == pop_var w (col_mean h mu)
    - pixel_mean h w s2 / (qn L * qn (h * w)) - var_n L drift / (qn L * qn h) /\
  expected P (fun s => number (s_2_y_rav (O s))) == pop_var h (row_mean w mu)
    - pixel_mean h w s2 / (qn L * qn (h * w)) - var_n L drift / (qn L * qn w) /\
  (~ (h = 2%nat /\ w = 2%nat) ->
   decomposition h w
    (expected P (fun s => number (s_2_y (O s)))) (expected P (fun s => number (s_2_y_cav (O s))))
    (expected P (fun s => number (s_2_y_rav (O s)))) (expected P (fun s => number_r (s_2_y_row (O s))))
    (expected P (fun s => number_r (s_2_y_col (O s)))) (expected P (fun s => number_r (s_2_y_pixel (O s))))).
Proof.
  split; [exact (expected_mean P L h w mu s2 drift NY L2 HW DOC S HS)|].
  split; [exact (expected_noise P L h w mu s2 drift NY L2 HW DOC S HS)|].
  split.
  { rewrite <- (expected_total P L h w mu s2 drift NY L2 HW DOC S HS).
    apply exp_ext. intros s Hs. destruct (bright_values s Hs) as (vm & av & ca & ra & E1 & E2 & _ & _ & E3 & _).
    rewrite E2. unfold sigma_2_y_stack, bright in E1. fold (S s) in E1. rewrite E1, E3. reflexivity. }
  split; [exact (expected_cav P L h w mu s2 drift NY L2 HW DOC S HS)|].
  split; [exact (expected_rav P L h w mu s2 drift NY L2 HW DOC S HS)|].
  intros N22. apply expected_decomposition. intros s Hs.
  destruct (bright_values s Hs) as (vm & av & ca & ra & E1 & E2 & E3 & E4 & _ & EM & EN).
  assert (Hh : (0 < h)%nat) by (destruct h; lia). assert (Hw : (0 < w)%nat) by (destruct w; lia).
  unfold S in EM, EN. fold (bright (O s)) in EM, EN.
  destruct (decompose_bright (O s) _ _ _ E2 E3 E4 ltac:(rewrite EM; exact Hh) ltac:(rewrite EN; exact Hw)) as (_ & D).
  rewrite EM, EN in D.
  destruct (D N22) as (row & col & pix & R1 & R2 & R3 & Dec & _).
  rewrite E2, E3, E4, R1, R2, R3. exact Dec.
Qed.
End Bright.

Section Dark.
Hypothesis HS : forall s, possible P s -> spatial_data_of h w s (sp_dark (o_s (O s))).
Let S s := sp_dark (o_s (O s)).

Lemma dark_values s : possible P s ->
  exists vm av ca ra, sigma_2_y_stack_dark (O s) = Some vm /\ s_2_y_dark (O s) = Some (av - vm / qn L) /\
    s_2_y_cav_dark (O s) = Some ca /\ s_2_y_rav_dark (O s) = Some ra /\
    sd_avg_var (S s) = Some av /\ sd_M (S s) = h /\ sd_N (S s) = w.
Proof.
  intros Hs.
  destruct (measured P L h w mu s2 drift NY L2 HW DOC S HS s Hs)
    as (EL & EM & EN & _ & vm & av & ca & ra & E1 & E2 & E3 & E4 & _).
  exists vm, av, ca, ra.
  unfold sigma_2_y_stack_dark, s_2_y_dark, s_2_y_measured_dark, s_2_y_cav_dark, s_2_y_rav_dark, sigma_2_y_stack_dark, dark.
  unfold S in *. rewrite E1, E2, E3, E4, EL. repeat split; assumption.
Qed.

Lemma dark_expected :
  expected P (fun s => sd_avg_mean (sp_dark (o_s (O s)))) == pixel_mean h w mu + mean_n L drift /\
  expected P (fun s => number (sigma_2_y_stack_dark (O s))) == pixel_mean h w s2 + var_n L drift /\
  expected P (fun s => number (s_2_y_dark (O s))) == spatial_variance h w mu - var_n L drift / qn L /\
  expected P (fun s => number (s_2_y_cav_dark (O s))) == pop_var w (col_mean h mu)
    - pixel_mean h w s2 / (qn L * qn (h * w)) - var_n L drift / (qn L * qn h) /\
  expected P (fun s => number (s_2_y_rav_dark (O s))) == pop_var h (row_mean w mu)
    - pixel_mean h w s2 / (qn L * qn (h * w)) - var_n L drift / (qn L * qn w) /\
  (~ (h = 2%nat /\ w = 2%nat) ->
   decomposition h w
    (expected P (fun s => number (s_2_y_dark (O s)))) (expected P (fun s => number (s_2_y_cav_dark (O s))))
    (expected P (fun s => number (s_2_y_rav_dark (O s)))) (expected P (fun s => number_r (s_2_y_row_dark (O s))))
    (expected P (fun s => number_r (s_2_y_col_dark (O s)))) (expected P (fun s => number_r (s_2_y_pixel_dark (O s))))).
Proof.
  split; [exact (expected_mean P L h w mu s2 drift NY L2 HW DOC S HS)|].
  split; [exact (expected_noise P L h w mu s2 drift NY L2 HW DOC S HS)|].
  split.
  { rewrite <- (expected_total P L h w mu s2 drift NY L2 HW DOC S HS).
    apply exp_ext. intros s Hs. destruct (dark_values s Hs) as (vm & av & ca & ra & E1 & E2 & _ & _ & E3 & _).
    rewrite E2. unfold sigma_2_y_stack_dark, dark in E1. fold (S s) in E1. rewrite E1, E3. reflexivity. }
  split; [exact (expected_cav P L h w mu s2 drift NY L2 HW DOC S HS)|].
  split; [exact (expected_rav P L h w mu s2 drift NY L2 HW DOC S HS)|].
  intros N22. apply expected_decomposition. intros s Hs.
  destruct (dark_values s Hs) as (vm & av & ca & ra & E1 & E2 & E3 & E4 & _ & EM & EN).
  assert (Hh : (0 < h)%nat) by (destruct h; lia). assert (Hw : (0 < w)%nat) by (destruct w; lia).
  unfold S in EM, EN. fold (dark (O s)) in EM, EN.
  destruct (decompose_dark (O s) _ _ _ E2 E3 E4 ltac:(rewrite EM; exact Hh) ltac:(rewrite EN; exact Hw)) as (_ & D).
  rewrite EM, EN in D.
  destruct (D N22) as (row & col & pix & R1 & R2 & R3 & Dec & _).
  rewrite E2, E3, E4, R1, R2, R3. exact Dec.
Qed.
End Dark.

Lemma steady_expected d : (forall l, (l < L)%nat -> drift l == d) ->
  (forall s, possible P s -> spatial_data_of h w s (sp_bright (o_s (O s)))) ->
  expected P (fun s => number (sigma_2_y_stack (O s))) == pixel_mean h w s2 /\
  expected P (fun s => number (s_2_y (O s))) == spatial_variance h w mu.
Proof.
  intros D HS. assert (V := var_n_constant L d drift ltac:(lia) D).
  destruct (bright_expected HS) as (_ & E1 & E2 & _). rewrite E1, E2, V.
  split; [ring|unfold Qdiv; ring].
Qed.
Lemma steady_expected_dark d : (forall l, (l < L)%nat -> drift l == d) ->
  (forall s, possible P s -> spatial_data_of h w s (sp_dark (o_s (O s)))) ->
  expected P (fun s => number (sigma_2_y_stack_dark (O s))) == pixel_mean h w s2 /\
  expected P (fun s => number (s_2_y_dark (O s))) == spatial_variance h w mu.
Proof.
  intros D HS. assert (V := var_n_constant L d drift ltac:(lia) D).
  destruct (dark_expected HS) as (_ & E1 & E2 & _). rewrite E1, E2, V.
  split; [ring|unfold Qdiv; ring].
Qed.
End Figures.

(** ** The drift *)
Lemma negative_dsnu o v : s_2_y_dark o = Some v -> v < 0 -> DSNU1288_DN o = Ok XNan.
Proof.
  intros E H. unfold DSNU1288_DN. rewrite E. cbn [xoq xq xlt0].
  apply Qlt_Rlt in H. rewrite RMicromega.Q2R_0 in H.
  destruct (Rlt_dec (Q2R v) 0) as [L|L]; [reflexivity|contradiction].
Qed.

Definition drift_images : list image := [mkImg 1 2 (fun _ _ => 10%Z); mkImg 1 2 (fun _ _ => 12%Z)].
Definition no_data : sdata := mkS (mkImg 0 0 (fun _ _ => 0%Z)) 0 0 0 None None 0 None None.
Definition data_of (s : list image) : sdata :=
  match get_int_imgs s with
  | Ok r => match get_spatial_data 1 2 r with Ok d => d | Err _ => no_data end
  | Err _ => no_data
  end.
Definition has_data (s : list image) : bool :=
  match get_int_imgs s with
  | Ok r => match get_spatial_data 1 2 r with Ok _ => true | Err _ => false end
  | Err _ => false
  end.
Lemma data_of_spec s : has_data s = true -> spatial_data_of 1 2 s (data_of s).
Proof.
  unfold has_data, data_of, spatial_data_of. destruct (get_int_imgs s) as [r|e]; [|discriminate].
  destruct (get_spatial_data 1 2 r) as [d|e] eqn:D; [|discriminate]. intros _. exists r. split; [reflexivity|exact D].
Qed.
Lemma drift_spoils :
  exists s d o, documented 1 2 s /\ (2 <= length s)%nat /\
    (forall a r c r' c', In a s -> (r < 1)%nat -> (c < 2)%nat -> (r' < 1)%nat -> (c' < 2)%nat ->
       px a r c = px a r' c') /\
    spatial_data_of 1 2 s d /\ sp_dark (o_s o) = d /\
    exists v, s_2_y_dark o = Some v /\ v < 0 /\ DSNU1288_DN o = Ok XNan.
Proof.
  exists drift_images, (data_of drift_images), (mkObj (mkRT [] [] [] [] [] [])
    (mkSpatial (FFin 1) (FFin 10) (data_of drift_images) (data_of drift_images)) None None).
  split; [|split; [|split; [|split; [|split]]]].
  - split; [discriminate|]. split; [simpl; lia|]. split.
    + repeat (apply Forall_cons || apply Forall_nil); split; reflexivity.
    + repeat (apply Forall_cons || apply Forall_nil); intros r c Hr Hc; simpl; lia.
  - simpl; lia.
  - intros a r c r' c' [<-|[<-|[]]] _ _ _ _; reflexivity.
  - apply data_of_spec. vm_compute. reflexivity.
  - reflexivity.
  - match goal with |- exists v, s_2_y_dark ?x = Some v /\ _ => set (o := x) end.
    assert (N : match s_2_y_dark o with Some v => v < 0 | None => False end) by (vm_compute; reflexivity).
    clearbody o. destruct (s_2_y_dark o) as [v|] eqn:E; [|contradiction].
    exists v. split; [reflexivity|]. split; [exact N|]. exact (negative_dsnu o v E N).
Qed.
