(** The computed spatial figures against the textbook ones, whole data sets, and a uniform
    sensor. *)
From Coq Require Import List Bool Arith ZArith QArith Qabs Lia Permutation.
From Verif Require Import Base_Prelude Base_Num Base_Order Base_Sum Base_Float
  Model_Images Model_Loader Model_Data Model_Rounded Model_RoundedSpatial Spec_Images Spec_Data
  Spec_Rounded Spec_RoundedSpatial Proofs_Data2 Proofs_Rounded4 Proofs_Rounded5 Proofs_RSpatial3.
Import ListNotations.
Open Scope Q_scope.

Lemma figures_computed b h w d imgs o : stack_bits b h w imgs -> sound_orders d h w o ->
  exists r f, get_int_imgs imgs = Ok r /\ get_spatial_data_f o h w r = Ok f /\
    within (mean_bound b d) (stack_mean h w imgs) (fs_avg_mean f) /\
    within (spatial_bound b d) (temporal_noise h w imgs) (fs_var_mean f) /\
    within (spatial_bound b d) (spatial_noise h w imgs) (fs_avg_var f) /\
    within (spatial_bound b d) (column_noise h w imgs) (fs_avg_var_cav f) /\
    within (spatial_bound b d) (row_noise h w imgs) (fs_avg_var_rav f).
Proof.
  intros S O. destruct (spatial_computed b h w d imgs o S O) as (r & s & f & E & Es & Ef & C).
  destruct S as (S1 & S2 & S3 & S4 & S5 & S6).
  destruct (spatial_statistics h w imgs) as (r' & s' & E' & Es' & _ & _ & _ & Q & T); try lia.
  { eapply stack_documented; repeat split; eauto; tauto. }
  rewrite E in E'. injection E' as <-. rewrite Es in Es'. injection Es' as <-.
  destruct C as (_ & _ & _ & _ & C1 & vm & v & cav & rav & Q1 & Q2 & Q3 & Q4 & C2 & C3 & C4 & C5).
  destruct T as (vm' & v' & cav' & rav' & T1 & T2 & T3 & T4 & V1 & V2 & V3 & V4).
  rewrite Q1 in T1. rewrite Q2 in T2. rewrite Q3 in T3. rewrite Q4 in T4.
  injection T1 as <-. injection T2 as <-. injection T3 as <-. injection T4 as <-.
  exists r, f. split; [exact E|]. split; [exact Ef|].
  split; [eapply within_eq; [exact Q|exact C1]|].
  split; [eapply within_eq; [exact V1|exact C2]|].
  split; [eapply within_eq; [exact V2|exact C3]|].
  split; (eapply within_eq; [|eassumption]); unfold column_noise, row_noise, temporal_noise.
  - rewrite V3, V1. reflexivity.
  - rewrite V4, V1. reflexivity.
Qed.

Lemma dget_table2 {A B} (P : A -> B -> Prop) k d e : table2 P d e ->
  match dget feq k d, dget feq k e with
  | Some a, Some c => P a c | None, None => True | _, _ => False end.
Proof.
  induction 1 as [|[k1 a] [k2 c] d e (K & H) T IH]; [simpl; auto|]. cbn [fst snd] in *. subst k2.
  cbn [dget]. destruct (feq _ _); auto.
Qed.
Lemma dget_in {A} k (d : dict pyfloat A) a : dget feq k d = Some a -> exists k', In (k', a) d.
Proof.
  induction d as [|[k1 x] d IH]; [discriminate|]. cbn [dget]. destruct (feq _ _).
  - injection 1 as <-. exists k1. left. auto.
  - intro H. destruct (IH H) as (k' & I). exists k'. right. auto.
Qed.

Lemma get_series (b : Z) h w (imgs : dict pyfloat (list image)) data k r :
  Forall (fun x => stack_bits b h w (snd x)) imgs -> table2 series_entry imgs data ->
  dget feq k data = Some r -> exists l, stack_bits b h w l /\ get_int_imgs l = Ok r.
Proof.
  intros F T G. pose proof (dget_table2 series_entry k imgs data T) as Q. rewrite G in Q.
  destruct (dget feq k imgs) as [l|] eqn:E; [|tauto]. destruct (dget_in _ _ _ E) as (k' & I).
  rewrite Forall_forall in F. specialize (F _ I). exists l. split; auto.
Qed.

Lemma table2_keys {A B} (P : A -> B -> Prop) d e : table2 P d e -> dkeys d = dkeys e.
Proof. induction 1 as [|x y d e (K & _) T IH]; simpl; congruence. Qed.

Lemma whole_spatial b h w n od ob imgs data : sound_orders n h w od -> sound_orders n h w ob ->
  every (stack_bits b h w) imgs -> table2 (table2 series_entry) imgs data ->
  out2 (fun s f => fsp_texp f = sp_texp s /\ fsp_up f = sp_up s /\
                   computed b n (sp_dark s) (fsp_dark f) /\ computed b n (sp_bright s) (fsp_bright f))
       (get_spatial h w data) (get_spatial_f od ob h w data).
Proof.
  intros Od Ob F T.
  destruct T as [|[t di] [t' dd] imgs data (K & T) TT]; [left; exists ValueError; auto|].
  cbn [fst snd] in *. subst t'. destruct TT as [|x y imgs data _ TT]; [|left; exists ValueError; auto].
  apply Forall_inv in F. cbn [snd] in F. unfold get_spatial, get_spatial_f. cbv zeta.
  destruct (negb (existsb _ _)); [left; eexists; auto|].
  destruct (negb (_ =? _)%nat); [left; eexists; auto|].
  destruct (dget feq fzero dd) as [r|] eqn:E0; cbn [of_option bind]; [|left; eexists; auto].
  destruct (get_series b h w di dd fzero r F T E0) as (l & Sl & El).
  destruct (spatial_computed b h w n l od Sl Od) as (r1 & s & f & E1 & Es & Ef & C).
  rewrite El in E1. injection E1 as <-. rewrite Es, Ef. cbn [bind].
  destruct (nth_error _ 1) as [p|]; cbn [of_option bind]; [|left; eexists; auto].
  destruct (dget feq p dd) as [r'|] eqn:Ep; cbn [of_option bind]; [|left; eexists; auto].
  destruct (get_series b h w di dd p r' F T Ep) as (l' & Sl' & El').
  destruct (spatial_computed b h w n l' ob Sl' Ob) as (r2 & s' & f' & E2 & Es' & Ef' & C').
  rewrite El' in E2. injection E2 as <-. rewrite Es', Ef'. cbn [bind].
  right. eexists. eexists. split; [reflexivity|]. split; [reflexivity|]. auto.
Qed.

(** Adding from left to right. *)
Definition plain_orders (h w : nat) : sum_orders := {|
  so_mean := from_left (h * w - 1); so_col := fun _ => from_left (h - 1); so_row := fun _ => from_left (w - 1);
  so_var_mean := from_left (h * w - 1); so_var_inner := from_left (h * w - 1); so_var := from_left (h * w - 1);
  so_cav := from_left (w - 1); so_rav := from_left (h - 1) |}.

Lemma from_left_chain n : chain (from_left n) = n.
Proof. induction n; [reflexivity|]. cbn [from_left chain]. rewrite IHn. lia. Qed.
Lemma from_left_order d n : (0 < n)%nat -> (n <= d)%nat -> order_of d n (from_left (n - 1)).
Proof.
  intros H L. split; [|rewrite from_left_chain; lia]. unfold adds_all. rewrite from_left_leaves.
  replace (S (n - 1)) with n by lia. reflexivity.
Qed.
Lemma plain_sound h w : (0 < h)%nat -> (0 < w)%nat -> (Z.of_nat (h * w) <= 2 ^ 29)%Z ->
  sound_orders (h * w) h w (plain_orders h w).
Proof.
  intros Hh Hw H. constructor; cbn [plain_orders so_mean so_col so_row so_var_mean so_var_inner so_var so_cav so_rav];
    intros; try (apply from_left_order; nia).
  eapply Z.le_trans; [exact H|]. apply Z.pow_le_mono_r; lia.
Qed.

(** Five images of three pixels, in each of them all pixels alike. *)
Definition flat_image (v : Z) : image := mkImg 1 3 (fun _ _ => v).
Definition uniform5 : list image := [flat_image 1; flat_image 0; flat_image 0; flat_image 0; flat_image 0].
Lemma uniform5_stack : stack_bits 8 1 3 uniform5.
Proof.
  split; [simpl; lia|]. split; [repeat constructor|].
  split; [repeat (apply Forall_cons || apply Forall_nil); intros r c _ _; simpl; lia|].
  split; [lia|]. split; [lia|]. simpl. lia.
Qed.
Lemma uniform_noise : exists imgs o r f v,
  stack_bits 8 1 3 imgs /\ sound_orders 3 1 3 o /\ (forall im x y, In im imgs -> px im 0 x = px im 0 y) /\
  spatial_noise 1 3 imgs == 0 /\ get_int_imgs imgs = Ok r /\ get_spatial_data_f o 1 3 r = Ok f /\
  fs_avg_var f = FFin v /\ 0 < v.
Proof.
  exists uniform5, (plain_orders 1 3). do 3 eexists. split; [apply uniform5_stack|].
  split; [apply (plain_sound 1 3); simpl; lia|].
  split; [intros im x y I; simpl in I; decompose [or] I; subst; try reflexivity; tauto|].
  split; [vm_compute; reflexivity|]. split; [vm_compute; reflexivity|].
  split; [vm_compute; reflexivity|]. split; [reflexivity|]. reflexivity.
Qed.
