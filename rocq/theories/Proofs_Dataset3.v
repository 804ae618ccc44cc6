(** The saved images, and concrete data sets. *)
From Coq Require Import Ascii String List Bool Arith ZArith QArith Qabs Lia Lqa Permutation.
From Verif Require Import Base_Prelude Base_Str Base_Num Base_Order Base_Float Model_Path Model_Parser
  Model_Camera Model_Points Model_Dataset Model_Search
  Spec_Num Spec_Parser Spec_Dataset Spec_Points Spec_Camera Proofs_Num Proofs_Float Proofs_Camera Proofs_Camera2
  Proofs_Dataset Proofs_Dataset2.
Import ListNotations.
Open Scope nat_scope.

(** ** Saved pixels *)

Section Saved.
Context (c : camera) (ds : nat -> draws) (format outdir : str).

Definition from_camera (ts : list pyfloat) (e : event) : Prop :=
  match e with
  | EWrite _ => True
  | ESave path img => exists n t px, In t ts /\ grab (set_exposure c t) (ds n) = Ok px /\
      path = save_path outdir (image_name n format) /\ img = stored (c_bits c) px
  end.

Lemma forall_then {A B} (P : event -> Prop) (m : outcome A) (f : A -> outcome B) :
  Forall P (fst m) -> (forall a, snd m = Ok a -> Forall P (fst (f a))) -> Forall P (fst (then_ m f)).
Proof.
  destruct m as (es, [a|e]); simpl; intros H1 H2; auto.
  specialize (H2 a eq_refl). destruct (f a) as (es', r). simpl in *. apply Forall_app. auto.
Qed.

Lemma forall_each {A} (P : event -> Prop) (body : A -> nat -> outcome nat) l : forall n,
  (forall a m, In a l -> Forall P (fst (body a m))) -> Forall P (fst (for_each body l n)).
Proof.
  induction l as [|a l IH]; intros n H; simpl; [constructor|].
  apply forall_then; [apply H; left; auto|]. intros k _. apply IH. intros b m Hb. apply H. right. auto.
Qed.

Lemma all_from_camera li version L p :
  Forall (from_camera (map s_exposure (shots p))) (fst (run_test li c ds version format outdir L p)).
Proof.
  unfold run_test. apply forall_then; [repeat constructor|]. intros _ _.
  apply forall_then; [repeat constructor|]. intros _ _.
  apply forall_then; [|intros; constructor].
  apply forall_each. intros k m Hk. unfold one_kind. apply forall_each. intros (t, rs) m' Ht.
  unfold one_exposure. apply forall_each. intros r m'' Hr. unfold one_radiance.
  apply forall_then; [repeat constructor|]. intros _ _. apply forall_each. intros i m3 _.
  unfold one_image. destruct (grab (set_exposure c t) (ds m3)) as [px|] eqn:G; [|constructor].
  apply forall_then; [repeat constructor|]. intros _ _. apply forall_then; [|intros; constructor].
  constructor; [|constructor]. exists m3, t, px. split; [|auto].
  apply in_map_iff. exists (mkShot k t r). split; auto. unfold shots. apply in_or_app.
  destruct k; [left|right]; apply in_flat_map; exists (t, rs); (split; [exact Ht|]); simpl;
    apply in_map; exact Hr.
Qed.

Lemma ok_then {A B} (m : outcome A) (f : A -> outcome B) :
  (exists a, snd m = Ok a) -> (forall a, exists b, snd (f a) = Ok b) -> exists b, snd (then_ m f) = Ok b.
Proof.
  destruct m as (es, r). simpl. intros (a & ->) H. destruct (H a) as (b & Hb).
  destruct (f a) as (es', r'). simpl in *. subst. eauto.
Qed.

Lemma ok_each {A} (body : A -> nat -> outcome nat) l : forall n,
  (forall a m, In a l -> exists k, snd (body a m) = Ok k) -> exists k, snd (for_each body l n) = Ok k.
Proof.
  induction l as [|a l IH]; intros n H; simpl; [eauto|].
  apply ok_then; [apply H; left; auto|]. intro k. apply IH. intros b m Hb. apply H. right. auto.
Qed.

Lemma good_exposure t : good_camera c -> good_camera (set_exposure c t).
Proof. auto. Qed.

Lemma run_completes li version L p : good_camera c -> (forall n, good_draws c (ds n)) ->
  exists file, snd (run_test li c ds version format outdir L p) = Ok file.
Proof.
  intros G D. unfold run_test. apply ok_then; [eexists; reflexivity|]. intros _.
  apply ok_then; [eexists; reflexivity|]. intros _. apply ok_then; [|intros; eexists; reflexivity].
  apply ok_each. intros k m _. unfold one_kind. apply ok_each. intros (t, rs) m' _.
  unfold one_exposure. apply ok_each. intros r m'' _. unfold one_radiance.
  apply ok_then; [eexists; reflexivity|]. intros _. apply ok_each. intros i m3 _.
  unfold one_image. destruct (grab_pixels (set_exposure c t) (ds m3)) as (img & E & _); auto.
  { apply D. }
  rewrite E. apply ok_then; [eexists; reflexivity|]. intros _.
  apply ok_then; [eexists; reflexivity|]. intros _. eexists. reflexivity.
Qed.

Lemma stored_same bits img : bits <= 32 ->
  Forall (fun p => exists z, p = Some z /\ (0 <= z <= 2 ^ Z.of_nat bits - 1)%Z) img ->
  stored bits img = img.
Proof.
  intros B H. unfold stored. induction H as [|x img (z & -> & Hz) _ IH]; auto.
  cbn [map option_map]. rewrite IH. f_equal. f_equal. apply Z.mod_small. split; [lia|].
  destruct (Nat.leb_spec bits 8).
  - assert (2 ^ Z.of_nat bits <= 2 ^ 8)%Z by (apply Z.pow_le_mono_r; lia). lia.
  - assert (2 ^ Z.of_nat bits <= 2 ^ 32)%Z by (apply Z.pow_le_mono_r; lia). lia.
Qed.

Lemma saved_pixels li version L p es r path img :
  good_camera c -> (forall n, good_draws c (ds n)) -> c_bits c <= 32 ->
  run_test li c ds version format outdir L p = (es, r) -> In (ESave path img) es ->
  exists n s, In s (shots p) /\ path = save_path outdir (image_name n format) /\
    grab (set_exposure c (s_exposure s)) (ds n) = Ok img.
Proof.
  intros G D B E I. pose proof (all_from_camera li version L p) as F. rewrite E in F. cbn [fst] in F.
  rewrite Forall_forall in F. destruct (F _ I) as (n & t & px & T & Gr & Pa & ->).
  apply in_map_iff in T. destruct T as (s & <- & Hs). exists n, s. split; auto. split; auto.
  destruct (grab_range (set_exposure c (s_exposure s)) (ds n)) as (img & E2 & _ & R); auto.
  { simpl. lia. }
  { apply D. }
  rewrite Gr in E2. injection E2 as <-. rewrite stored_same; auto.
  eapply Forall_impl; [|exact R]. intros x (z & -> & Hz & _). eauto.
Qed.
End Saved.

Lemma deep_saved : exists c ds li p es file path img px,
  good_camera c /\ (forall n, good_draws c (ds n)) /\ c_bits c = 33 /\
  run_test li c ds (lit "4.0") (lit "png") (lit "o") 3 p = (es, Ok file) /\
  In (ESave path img) es /\ img = [Some (2 ^ 32 - 1)%Z] /\
  px = [Some (2 ^ 33 - 1)%Z] /\ (forall t n, grab (set_exposure c t) (ds n) = Ok px).
Proof.
  destruct (deep_good 33) as (G & D).
  exists (deep_cam 33), (fun _ => quiet), (mkLight (fun _ => fi 1) (fun _ _ => fi 7)),
    (mkPoints [] [(fi 1000, [[fi 1]])]).
  do 5 eexists. split; [exact G|]. split; [intros _; exact D|]. split; [reflexivity|].
  split; [|split; [|split; [|split]]].
  - vm_compute. reflexivity.
  - right; right; right; right; left. reflexivity.
  - reflexivity.
  - reflexivity.
  - intros t n. vm_compute. reflexivity.
Qed.

(** ** Concrete operation points *)

(** A camera of one pixel and two wavelengths between 500 and 10500 ns. *)
Definition demo_env : cam_env :=
  mkEnv (fi 500) (fi 10500) 2 (fun _ m => Ok (match m with Some _ => [fi 1; fi 3] | None => [fi 8; fi 12] end))
    (fun _ => Ok (fi 4)) (fun r => match r with [FFin a; FFin b] => FFin ((a + b) / 2)%Q | _ => FNan end).
Definition demo_light : light :=
  mkLight (e_mean demo_env) (fun t r => fmul t (fmul (FFin (1 # 3)) (e_mean demo_env r))).
Definition demo_args (fixed : option pyfloat) (steps : nat) : points_args :=
  mkArgs None None fixed None None None None steps.

Definition demo_points : points :=
  mkPoints [(fi 5500, [[fi 8; fi 12]; [fi 0; fi 0]])]
    [(fi 500, [[fi 8; fi 12]; [fi 0; fi 0]]); (fi 5500, [[fi 8; fi 12]; [fi 0; fi 0]]);
     (fi 10500, [[fi 8; fi 12]; [fi 0; fi 0]])].

Lemma demo_exposures : snd (make_points demo_env demo_cam (demo_args None 3)) = Ok demo_points.
Proof. vm_compute. reflexivity. Qed.

Lemma demo_lights : exists p, snd (make_points demo_env demo_cam (demo_args (Some (FFin (2001 # 2))) 3)) = Ok p /\
  map fst (p_temporal p) = [fi 1000] /\
  map snd (p_temporal p) = [[[fi 2; fi 2]; [fi 6; fi 6]; [fi 10; fi 10]; [fi 0; fi 0]]] /\
  p_spatial p = [(fi 1000, [[fi 6; fi 6]; [fi 0; fi 0]])].
Proof. vm_compute. eexists. repeat split. Qed.

(** Equal limits, or limits too near, give fewer points than requested. *)
Lemma few_points : exists env c a c' p, make_points env c a = (c', Ok p) /\
  a_exposure_fixed a = None /\ a_steps a = 3 /\ length (p_temporal p) = 1.
Proof.
  exists demo_env, demo_cam, (mkArgs (Some (fi 700)) (Some (fi 700)) None None None None None 3).
  do 2 eexists. split; [|split; [|split]]; vm_compute; reflexivity.
Qed.

(** The requested radiances are not the ones used. *)
Lemma radiances_wrong : exists env c a c' p rmin rmax,
  make_points env c a = (c', Ok p) /\ a_exposure_fixed a = Some (fi 1000) /\
  a_radiance_min a = Some rmin /\ a_radiance_max a = Some rmax /\
  Forall (fun kv => ~ In rmin (snd kv) /\ ~ In rmax (snd kv)) (p_temporal p ++ p_spatial p).
Proof.
  exists demo_env, demo_cam,
    (mkArgs None None (Some (fi 1000)) (Some [fi 5; fi 5]) (Some [fi 7; fi 7]) None None 3).
  do 2 eexists. exists [fi 5; fi 5], [fi 7; fi 7].
  split; [vm_compute; reflexivity|]. repeat (split; [reflexivity|]).
  repeat constructor; simpl; intro H; repeat destruct H as [H|H]; try discriminate; auto.
Qed.

Lemma demo_limits : limit (a_exposure_min (demo_args None 3)) (e_min demo_env) (fi 500) /\
  limit (a_exposure_max (demo_args None 3)) (e_max demo_env) (fi 10500) /\
  apart (inject_Z 500) (inject_Z 10500) 3.
Proof.
  split; [right; auto|]. split; [right; auto|]. split; [lia|]. repeat split; vm_compute; discriminate.
Qed.

(** ** A concrete data set *)

Definition demo_run (L : nat) : outcome str :=
  run_test demo_light demo_cam (fun _ => demo_draws) (lit "4.0") (lit "png") (lit "/o") L demo_points.

Lemma demo_text : exists es, demo_run 3 = (es, Ok (lit "/o/EMVA1288descriptor.txt")) /\
  length (saved es) = 18 /\
  firstn 3 (load_lines (written es)) = [lit "v 4.0"; lit "n 8 2 1"; lit "b 500.0 1666.667"].
Proof. eexists. split; [vm_compute; reflexivity|]. split; vm_compute; reflexivity. Qed.

Lemma demo_different : ForallOrdPairs (fun s s' => ~ listed_alike demo_light s s') (shots demo_points).
Proof.
  cbv [shots shots_of demo_points p_temporal p_spatial flat_map map app fst snd].
  repeat (apply FOP_cons || apply FOP_nil || apply Forall_cons || apply Forall_nil);
    intros (H1 & H2 & H3);
    first [discriminate H1 | vm_compute in H2; discriminate H2 | vm_compute in H3; discriminate H3].
Qed.

(** A bright image with fewer than 0.0005 photons prints none and is taken for
    the dark one. *)
Definition dim_light : light := mkLight (e_mean demo_env) (fun _ _ => FFin (1 # 5000)).

Lemma dim_rejected : exists es file,
  run_test dim_light demo_cam (fun _ => demo_draws) (lit "4.0") (lit "png") (lit "/o") 3 demo_points
    = (es, Ok file) /\
  parse_file file None (Some (written es)) = Err SyntaxError.
Proof. do 2 eexists. split; [vm_compute; reflexivity|]. vm_compute. reflexivity. Qed.
