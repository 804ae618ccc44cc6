(** Bad pixels; cases and counterexamples of the searches. *)
From Coq Require Import List Bool Arith ZArith QArith Qabs Lia Lqa.
From Verif Require Import Base_Prelude Base_Num Base_Order Base_Float Base_Sum Spec_Num Model_Images
  Model_Camera Model_Search Spec_Camera Spec_Search Proofs_Float Proofs_Camera Proofs_Camera2 Proofs_Search.
Import ListNotations.
Open Scope nat_scope.

(** ** Bad pixels *)

Lemma set_nth_length {A} n (x : A) l : length (set_nth n x l) = length l.
Proof.
  unfold set_nth. destruct (n <? length l) eqn:E; auto. apply Nat.ltb_lt in E.
  rewrite app_length, firstn_length. cbn [length]. rewrite skipn_length. lia.
Qed.

Lemma set_nth_nth {A} n (x : A) l j : n < length l ->
  nth_error (set_nth n x l) j = if j =? n then Some x else nth_error l j.
Proof.
  intro L. unfold set_nth. pose proof L as L'. apply Nat.ltb_lt in L'. rewrite L'.
  assert (Lf : length (firstn n l) = n) by (rewrite firstn_length; lia).
  destruct (j =? n) eqn:E.
  - apply Nat.eqb_eq in E. subst j. rewrite nth_error_app2 by lia. rewrite Lf, Nat.sub_diag. reflexivity.
  - apply Nat.eqb_neq in E. rewrite <- (firstn_skipn n l) at 3.
    destruct (Nat.lt_ge_cases j n).
    + rewrite !nth_error_app1 by lia. reflexivity.
    + rewrite !nth_error_app2 by lia. rewrite Lf.
      destruct (skipn n l) as [|y s] eqn:Sk.
      * assert (length (skipn n l) = 0) by (rewrite Sk; reflexivity). rewrite skipn_length in H0. lia.
      * assert (S' : skipn (S n) l = s).
        { assert (G : forall k (m : list A), skipn (S k) m = tl (skipn k m)).
          { induction k as [|k IHk]; intros [|z m]; auto. change (skipn (S (S k)) (z :: m)) with (skipn (S k) m).
            rewrite IHk. reflexivity. }
          rewrite G, Sk. reflexivity. }
        rewrite S'. destruct (j - n) as [|k] eqn:K; [lia|]. reflexivity.
Qed.

Lemma mark_spec w bad : w <> 0 -> forall ps dsnu, Forall (fun i => i < length dsnu) ps ->
  exists d, mark w bad ps dsnu = Ok d /\ length d = length dsnu /\
  forall j, nth_error d j = if in_dec Nat.eq_dec j ps then Some bad else nth_error dsnu j.
Proof.
  intro W. induction ps as [|i ps IH]; intros dsnu F.
  - exists dsnu. auto.
  - inversion F as [|x l Hi Fp]; subst. cbn [mark].
    replace (i / w * w + i mod w) with i by (rewrite (Nat.mul_comm _ w); apply Nat.div_mod; auto).
    pose proof Hi as Hi'. apply Nat.ltb_lt in Hi'. rewrite Hi'.
    destruct (IH (set_nth i bad dsnu)) as (d & E & L & N).
    { rewrite set_nth_length. exact Fp. }
    exists d. split; auto. rewrite set_nth_length in L. split; auto.
    intro j. rewrite N. rewrite set_nth_nth by auto.
    destruct (in_dec Nat.eq_dec j ps) as [I|I]; destruct (in_dec Nat.eq_dec j (i :: ps)) as [I2|I2]; auto.
    + exfalso. apply I2. right. exact I.
    + destruct I2 as [->|I2]; [|contradiction]. rewrite Nat.eqb_refl. reflexivity.
    + destruct (j =? i) eqn:Ej; auto. apply Nat.eqb_eq in Ej. subst. exfalso. apply I2. left. reflexivity.
Qed.

(** How many positions of the image are in the list. *)
Definition hits (n : nat) (ps : list nat) : nat :=
  length (filter (fun j => if in_dec Nat.eq_dec j ps then true else false) (seq 0 n)).

Lemma hits_nodup n ps : Forall (fun i => i < n) ps -> hits n ps = length (nodup Nat.eq_dec ps).
Proof.
  intro F. unfold hits. apply Nat.le_antisymm.
  - apply NoDup_incl_length; [apply NoDup_filter, seq_NoDup|].
    intros j I. apply filter_In in I. destruct I as (_ & I).
    destruct (in_dec Nat.eq_dec j ps) as [I2|]; [|discriminate]. apply nodup_In, I2.
  - apply NoDup_incl_length; [apply NoDup_nodup|].
    intros j I. apply nodup_In in I. apply filter_In. split.
    + apply in_seq. rewrite Forall_forall in F. specialize (F j I). lia.
    + destruct (in_dec Nat.eq_dec j ps); [reflexivity|contradiction].
Qed.

Lemma nodup_short (ps : list nat) : length (nodup Nat.eq_dec ps) <= length ps.
Proof. apply NoDup_incl_length; [apply NoDup_nodup|]. intros j I. apply nodup_In in I. exact I. Qed.

Lemma bad_pixel_marks c ps v : c_width c <> 0 -> length (c_dsnu c) = c_height c * c_width c ->
  Forall (fun i => i < c_height c * c_width c) ps ->
  exists c', bad_pixel c (Ok ps) v = Ok c' /\
    c' = set_dsnu c (c_dsnu c') /\ length (c_dsnu c') = length (c_dsnu c) /\
    (forall j, In j ps -> nth_error (c_dsnu c') j = Some (fmul v (c_u_esat c))) /\
    (forall j, ~ In j ps -> nth_error (c_dsnu c') j = nth_error (c_dsnu c) j) /\
    hits (c_height c * c_width c) ps <= length ps /\
    (NoDup ps -> hits (c_height c * c_width c) ps = length ps).
Proof.
  intros W L F. unfold bad_pixel. cbn [bind].
  destruct (mark_spec (c_width c) (fmul v (c_u_esat c)) W ps (c_dsnu c)) as (d & E & Ld & N).
  { rewrite L. exact F. }
  rewrite E. cbn [bind]. eexists. split; [reflexivity|]. cbn [set_dsnu c_dsnu].
  split; [reflexivity|]. split; [exact Ld|]. split; [|split; [|split]].
  - intros j I. rewrite N. destruct (in_dec Nat.eq_dec j ps); [reflexivity|contradiction].
  - intros j I. rewrite N. destruct (in_dec Nat.eq_dec j ps); [contradiction|reflexivity].
  - rewrite hits_nodup by auto. apply nodup_short.
  - intro ND. rewrite hits_nodup by auto. rewrite nodup_fixed_point by auto. reflexivity.
Qed.

(** Drawing a pixel twice marks one pixel less. *)
Lemma bad_pixel_twice : exists c ps c',
  length (c_dsnu c) = c_height c * c_width c /\ length ps = 2 /\
  Forall (fun i => i < c_height c * c_width c) ps /\
  bad_pixel c (Ok ps) (fi 1) = Ok c' /\
  length (filter (fun x => feq x (c_u_esat c)) (c_dsnu c')) = 1.
Proof.
  exists demo_cam, [0; 0]. eexists. split; [reflexivity|]. split; [reflexivity|].
  split; [repeat constructor|]. split; vm_compute; reflexivity.
Qed.

(** ** Searches *)

Definition search_cam : res camera :=
  make_camera 8 1 2 (fi 1000) (fi 3) (fi 1) (fi 3) 3 (fi 1) (fi 0) (Some (fi 2)) 3 (fi 100) None.

(** Deliveries: image number [n] differs at the first pixel by the gain. *)
Definition search_draws (n : nat) : draws :=
  mkDraws (Ok [if Nat.even n then 0 else 1; 0]%Z) (Ok [0; 0]%Z) (Ok [fi 1; fi 0]) [fi 0; fi 0].

Lemma search_draws_good c k : c_height c = 1 -> c_width c = 2 -> good_draws c (search_draws k).
Proof.
  intros H W. unfold good_draws. rewrite H, W. exists [if Nat.even k then 0 else 1; 0]%Z, [0; 0]%Z, [fi 1; fi 0].
  simpl. repeat split; auto.
  - repeat constructor; eexists; reflexivity.
  - repeat constructor; eexists; (split; [reflexivity|]); split; vm_compute; discriminate.
Qed.

Definition search_camera : camera :=
  mkCam 8 1 2 (fi 1000) [FFin 1; FFin 2; FFin 3] (FFin 3) [FFin 0; FFin 1; FFin 2] (FFin 1) (fi 100)
    [fzero; fzero].

Lemma search_cam_ok : search_cam = Ok search_camera.
Proof. vm_compute. reflexivity. Qed.

Lemma search_case : good_camera search_camera /\ increasing (c_Ks search_camera) /\
  Forall machine_float (c_Ks search_camera) /\
  increasing (c_blackoffsets search_camera) /\ Forall machine_float (c_blackoffsets search_camera) /\
  get_emva_gain search_camera search_draws = (search_camera, Ok (FFin 2)) /\
  get_emva_blackoffset search_camera search_draws = (search_camera, Ok (FFin 1)).
Proof.
  split; [|split; [|split; [|split; [|split]]]].
  - unfold good_camera. simpl. repeat split; try (eexists; reflexivity).
    + exists (inject_Z 100). split; [reflexivity|]. vm_compute. discriminate.
    + repeat constructor; eexists; reflexivity.
  - simpl. repeat (apply inc_cons || apply inc_nil);
    repeat (apply Forall_cons || apply Forall_nil); eexists; eexists; (split; [reflexivity|]);
    (split; [reflexivity|]); reflexivity.
  - repeat (apply Forall_cons || apply Forall_nil).
    + apply (fi_machine 1). reflexivity.
    + apply (fi_machine 2). reflexivity.
    + apply (fi_machine 3). reflexivity.
  - simpl. repeat (apply inc_cons || apply inc_nil);
    repeat (apply Forall_cons || apply Forall_nil); eexists; eexists; (split; [reflexivity|]);
    (split; [reflexivity|]); reflexivity.
  - repeat (apply Forall_cons || apply Forall_nil).
    + apply (fi_machine 0). reflexivity.
    + apply (fi_machine 1). reflexivity.
    + apply (fi_machine 2). reflexivity.
  - split; vm_compute; reflexivity.
Qed.

(** An image that cannot be taken leaves the camera at the gain being tried. *)
Definition failing (n : nat) : draws :=
  if (n =? 2)%nat then mkDraws (Err ValueError) (Ok []) (Ok []) [] else search_draws 0.

Lemma search_failure : exists c ds c', search_cam = Ok c /\
  get_emva_gain c ds = (c', Err ValueError) /\ feq (c_K c') (c_K c) = false.
Proof.
  exists search_camera, failing. eexists. split; [apply search_cam_ok|].
  split; vm_compute; reflexivity.
Qed.

Lemma run_settings ops : forall c, c_bits (run c ops) = c_bits c.
Proof.
  unfold run. induction ops as [|o ops IH]; intro c; simpl; auto. rewrite IH.
  destruct o; simpl; auto.
  - unfold set_K. destruct (nearest_value v (c_Ks c)); reflexivity.
  - unfold set_blackoffset. destruct (nearest_value v (c_blackoffsets c)); reflexivity.
Qed.

Lemma gain_restored b h w e K Kmin Kmax Ks bo bomin bomax bos u d c0 ops c ds :
  make_camera b h w e K Kmin Kmax Ks bo bomin bomax bos u d = Ok c0 -> c = run c0 ops ->
  b <= 53 -> good_camera c -> (forall k, good_draws c (ds k)) ->
  increasing (c_Ks c) -> Forall machine_float (c_Ks c) ->
  exists g, get_emva_gain c ds = (c, Ok g) /\ first_good (c_Ks c) (gain_suffices c ds) g.
Proof.
  intros M -> B G D I F. apply gain_found; auto.
  - rewrite run_settings. unfold make_camera in M. destruct (nearest_value K _); [|discriminate]. cbn [bind] in M.
    destruct (nearest_value bo _); [|discriminate]. cbn [bind] in M. injection M as <-. exact B.
  - apply run_was_set. eapply make_was_set, M.
Qed.

Lemma offset_restored b h w e K Kmin Kmax Ks bo bomin bomax bos u d c0 ops c ds :
  make_camera b h w e K Kmin Kmax Ks bo bomin bomax bos u d = Ok c0 -> c = run c0 ops ->
  b <= 53 -> good_camera c -> (forall k, good_draws c (ds k)) ->
  (Z.of_nat (c_width c * c_height c) < 2 ^ 40)%Z ->
  increasing (c_blackoffsets c) -> Forall machine_float (c_blackoffsets c) ->
  exists g k, get_emva_blackoffset c ds = (c, Ok g) /\ nth_error (c_blackoffsets c) k = Some g /\
    (forall j, j < k -> ~ offset_suffices true c ds j) /\
    (offset_suffices false c ds k \/ S k = length (c_blackoffsets c)).
Proof.
  intros M -> B G D Sz I F. apply offset_found; auto.
  - rewrite run_settings. unfold make_camera in M. destruct (nearest_value K _); [|discriminate]. cbn [bind] in M.
    destruct (nearest_value bo _); [|discriminate]. cbn [bind] in M. injection M as <-. exact B.
  - apply run_was_set. eapply make_was_set, M.
Qed.
