(** The photons a generated data set lists. *)
From Coq Require Import List Bool Arith ZArith QArith Qabs Lia Lqa Reals Qreals.
From Verif Require Import Base_Prelude Base_Str Base_Num Base_Order Base_Float Base_SumR Model_Parser Model_Images Model_Results Model_Emva Model_Camera Model_Points Model_Dataset
  Model_Generated Spec_Num Spec_Parser Spec_Camera Spec_Dataset Spec_Data Spec_Generated Spec_Chance Spec_Linear Spec_Any Spec_Near Spec_Emva Spec_RandomRun
  Proofs_Round Proofs_Num Proofs_Repr Proofs_Float Proofs_Camera Proofs_Points Proofs_Run3 Proofs_Emva.
Import ListNotations.
Open Scope Q_scope.
Set Bullet Behavior "Strict Subproofs".

Lemma Qabs_ub a b : Qabs a <= b -> - b <= a <= b.
Proof. apply Qabs_Qle_condition. Qed.

Lemma rounded_close q : Qabs (q * 1000) <= inject_Z (2 ^ 44) ->
  exists v, as_printed 3 (np_round 3 (FFin q)) = FFin v /\ Qabs (v - q) <= 6 # 10000.
Proof.
  intro B. destruct (np_round_spec 3 q ltac:(lia) B) as (z & v & E & D & R).
  exists v. split; [rewrite E; eapply rounded_prints; [|exact B|exact E]; lia|].
  change (inject_Z (10 ^ Z.of_nat 3)) with 1000 in *.
  apply Qabs_ub in D. apply Qabs_ub in B. change (inject_Z (2 ^ 44)) with (17592186044416 # 1) in B.
  destruct (Z.eq_dec z 0) as [->|N].
  - rewrite (rnd64_zero (inject_Z 0 / 1000)) in R by reflexivity. injection R as <-.
    change (inject_Z 0) with 0 in D. apply Qabs_Qle_condition. split; lra.
  - assert (A : Qabs (inject_Z z / 1000) <= 17592186044 + 1).
    { apply Qabs_Qle_condition. unfold Qdiv. change (/ 1000) with (1 # 1000). split; lra. }
    destruct (rnd64_rel (inject_Z z / 1000)) as (v' & E' & D').
    + unfold Qdiv. rewrite Qabs_Qmult. change (Qabs (/ 1000)) with (1 # 1000).
      assert (1 <= Qabs (inject_Z z)).
      { change 1 with (inject_Z 1). unfold Qabs, inject_Z, Qle. cbn [Qnum Qden]. lia. }
      lra.
    + eapply Qle_trans; [exact A|]. unfold Qle. vm_compute. discriminate.
    + rewrite R in E'. injection E' as <-.
      assert (D2 : Qabs (v - inject_Z z / 1000) <= 1 # 100000).
      { eapply Qle_trans; [exact D'|]. apply Qle_trans with ((17592186044 + 1) * (1 # 2 ^ 53)).
        - apply Qmult_le_compat_r; [exact A|discriminate].
        - unfold Qle. vm_compute. discriminate. }
      apply Qabs_ub in D2. unfold Qdiv in D2. change (/ 1000) with (1 # 1000) in D2.
      apply Qabs_Qle_condition. split; lra.
Qed.

(** An image is listed under the photons of the camera, to 0.0006. *)
Lemma listed_close li s q : ~ dark_shot li s -> l_photons li (s_exposure s) (s_radiance s) = FFin q -> Qabs (q * 1000) <= inject_Z (2 ^ 44) ->
  finite (listed_photons li s) /\ (Rabs (Q2R (Spec_Emva.number (listed_photons li s)) - Q2R q) <= 6 / 10000)%R.
Proof.
  intros D E B. destruct (rounded_close q B) as (v & P & C). unfold dark_shot in D. unfold listed_photons in *. rewrite E, P in *.
  destruct (feq (l_mean li (s_radiance s)) fzero).
  - exfalso. apply D. reflexivity.
  - split; [eexists; reflexivity|]. cbn [Spec_Emva.number].
    rewrite <- Q2R_minus, <- Q2R_Qabs. apply Qle_Rle in C. eapply Rle_trans; [exact C|]. unfold Q2R. cbn. Lra.lra.
Qed.

From Verif Require Import Spec_Results Spec_Whole Spec_Figures Proofs_Near2 Proofs_Near4 Proofs_Whole2.
Section Usable.
Context {W : Type} (C : chance W).
Variables (li : Model_Dataset.light) (c : camera) (ds : W -> nat -> draws) (version format outdir : str) (L : nat)
  (p : points) (es : W -> list event) (file : str) (bs : list (shot * shot))
  (visit_t visit_s : exposure_dict -> exposure_dict) (T : truth) (V M : R).
Hypothesis VT : any_order visit_t.
Hypothesis VS : any_order visit_s.
Hypothesis UR : usable_run li c ds version format outdir L p es file.
Hypothesis ORD : in_order li p bs.
Hypothesis RR : random_run C c ds L p bs T V M.
Local Notation h := (c_height c).
Local Notation w := (c_width c).

Lemma usable_event (P : robj -> Prop) bound :
  (forall O B D, measurement C O B D (length bs) h w T (listed_light li bs) V M ->
     (forall i b d n, nth_error bs i = Some (b, d) -> first_image L p b n -> forall o, B i o = pair_at c (ds o) n) ->
     (forall i b d n, nth_error bs i = Some (b, d) -> first_image L p d n -> forall o, D i o = pair_at c (ds o) n) ->
     (forall o, times (O o) = listed_times bs) ->
     unlikely C (fun o => ~ P (O o)) bound) ->
  unlikely C (fun o => ~ exists x, emva (disk_of h w (es o)) visit_t visit_s file (Some (written (es o))) = Ok (Some x) /\ P x) bound.
Proof.
  destruct UR. intro H. eapply run_event; eauto.
Qed.

Lemma usable_unlikely k eta K q s e : near_law T (listed_light li bs) k eta K q s -> (0 <= s)%R -> (0 < e)%R ->
  clear_points T (length bs) k (e + 2 * s) ->
  unlikely C (fun o => ~ exists x, emva (disk_of h w (es o)) visit_t visit_s file (Some (written (es o))) = Ok (Some x) /\
       right_within x k eta K (q + K * s) (e + s))
    (INR (length bs) / INR (h * w) * ((V + 2 * M) / (e * e) + 4 * V / e)).
Proof. destruct UR. eapply run_unlikely; eauto. Qed.

Lemma usable_simulated k eta K (a b : nat -> setting) (ph : nat -> Q) s e : (0 < eta)%R -> (0 < K)%R -> (0 < e)%R ->
  s = (K * (eta * (6 / 10000)))%R ->
  (forall i sb sd nb nd, nth_error bs i = Some (sb, sd) -> (i <= k)%nat -> first_image L p sb nb -> first_image L p sd nd ->
     simulated C (a i) (fun o => pair_at c (ds o) nb) 2 h w /\ simulated C (b i) (fun o => pair_at c (ds o) nd) 2 h w /\
     same_but_light (a i) (b i) /\ st_K (a i) = K /\
     l_photons li (s_exposure sb) (s_radiance sb) = FFin (ph i) /\ (Qabs (ph i * 1000) <= inject_Z (2 ^ 44))%Q /\
     (pixel_meanR h w (fun r q => st_light (a i) r q - st_light (b i) r q) = eta * Q2R (ph i))%R) ->
  (forall i, (i <= k)%nat -> (listed_light li bs 0 <= listed_light li bs i)%R) ->
  clear_points T (length bs) k (e + 2 * s) ->
  unlikely C (fun o => ~ exists x, emva (disk_of h w (es o)) visit_t visit_s file (Some (written (es o))) = Ok (Some x) /\
       right_within x k eta K (1 / 4 + K * s) (e + s))
    (INR (length bs) / INR (h * w) * ((V + 2 * M) / (e * e) + 4 * V / e)).
Proof.
  intros E0 K0 e0 Es SI OR CL. destruct UR.
  assert (s0 : (0 <= s)%R).
  { subst s. apply Rmult_le_pos; [Lra.lra|]. apply Rmult_le_pos; Lra.lra. }
  eapply (run_simulated C li c ds version format outdir L p es file bs visit_t visit_s T V M) with (a := a) (b := b); eauto.
  intros i sb sd nb nd N Hi Nb Nd. destruct (SI i sb sd nb nd N Hi Nb Nd) as (S1 & S2 & S3 & S4 & S5 & S6 & S7).
  repeat (split; [assumption|]). rewrite S7.
  destruct ORD as (_ & O1 & _). pose proof (nth_error_In _ _ N) as IN.
  destruct (proj1 (O1 sb) (in_map fst _ _ IN)) as (_ & _ & ND).
  destruct (listed_close li sb (ph i) ND S5 S6) as (_ & LC).
  unfold listed_light. rewrite N. set (l := Q2R (Spec_Emva.number (listed_photons li sb))) in *.
  replace (eta * Q2R (ph i) - eta * l)%R with (- (eta * (l - Q2R (ph i))))%R by Lra.lra.
  rewrite Rabs_Ropp, Rabs_mult, (Rabs_right eta) by Lra.lra. subst s.
  apply Rmult_le_compat_l; [Lra.lra|]. apply Rmult_le_compat_l; [Lra.lra|exact LC].
Qed.
End Usable.

(** Any probability of a wrong result is met with enough pixels. *)
Lemma usable_enough n V M e d : (0 < e)%R -> (0 < d)%R -> exists N0 : nat,
  forall W (C : chance W) li c ds version format outdir L p es file bs visit_t visit_s T k eta K q s,
  any_order visit_t -> any_order visit_s -> usable_run li c ds version format outdir L p es file ->
  in_order li p bs -> length bs = n -> random_run C c ds L p bs T V M ->
  near_law T (listed_light li bs) k eta K q s -> (0 <= s)%R -> clear_points T n k (e + 2 * s) ->
  (N0 <= c_height c * c_width c)%nat ->
  unlikely C (fun o => ~ exists x,
       emva (disk_of (c_height c) (c_width c) (es o)) visit_t visit_s file (Some (written (es o))) = Ok (Some x) /\
       right_within x k eta K (q + K * s) (e + s)) d.
Proof.
  intros He Hd. destruct (enough_pixels n V M e d He Hd) as (N0 & H0). exists (Nat.max 2 N0).
  intros W C li c ds version format outdir L p es file bs vt vs T k eta K q s VT VS U O <- RR NL s0 CL HN.
  eapply unlikely_mono; [|apply (H0 (c_height c * c_width c)%nat); lia|
    eapply (usable_unlikely C li c ds version format outdir L p es file bs vt vs T V M VT VS U O RR); eauto].
  intros o H. exact H.
Qed.
