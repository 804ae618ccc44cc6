(** Operation points of a camera and their data set. *)
From Coq Require Import Ascii String List Bool Arith ZArith QArith Qabs Reals Qreals Lia Lqa Permutation.
From Flocq Require Import Core.
From Verif Require Import Base_Prelude Base_Str Base_Num Base_Order Base_Float Model_Path Model_Parser
  Model_Camera Model_Points Model_Dataset Model_Search
  Spec_Num Spec_Parser Spec_Dataset Spec_Points Spec_Camera Proofs_Round Proofs_Num Proofs_Float Proofs_Camera Proofs_Parser
  Proofs_Parser2 Proofs_Dataset Proofs_Dataset2 Proofs_Points Proofs_Points2.
Import ListNotations.
Open Scope nat_scope.

Lemma limit_or given default : limit given default (or_default given default).
Proof.
  unfold limit, or_default. destruct given as [z|]; [|right; auto].
  destruct (feq z fzero) eqn:E; [right; split; auto; right; eauto|left; auto].
Qed.

Lemma limit_fun given default x y : limit given default x -> limit given default y -> x = y.
Proof.
  intros [(-> & E)|(-> & [->|(z & -> & E)])] [(E2 & F)|(-> & [E2|(w & E2 & F)])]; try congruence.
Qed.

(** ** Exposure time variation *)

Lemma exposure_mode env c a c' p :
  make_points env c a = (c', Ok p) -> a_exposure_fixed a = None -> 0 < a_steps a ->
  exists top bright,
    limit (a_exposure_max a) (e_max env) top /\
    e_radiance_for env (set_exposure c top) None = Ok bright /\
    (exists t, p_spatial p = [(t, [bright; repeat (FFin 0) (e_size env)])]) /\
    Forall (fun kv => snd kv = [bright; repeat (FFin 0) (e_size env)]) (p_temporal p) /\
    all_different (map fst (p_temporal p)) /\
    length (p_temporal p) <= a_steps a.
Proof.
  unfold make_points. intros E F P. rewrite F in E. injection E as <- E.
  set (top := or_default (a_exposure_max a) (e_max env)) in *.
  destruct (e_radiance_for env (set_exposure c top) None) as [rad|] eqn:R; [|discriminate].
  cbn [bind] in E. injection E as <-. exists top, rad. split; [apply limit_or|]. split; auto.
  destruct (series_shape (e_size env) (or_default (a_exposure_min a) (e_min env)) top rad (a_steps a) P)
    as ((t & _ & S1) & S2 & S3 & S4 & _).
  split; [exists t; exact S1|]. auto.
Qed.

Lemma exposure_mode_count env c a c' p lo hi :
  make_points env c a = (c', Ok p) -> a_exposure_fixed a = None ->
  limit (a_exposure_min a) (e_min env) (FFin lo) -> limit (a_exposure_max a) (e_max env) (FFin hi) ->
  apart lo hi (a_steps a) ->
  length (p_temporal p) = a_steps a /\
  (forall i, i < a_steps a -> exists x rs, nth_error (p_temporal p) i = Some (FFin x, rs) /\
     as_printed 1 (FFin x) = FFin x /\ (Qabs (x - even lo hi (a_steps a) i) <= 6 # 100)%Q) /\
  (forall i j x y rs rs', i < j -> nth_error (p_temporal p) i = Some (FFin x, rs) ->
     nth_error (p_temporal p) j = Some (FFin y, rs') -> (x < y)%Q) /\
  (exists x rs, nth_error (p_temporal p) (a_steps a / 2) = Some (x, rs) /\ p_spatial p = [(x, rs)]).
Proof.
  unfold make_points. intros E F Lmin Lmax (N & Blo & Bhi & Sp). rewrite F in E. injection E as <- E.
  rewrite (limit_fun _ _ _ _ (limit_or (a_exposure_max a) (e_max env)) Lmax) in E.
  rewrite (limit_fun _ _ _ _ (limit_or (a_exposure_min a) (e_min env)) Lmin) in E.
  destruct (e_radiance_for env (set_exposure c (FFin hi)) None) as [rad|] eqn:R; [|discriminate].
  cbn [bind] in E. injection E as <-.
  destruct (series_shape (e_size env) (FFin lo) (FFin hi) rad (a_steps a) ltac:(lia))
    as ((t & Ht & S1) & S2 & S3 & S4 & S5).
  pose proof (S5 (spaced_different lo hi (a_steps a) N Blo Bhi Sp)) as T. clear S5.
  destruct (spaced_exposures lo hi (a_steps a) N Blo Bhi Sp) as (X1 & X2).
  set (ex := map (np_round 1) (linspace (FFin lo) (FFin hi) (a_steps a))) in *.
  assert (Len : length ex = a_steps a) by (unfold ex; rewrite map_length; apply linspace_length).
  rewrite T. split; [rewrite map_length; exact Len|]. split; [|split].
  - intros i Hi. destruct (X1 i Hi) as (x & A & B & C). exists x. eexists. rewrite nth_error_map, A.
    split; [reflexivity|]. split; auto.
  - intros i j x y rs rs' Hij A B. rewrite nth_error_map in A, B.
    destruct (nth_error ex i) eqn:Ei; [|discriminate]. destruct (nth_error ex j) eqn:Ej; [|discriminate].
    assert (J : j < a_steps a) by (rewrite <- Len; apply nth_error_Some; congruence).
    destruct (X2 i j ltac:(lia)) as (x' & y' & A' & B' & L').
    cbn [option_map] in A, B. injection A as -> _. injection B as -> _.
    rewrite Ei in A'. rewrite Ej in B'. injection A' as ->. injection B' as ->. exact L'.
  - exists t. eexists. rewrite nth_error_map, Ht. split; [reflexivity|]. exact S1.
Qed.

(** ** Variation of the light *)

Lemma one_times v : machine_float v -> feq (fmul (f_int 1) v) v = true.
Proof.
  intros (q & -> & B & S1). destruct (f_int_exact 1) as (o & E & O); [reflexivity|]. rewrite E. cbn [fmul].
  destruct (rnd64_exact q B) as (w & Ew & W).
  - apply Qlt_Rlt in S1. rewrite Q2R_Qabs, Q2R_inject_Z in S1.
    eapply Rlt_trans; [exact S1|]. rewrite bpow_Z by lia. apply IZR_lt. reflexivity.
  - rewrite (rnd64_Qeq (o * q) q) by (rewrite O; ring). rewrite Ew. simpl. apply Qeq_bool_iff. exact W.
Qed.

Lemma py_round_rounded t e : py_round t = Ok e -> rounded t e.
Proof.
  unfold py_round. destruct t as [q|b|]; try discriminate. intro E. injection E as <-.
  exists q, (q_rint q). split; auto. split; auto. rewrite Qabs_Qminus. apply q_rint_near.
Qed.

Lemma light_mode env c a c' p t :
  make_points env c a = (c', Ok p) -> a_exposure_fixed a = Some t -> 0 < a_steps a ->
  exists e strengths mid m rmin rmax,
    rounded t e /\ length strengths = a_steps a /\ In mid strengths /\
    p_temporal p = [(e, map (fun v => repeat v (e_size env)) strengths ++ [repeat (FFin 0) (e_size env)])] /\
    p_spatial p = [(e, [repeat mid (e_size env); repeat (FFin 0) (e_size env)])] /\
    e_radiance_for env c' (Some m) = Ok rmin /\ e_radiance_for env c' None = Ok rmax /\
    (2 <= a_steps a -> machine_float (e_mean env rmin) -> machine_float (e_mean env rmax) ->
     feq (hd FNan strengths) (e_mean env rmin) = true /\ feq (last strengths FNan) (e_mean env rmax) = true).
Proof.
  unfold make_points. intros E F P. rewrite F in E.
  destruct (set_K (set_exposure c t) (or_default (a_gain a) (c_K c))) as [c1|]; [|discriminate].
  destruct (set_blackoffset c1 (or_default (a_blackref a) (c_blackoffset c))) as [c2|]; [|discriminate].
  injection E as <- E.
  destruct (e_grab_mean env c2) as [m|]; [|discriminate]. cbn [bind] in E.
  match type of E with context [e_radiance_for env c2 (Some ?x)] => set (target := x) in * end.
  destruct (e_radiance_for env c2 (Some target)) as [rmin|] eqn:R1; [|discriminate]. cbn [bind] in E.
  destruct (e_radiance_for env c2 None) as [rmax|] eqn:R2; [|discriminate]. cbn [bind] in E.
  unfold light_series in E. destruct (py_round t) as [e|] eqn:PR; [|discriminate]. cbn [bind] in E.
  set (n := a_steps a) in *. set (sz := e_size env) in *.
  set (fs := linspace (e_mean env rmin) (e_mean env rmax) n) in *.
  assert (Lf : length fs = n) by apply linspace_length.
  assert (H2 : n / 2 < n) by (apply Nat.div_lt; lia).
  set (ss := map (fmul (f_int 1)) fs).
  assert (Er : map (fun f => repeat (fmul (f_int 1) f) sz) fs = map (fun v => repeat v sz) ss)
    by (unfold ss; rewrite map_map; reflexivity).
  rewrite Er in E. rewrite nth_error_app1 in E by (unfold ss; rewrite !map_length, Lf; exact H2).
  rewrite nth_error_map in E.
  destruct (nth_error ss (n / 2)) as [mid|] eqn:Em; [|discriminate]. cbn [option_map of_option bind] in E.
  injection E as <-. exists e, ss, mid, target, rmin, rmax.
  split; [apply py_round_rounded; auto|]. split; [unfold ss; rewrite map_length; auto|].
  split; [eapply nth_error_In; eauto|]. split; [reflexivity|]. split; [reflexivity|].
  split; auto. split; auto. intros N M1 M2. split.
  - destruct (linspace_first (e_mean env rmin) (e_mean env rmax) n) as (x & Hx & Fx);
      try (apply machine_same; assumption); auto.
    unfold ss. fold fs in Hx. destruct fs as [|f fs']; [discriminate|]. injection Hx as ->. cbn [map hd].
    eapply feq_trans; [|exact Fx]. destruct M1 as (r & Er1 & B & S1). rewrite Er1 in Fx.
    destruct x as [q|b|]; [|destruct b; discriminate Fx|discriminate Fx]. simpl in Fx. apply Qeq_bool_iff in Fx.
    apply one_times. exists q. split; auto. rewrite (Qeq_eqR _ _ Fx). split; auto. rewrite Fx. exact S1.
  - assert (La : last fs FNan = e_mean env rmax) by (apply linspace_last; auto).
    assert (Ls : last ss FNan = fmul (f_int 1) (last fs FNan)).
    { unfold ss. assert (Nn : fs <> []) by (intro Z; rewrite Z in Lf; simpl in Lf; lia).
      clear - Nn. induction fs as [|x fs IH]; [congruence|]. destruct fs as [|y fs]; [reflexivity|].
      change (last (map (fmul (f_int 1)) (x :: y :: fs)) FNan) with (last (map (fmul (f_int 1)) (y :: fs)) FNan).
      rewrite IH by discriminate. reflexivity. }
    rewrite Ls, La. apply one_times; auto.
Qed.

(** The given radiances are never looked at, nor are gain and offset when the
    exposure varies. *)
Lemma radiances_ignored env c emin emax fixed rmin rmax rmin' rmax' gain black steps :
  make_points env c (mkArgs emin emax fixed rmin rmax gain black steps)
  = make_points env c (mkArgs emin emax fixed rmin' rmax' gain black steps).
Proof. reflexivity. Qed.

Lemma gain_ignored env c emin emax rmin rmax gain black gain' black' steps :
  make_points env c (mkArgs emin emax None rmin rmax gain black steps)
  = make_points env c (mkArgs emin emax None rmin rmax gain' black' steps).
Proof. reflexivity. Qed.

(** ** The data set of a series *)

Lemma shots_of_different li k bright dark d :
  Forall (fun kv => snd kv = [bright; dark]) d ->
  all_different (map (as_printed 1) (map fst d)) ->
  (forall t, In t (map fst d) ->
     feq (listed_photons li (mkShot k t bright)) (listed_photons li (mkShot k t dark)) = false) ->
  ForallOrdPairs (fun s s' => ~ listed_alike li s s') (shots_of k d).
Proof.
  intros V D N. induction d as [|(t, rs) d IH]; [constructor|].
  inversion V as [|? ? V1 V2]; subst. simpl in V1. subst rs. inversion D as [|? ? D1 D2]; subst.
  change (shots_of k ((t, [bright; dark]) :: d))
    with (mkShot k t bright :: mkShot k t dark :: shots_of k d).
  assert (Far : forall r, Forall (fun s' => ~ listed_alike li (mkShot k t r) s') (shots_of k d)).
  { intro r. apply Forall_forall. intros s' Hs (_ & A & _). unfold shots_of in Hs. apply in_flat_map in Hs.
    destruct Hs as ((u, us) & Hu & Hs). simpl in Hs. apply in_map_iff in Hs. destruct Hs as (r' & <- & _).
    unfold listed_exposure in A. cbn [s_exposure] in A.
    rewrite Forall_forall in D1. rewrite (D1 (as_printed 1 u)) in A; [discriminate|].
    apply in_map, (in_map fst _ (u, us)), Hu. }
  constructor; [constructor; [|apply Far]|constructor; [apply Far|]].
  - intros (_ & _ & A). rewrite N in A; [discriminate|]. left. reflexivity.
  - apply IH; auto. intros u Hu. apply N. right. exact Hu.
Qed.

Lemma FOP_app {A} (R : A -> A -> Prop) l m : ForallOrdPairs R l -> ForallOrdPairs R m ->
  (forall x y, In x l -> In y m -> R x y) -> ForallOrdPairs R (l ++ m).
Proof.
  intros Hl Hm C. induction Hl as [|a l Ha Hl IH]; auto. simpl. constructor.
  - apply Forall_app. split; auto. apply Forall_forall. intros y Hy. apply C; [left; auto|auto].
  - apply IH. intros x y Hx Hy. apply C; [right; auto|auto].
Qed.

Lemma shots_kind k d s : In s (shots_of k d) -> s_kind s = k.
Proof.
  unfold shots_of. intro H. apply in_flat_map in H. destruct H as (? & _ & H).
  apply in_map_iff in H. destruct H as (? & <- & _). reflexivity.
Qed.

Lemma shots_different li p :
  ForallOrdPairs (fun s s' => ~ listed_alike li s s') (shots_of Temporal (p_temporal p)) ->
  ForallOrdPairs (fun s s' => ~ listed_alike li s s') (shots_of Spatial (p_spatial p)) ->
  ForallOrdPairs (fun s s' => ~ listed_alike li s s') (shots p).
Proof.
  intros A B. apply FOP_app; auto. intros x y Hx Hy (K & _).
  apply shots_kind in Hx. apply shots_kind in Hy. congruence.
Qed.

Lemma all_different_printed d lo hi n :
  (exists l, d = map (fun t => (t, l)) (map (np_round 1) (linspace (FFin lo) (FFin hi) n)) :> points_dict) ->
  apart lo hi n -> all_different (map (as_printed 1) (map fst d)).
Proof.
  intros (l & ->) (N & Blo & Bhi & Sp). rewrite !map_map. cbn [fst].
  pose proof (spaced_exposures lo hi n N Blo Bhi Sp) as (X1 & _).
  pose proof (spaced_different lo hi n N Blo Bhi Sp) as D.
  rewrite <- (map_map (np_round 1) (fun t => as_printed 1 t)).
  replace (map (fun t => as_printed 1 t) (map (np_round 1) (linspace (FFin lo) (FFin hi) n)))
    with (map (np_round 1) (linspace (FFin lo) (FFin hi) n)); auto.
  rewrite <- (map_id (map (np_round 1) (linspace (FFin lo) (FFin hi) n))) at 1.
  apply map_ext_in. intros t Ht. apply In_nth_error in Ht. destruct Ht as (i & Hi).
  assert (I : i < n).
  { assert (L : nth_error (map (np_round 1) (linspace (FFin lo) (FFin hi) n)) i <> None) by congruence.
    apply nth_error_Some in L. rewrite map_length, linspace_length in L. exact L. }
  destruct (X1 i I) as (x & E & P & _). rewrite E in Hi. injection Hi as <-. rewrite P. reflexivity.
Qed.

Lemma series_different li env c a c' p lo hi :
  make_points env c a = (c', Ok p) -> a_exposure_fixed a = None ->
  limit (a_exposure_min a) (e_min env) (FFin lo) -> limit (a_exposure_max a) (e_max env) (FFin hi) ->
  apart lo hi (a_steps a) ->
  feq (l_mean li (repeat (FFin 0) (e_size env))) fzero = true ->
  (forall t bright rs, In (t, bright :: rs) (p_temporal p) ->
     feq (l_mean li bright) fzero = false /\
     feq (as_printed 3 (np_round 3 (l_photons li t bright))) fzero = false) ->
  ForallOrdPairs (fun s s' => ~ listed_alike li s s') (shots p) /\
  length (shots p) = 2 * a_steps a + 2.
Proof.
  unfold make_points. intros E F Lmin Lmax AP Dk Br. rewrite F in E. injection E as <- E.
  rewrite (limit_fun _ _ _ _ (limit_or (a_exposure_max a) (e_max env)) Lmax) in E.
  rewrite (limit_fun _ _ _ _ (limit_or (a_exposure_min a) (e_min env)) Lmin) in E.
  destruct (e_radiance_for env (set_exposure c (FFin hi)) None) as [rad|] eqn:R; [|discriminate].
  cbn [bind] in E. injection E as <-. pose proof AP as (N & Blo & Bhi & Sp).
  destruct (series_shape (e_size env) (FFin lo) (FFin hi) rad (a_steps a) ltac:(lia))
    as ((t & Ht & S1) & S2 & S3 & S4 & S5).
  pose proof (S5 (spaced_different lo hi (a_steps a) N Blo Bhi Sp)) as T. clear S5.
  set (p := exposure_series (e_size env) (FFin lo) (FFin hi) rad (a_steps a)) in *.
  assert (Ph : forall k u, In u (map fst (p_temporal p)) ->
    feq (listed_photons li (mkShot k u rad)) (listed_photons li (mkShot k u (zeros (e_size env)))) = false).
  { intros k u Hu. apply in_map_iff in Hu. destruct Hu as ((u', rs) & <- & Hu).
    rewrite Forall_forall in S2. pose proof (S2 _ Hu) as Er. simpl in Er. subst rs.
    destruct (Br _ _ _ Hu) as (B1 & B2). unfold listed_photons. cbn [s_radiance s_exposure fst].
    rewrite B1. change (zeros (e_size env)) with (repeat (FFin 0) (e_size env)). rewrite Dk. exact B2. }
  split.
  - apply shots_different.
    + apply (shots_of_different li Temporal rad (zeros (e_size env))); auto.
      eapply all_different_printed; [|exact AP]. eexists. exact T.
    + rewrite S1. apply (shots_of_different li Spatial rad (zeros (e_size env))).
      * repeat constructor.
      * repeat constructor.
      * intros u [<-|[]]. apply Ph. rewrite T, map_map. cbn [fst]. rewrite map_id.
        eapply nth_error_In. exact Ht.
  - unfold shots. rewrite app_length, S1. cbn [shots_of flat_map map snd app length].
    rewrite T. unfold shots_of. clear - N.
    assert (G : forall l : list pyfloat,
      length (flat_map (fun tr => map (mkShot Temporal (fst tr)) (snd tr))
                (map (fun t => (t, [rad; zeros (e_size env)])) l)) = 2 * length l).
    { induction l as [|x l IH]; auto. cbn [map flat_map snd fst app length]. rewrite IH. lia. }
    rewrite G, map_length, linspace_length. lia.
Qed.

(** What [DatasetGenerator] runs. *)
Lemma dataset_runs env li c ho hk ds1 ds2 ds mkdir version format outdir L steps rmin rmax fixed es file :
  dataset env li c ho hk ds1 ds2 ds mkdir version format outdir L steps rmin rmax fixed = (es, Ok file) ->
  exists c0 c1 p, make_points env c0 (mkArgs None None fixed rmin rmax None None steps) = (c1, Ok p) /\
    run_test li c1 ds version format outdir L p = (es, Ok file).
Proof.
  unfold dataset. set (c0 := set_exposure c (e_min env)).
  destruct (if ho then Ok c0 else _) as [c2|]; [|discriminate].
  destruct (if hk then Ok c2 else _) as [c3|]; [|discriminate].
  destruct (make_points env c3 _) as (c4, [p|]) eqn:M; [|discriminate].
  destruct mkdir; [|discriminate]. intro H. exists c3, c4, p. auto.
Qed.

(** ** Too few images *)

Definition as_temporal (s : shot) : shot := mkShot Temporal (s_exposure s) (s_radiance s).

Lemma two_blocks format li ss : forall n,
  shot_blocks format li 2 ss n = shot_blocks format li 3 (map as_temporal ss) n.
Proof.
  induction ss as [|s ss IH]; intro n; auto. cbn [shot_blocks map]. rewrite IH.
  assert (E : images_in 2 s = images_in 3 (as_temporal s)) by (unfold images_in; destruct (s_kind s); reflexivity).
  rewrite E. reflexivity.
Qed.

Lemma FOP_apart {A} (R : A -> A -> Prop) l1 x l2 y : ForallOrdPairs R (l1 ++ x :: l2) -> In y l2 -> R x y.
Proof.
  induction l1 as [|a l1 IH]; intros H Hy; inversion H as [|? ? H1 H2]; subst; auto.
  rewrite Forall_forall in H1. auto.
Qed.

Lemma run_blocks li c ds version format outdir L p es file f path d :
  extension format -> is_word version ->
  run_test li c ds version format outdir L p = (es, Ok file) ->
  parse_file f path (Some (written es)) = Ok d ->
  exists es', Forall2 (block_denotes (base_dir f path)) (shot_blocks format li L (shots p) 0) es' /\
    ForallOrdPairs (fun x y => ~ clash x y) es' /\
    forall h imgs, In (h, imgs) (shot_blocks format li L (shots p) 0) -> 2 <= length imgs.
Proof.
  intros F Wv E D. destruct (run_test_trace li c ds version format outdir L p es (Ok file) F Wv E)
    as (ls & m & T & R). destruct (R file eq_refl) as (_ & -> & ->).
  pose proof (trace_good format outdir F _ _ _ _ T) as G.
  pose proof (trace_written format outdir _ _ _ _ T) as W.
  pose proof (text_of_content _ G) as C. rewrite <- W in C.
  set (bs := shot_blocks format li L (shots p) 0) in *.
  assert (Et : vtoks version :: ntoks c :: all_toks format li L p = [vtoks version; ntoks c] ++ render_blocks bs).
  { unfold all_toks. rewrite ideals_blocks. reflexivity. }
  assert (IB : Forall is_block bs) by apply shot_blocks_block.
  assert (Bs : blocks (vtoks version :: ntoks c :: all_toks format li L p) = bs).
  { rewrite Et, blocks_pre by (constructor; [reflexivity|constructor; [reflexivity|constructor]]).
    apply blocks_render; auto. }
  destruct (blocks_to_entries f path _ _ _ C D) as (es' & B & _). rewrite Bs in B.
  exists es'. split; auto. split.
  - assert (WF : well_formed (base_dir f path) (vtoks version :: ntoks c :: all_toks format li L p))
      by (apply (accept_iff f path (written es)); eauto).
    destruct WF as (_ & _ & _ & _ & WF). apply WF. rewrite Bs. exact B.
  - intros h imgs Hin. destruct (le_lt_dec 2 (length imgs)); auto. exfalso.
    destruct (few_images_rejected f path _ _ h imgs C) as (e & Err); auto; [rewrite Bs; exact Hin|congruence].
Qed.

Lemma two_images_rejected li c ds version format outdir p es file f path t r :
  extension format -> is_word version ->
  run_test li c ds version format outdir 2 p = (es, Ok file) ->
  (exists rs, In (t, rs) (p_temporal p) /\ In r rs) -> (exists rs, In (t, rs) (p_spatial p) /\ In r rs) ->
  t <> FNan -> l_photons li t r <> FNan ->
  exists e, parse_file f path (Some (written es)) = Err e.
Proof.
  intros F Wv E (rs1 & I1 & J1) (rs2 & I2 & J2) Nt Np.
  destruct (parse_file f path (Some (written es))) as [d|e] eqn:D; [exfalso|eauto].
  destruct (run_blocks li c ds version format outdir 2 p es file f path d F Wv E D) as (es' & B & O & _).
  rewrite two_blocks in B. apply shots_denote in B; [|auto|lia]. destruct B as (B & _).
  assert (O2 : ForallOrdPairs (fun s s' => ~ listed_alike li s s') (map as_temporal (shots p))).
  { refine (ordpairs_transfer (fun e s => records li 3 s e) _ _ es' _ _ _ O).
    - intros x y s s' N (K1 & E1 & P1 & _) (K2 & E2 & P2 & _) (C1 & C2 & C3). apply N.
      unfold clash. rewrite K1, K2, E1, E2, P1, P2. auto.
    - clear - B. induction B; constructor; auto. }
  assert (In1 : In (mkShot Temporal t r) (shots_of Temporal (p_temporal p))).
  { apply in_flat_map. exists (t, rs1). split; auto. simpl. apply in_map. auto. }
  assert (In2 : In (mkShot Spatial t r) (shots_of Spatial (p_spatial p))).
  { apply in_flat_map. exists (t, rs2). split; auto. simpl. apply in_map. auto. }
  unfold shots in O2. rewrite map_app in O2. apply in_split in In1. destruct In1 as (l1 & l2 & Es).
  rewrite Es, map_app, <- app_assoc in O2. cbn [map app] in O2.
  apply (in_map as_temporal) in In2. unfold as_temporal at 1 in In2. cbn [s_exposure s_radiance] in In2.
  eapply FOP_apart in O2; [|apply in_or_app; right; exact In2].
  apply O2. unfold as_temporal. cbn [s_exposure s_radiance]. split; [reflexivity|].
  assert (RF : forall x, x <> FNan -> feq x x = true) by (intros x Hx; apply feq_refl; destruct x; auto; congruence).
  assert (AP : forall k x, x <> FNan -> as_printed k x <> FNan).
  { intros k x Hx. unfold as_printed. destruct x; auto. apply rnd64_not_nan. }
  split; apply RF.
  - apply AP. exact Nt.
  - unfold listed_photons. cbn [s_radiance s_exposure]. destruct (feq (l_mean li r) fzero); [discriminate|].
    apply AP. unfold np_round. destruct (f_pow10 3) as (w & Ew & Wv').
    { lia. }
    rewrite Ew. destruct (l_photons li t r) as [q|b|]; [| |congruence].
    + cbn [fmul]. pose proof (rnd64_not_nan (q * w)). destruct (rnd64 (q * w)) as [u|b|]; [| |congruence].
      * cbn [frint fdiv]. destruct (Qnum w =? 0)%Z eqn:Z0.
        { apply Z.eqb_eq in Z0. exfalso. pose proof (pow10_q_pos 3) as K. rewrite <- Wv' in K.
          unfold Qlt in K. rewrite Z0 in K. simpl in K. lia. }
        apply rnd64_not_nan.
      * cbn [frint fdiv]. discriminate.
    + cbn [fmul]. unfold finf_mul. destruct (Qnum w =? 0)%Z eqn:Z0.
      { apply Z.eqb_eq in Z0. exfalso. pose proof (pow10_q_pos 3) as K. rewrite <- Wv' in K.
        unfold Qlt in K. rewrite Z0 in K. simpl in K. lia. }
      cbn [frint fdiv]. discriminate.
Qed.

Lemma shot_blocks_in format li L ss : forall n s, In s ss ->
  exists h imgs, In (h, imgs) (shot_blocks format li L ss n) /\ length imgs = images_in L s.
Proof.
  induction ss as [|x ss IH]; intros n s [].
  - subst x. eexists. eexists. cbn [shot_blocks]. split; [left; reflexivity|]. rewrite map_length, seq_length. auto.
  - destruct (IH (n + images_in L x) s H) as (h & imgs & A & B). exists h, imgs. split; auto. right. exact A.
Qed.

Lemma few_rejected li c ds version format outdir L p es file f path :
  extension format -> is_word version -> L < 2 ->
  run_test li c ds version format outdir L p = (es, Ok file) ->
  (exists t r rs, In (t, r :: rs) (p_spatial p)) ->
  exists e, parse_file f path (Some (written es)) = Err e.
Proof.
  intros F Wv HL E (t & r & rs & I).
  destruct (parse_file f path (Some (written es))) as [d|e] eqn:D; [exfalso|eauto].
  destruct (run_blocks li c ds version format outdir L p es file f path d F Wv E D) as (_ & _ & _ & B).
  destruct (shot_blocks_in format li L (shots p) 0 (mkShot Spatial t r)) as (h & imgs & A & Ln).
  - apply in_or_app. right. apply in_flat_map. exists (t, r :: rs). split; auto. left. reflexivity.
  - specialize (B _ _ A). rewrite Ln in B. unfold images_in in B. cbn [s_kind] in B. lia.
Qed.
