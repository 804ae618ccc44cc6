(** Concrete measurements in other grey values and units, and the figures that do not follow. *)
From Coq Require Import Ascii String List Bool Arith ZArith QArith Reals Qreals Permutation Lia Lra.
From Verif Require Import Base_Prelude Base_Str Base_Num Base_Order Base_Sum Base_Xreal Model_Path Model_Parser
  Model_Images Model_Loader Model_Data Model_Results Model_Emva Spec_Parser Spec_Images Spec_Data Spec_Results
  Spec_Emva Spec_Units Proofs_Parser Proofs_Parser2 Proofs_Results2 Proofs_Results4 Proofs_Emva4 Proofs_Units
  Proofs_Units4 Props_Emva.
Import ListNotations.
Open Scope Q_scope.

Lemma complete_other fs fs' h w es : complete_set fs h w es ->
  (forall e, In e es -> exists ims, images fs' (e_files e) ims /\ Forall (good_image h w) ims) ->
  complete_set fs' h w es.
Proof.
  intros [A B C D E F G H] I. constructor; auto. intros e He. split; [apply D; auto|auto].
Qed.

(** The images of [fs] with grey values g y + c. *)
Definition graded_fs (fs : fsys) (g c : Z) (f : str) : option image :=
  match fs f with
  | Some im => Some (mkImg (ih im) (iw im) (fun i j => (g * px im i j + c)%Z))
  | None => None
  end.
(** The set with dark images without noise. *)
Definition still_fs (f : str) : option image :=
  match last f " "%char with "a"%char | "b"%char => Some (two 0 0) | _ => set_fs f end.

Lemma graded_restated fs g c e : restated fs (graded_fs fs g c) (regraded g c) 1 1 e e.
Proof.
  split; [auto|]. split; [ring|]. split; [ring|]. intros ims I.
  induction I as [|f im fl ims E I IH]; [exists []; split; constructor|]. destruct IH as (ims' & A & B).
  exists (mkImg (ih im) (iw im) (fun i j => (g * px im i j + c)%Z) :: ims'). split; constructor; auto.
  - unfold graded_fs. rewrite E. auto.
  - split; [auto|]. split; auto.
Qed.
Lemma graded_all fs g c es : Forall2 (restated fs (graded_fs fs g c) (regraded g c) 1 1) es es.
Proof. induction es; constructor; auto using graded_restated. Qed.

Ltac pictures := intros e He; each He;
  (eexists; split; [repeat (apply Forall2_cons; [reflexivity|]); apply Forall2_nil|]);
  repeat (apply List.Forall_cons;
    [split; [reflexivity|split; [reflexivity|intros i j I J; destruct j; vm_compute; split; congruence]]|]);
  apply List.Forall_nil.

Lemma graded_complete : complete_set (graded_fs set_fs 1 5) 1 2 set_entries.
Proof. apply (complete_other set_fs); [apply set_complete|]. pictures. Qed.
Lemma doubled_complete : complete_set (graded_fs set_fs 2 0) 1 2 set_entries.
Proof. apply (complete_other set_fs); [apply set_complete|]. pictures. Qed.
Lemma still_complete : complete_set still_fs 1 2 set_entries.
Proof. apply (complete_other set_fs); [apply set_complete|]. pictures. Qed.
Lemma doubled_still_complete : complete_set (graded_fs still_fs 2 0) 1 2 set_entries.
Proof. apply (complete_other set_fs); [apply set_complete|]. pictures. Qed.

Definition object_of (fs : fsys) : res (option robj) :=
  emva fs (fun m => m) (fun m => m) set_file (Some set_text).

Definition value_in_of {A} (f : robj -> res A) (fs : fsys) : res A :=
  match object_of fs with Ok (Some o) => f o | Ok None => Err TypeError | Err e => Err e end.
Lemma value_in A (f : robj -> res A) fs o : object_of fs = Ok (Some o) -> f o = value_in_of f fs.
Proof. intro E. unfold value_in_of. rewrite E. auto. Qed.
Lemma any_id : any_order (fun m => m).
Proof. intro m. apply Permutation_refl. Qed.

Lemma still_object : exists o o', object_of still_fs = Ok (Some o) /\ object_of (graded_fs still_fs 2 0) = Ok (Some o') /\
  has_signal o /\
  (exists v v', dark_variance o = Ok v /\ v == 24 # 100 /\ dark_variance o' = Ok v' /\ v' == 24 # 100) /\
  exists k r s k' r' s', gain o = Ok k /\ responsivity o = Ok r /\ u_p_sat o = Ok s /\
    gain o' = Ok k' /\ responsivity o' = Ok r' /\ u_p_sat o' = Ok s' /\
    k' == 2 * k /\ r' == 2 * r /\ s' == s /\ 0 < k /\ 0 < r /\ 0 < s.
Proof.
  destruct (restated_figures still_fs (graded_fs still_fs 2 0) 1 2 2 0 1 1 set_file set_file set_text set_text
    set_entries set_entries (fun m => m) (fun m => m) (fun m => m) (fun m => m) any_id any_id any_id any_id set_listed set_listed
    still_complete doubled_still_complete eq_refl eq_refl eq_refl (graded_all _ _ _ _)) as (o & o' & E & E' & _).
  exists o, o'. split; [exact E|]. split; [exact E'|].
  pose proof (fun A f => value_in A f _ _ E) as V. pose proof (fun A f => value_in A f _ _ E') as V'.
  split.
  { intros m M. injection M as M. rewrite V in M. vm_compute in M. injection M as <-. exists 1%nat. split; [lia|].
    assert (S : sig o 1 = match value_in_of (fun o => Ok (sig o 1)) still_fs with Ok q => q | Err _ => 0 end)
      by (rewrite <- V; reflexivity).
    rewrite S. vm_compute. discriminate. }
  split.
  { rewrite V, V'. do 2 eexists. split; [vm_compute; reflexivity|]. split; [reflexivity|]. split; [vm_compute; reflexivity|reflexivity]. }
  rewrite !V, !V'.
  do 6 eexists. do 6 (split; [vm_compute; reflexivity|]). repeat split.
Qed.

Lemma dark_noise_still o v : dark_variance o = Ok v -> v == 24 # 100 -> sigma_y_dark o = Ok (XR (sqrt (24 / 100))).
Proof.
  intros E V. unfold sigma_y_dark. rewrite E. cbn [bind]. unfold xq. rewrite (Qeq_eqR _ _ V), Q2R_frac.
  rewrite xsqrt_fin by lra. reflexivity.
Qed.

Lemma dark_noise_refuted : exists fs fs' fname d es o o',
  lists fname d es /\ complete_set fs 1 2 es /\ complete_set fs' 1 2 es /\
  Forall2 (restated fs fs' (regraded 2 0) 1 1) es es /\
  emva fs (fun m => m) (fun m => m) fname (Some d) = Ok (Some o) /\
  emva fs' (fun m => m) (fun m => m) fname (Some d) = Ok (Some o') /\ has_signal o /\
  (exists s, (0 < s)%R /\ value_of F_sigma_y_dark o = VX (Ok (XR s)) /\ value_of F_sigma_y_dark o' = VX (Ok (XR s))) /\
  (exists s, (0 < s)%R /\ value_of F_sigma_d o = VX (Ok (XR s)) /\ value_of F_sigma_d o' = VX (Ok (XR (s / 2)))) /\
  (exists u u', (0 < u' < u)%R /\ value_of F_u_p_min o = VX (Ok (XR u)) /\ value_of F_u_p_min o' = VX (Ok (XR u'))) /\
  (exists r r', (0 < r < r')%R /\ value_of F_DR o = VX (Ok (XR r)) /\ value_of F_DR o' = VX (Ok (XR r'))).
Proof.
  destruct still_object as (o & o' & E & E' & S & (v & v' & V & Vv & V' & Vv') &
    k & r & s & k' & r' & s' & K & R0 & P & K' & R' & P' & KK & RR & SS & Kp & Rp & Sp).
  exists still_fs, (graded_fs still_fs 2 0), set_file, set_text, set_entries, o, o'.
  split; [exact set_listed|]. split; [exact still_complete|]. split; [exact doubled_still_complete|].
  split; [apply graded_all|]. split; [exact E|]. split; [exact E'|]. split; [exact S|].
  pose proof (dark_noise_still o v V Vv) as D. pose proof (dark_noise_still o' v' V' Vv') as D'.
  set (n := sqrt (24 / 100)) in *. assert (N : (0 < n)%R) by (apply sqrt_lt_R0; lra).
  assert (N2 : (n * n = 24 / 100)%R) by (apply sqrt_sqrt; lra).
  apply Qlt_Rlt in Kp, Rp, Sp. rewrite RMicromega.Q2R_0 in *.
  assert (EK : Q2R k' = (2 * Q2R k)%R) by (rewrite (Qeq_eqR _ _ KK), Q2R_mult; f_equal; unfold Q2R; simpl; lra).
  assert (ER : Q2R r' = (2 * Q2R r)%R) by (rewrite (Qeq_eqR _ _ RR), Q2R_mult; f_equal; unfold Q2R; simpl; lra).
  assert (ES : Q2R s' = Q2R s) by (apply Qeq_eqR; auto).
  assert (NK : ~ k == 0) by (intro H; rewrite H, RMicromega.Q2R_0 in Kp; lra).
  assert (NR : ~ r == 0) by (intro H; rewrite H, RMicromega.Q2R_0 in Rp; lra).
  assert (NK' : ~ k' == 0) by (intro H; apply Qeq_eqR in H; rewrite EK, RMicromega.Q2R_0 in H; lra).
  assert (NR' : ~ r' == 0) by (intro H; apply Qeq_eqR in H; rewrite ER, RMicromega.Q2R_0 in H; lra).
  assert (I : (0 < / Q2R k)%R) by (apply Rinv_0_lt_compat; auto).
  assert (J : (0 < / Q2R r)%R) by (apply Rinv_0_lt_compat; auto).
  pose proof (u_p_min_value o k r K R0 NK NR n D) as M. pose proof (u_p_min_value o' k' r' K' R' NK' NR' n D') as M'.
  assert (L : (Q2R k / Q2R r * (n / Q2R k + 1 / 2) = (n + Q2R k / 2) * / Q2R r)%R) by (field; lra).
  assert (L' : (Q2R k' / Q2R r' * (n / Q2R k' + 1 / 2) = (n / 2 + Q2R k / 2) * / Q2R r)%R) by (rewrite EK, ER; field; lra).
  assert (LT : (0 < (n / 2 + Q2R k / 2) * / Q2R r < (n + Q2R k / 2) * / Q2R r)%R).
  { split; [apply Rmult_lt_0_compat; lra|apply Rmult_lt_compat_r; lra]. }
  split. { exists n. cbn [value_of]. rewrite D, D'. auto. }
  split.
  { exists (sqrt (n * n + - (1 / 12)) / Q2R k)%R. split; [apply Rmult_lt_0_compat; auto; apply sqrt_lt_R0; lra|].
    cbn [value_of]. unfold sigma_d. rewrite D, D', K, K'. cbn [bind]. unfold xsq, xq, xsub. cbn [xmul xneg xadd].
    rewrite Q2R_s2q, xsqrt_fin by lra. rewrite !xdiv_fin by lra. split; [auto|]. do 3 f_equal. rewrite EK. field. lra. }
  split.
  { cbn [value_of]. rewrite M, M', L, L'. do 2 eexists. split; [exact LT|auto]. }
  destruct (DR_value o k r K R0 NK NR n D s P) as (Q1 & _); [rewrite <- (Rmult_1_r (n / _)); unfold Rdiv; pose proof (Rmult_lt_0_compat _ _ N I); lra|].
  destruct (DR_value o' k' r' K' R' NK' NR' n D' s' P') as (Q1' & _).
  { assert (0 < / Q2R k')%R by (apply Rinv_0_lt_compat; lra). unfold Rdiv. pose proof (Rmult_lt_0_compat _ _ N H). lra. }
  cbn [value_of]. rewrite Q1, Q1', L, L', ES. do 2 eexists. split; [|auto].
  set (x := ((n / 2 + Q2R k / 2) * / Q2R r)%R) in *. set (y := ((n + Q2R k / 2) * / Q2R r)%R) in *.
  split; [apply Rmult_lt_0_compat; auto; apply Rinv_0_lt_compat; lra|].
  apply Rmult_lt_compat_l; auto. apply Rinv_lt_contravar; [apply Rmult_lt_0_compat; lra|lra].
Qed.

(** ** The dark noise in electrons *)
Lemma sigma_d_drift fs fs' h w g c t p fname fname' d d' es es' visit_t visit_s visit_t' visit_s' o o' :
  any_order visit_t -> any_order visit_s -> any_order visit_t' -> any_order visit_s' ->
  lists fname d es -> lists fname' d' es' -> complete_set fs h w es -> complete_set fs' h w es' ->
  (0 < g)%Z -> 0 < t -> 0 < p -> Forall2 (restated fs fs' (regraded g c) t p) es es' ->
  emva fs visit_t visit_s fname (Some d) = Ok (Some o) ->
  emva fs' visit_t' visit_s' fname' (Some d') = Ok (Some o') -> has_signal o ->
  above_floor (inject_Z g) o (length (r_texp (o_t o))) ->
  forall k s x, value_of F_K o = VQ (Ok k) -> ~ k == 0 -> value_of F_sigma_y_dark o = VX (Ok (XR s)) ->
    (24 / 100 <= s * s)%R -> value_of F_sigma_d o = VX (Ok (XR x)) ->
    exists x', value_of F_sigma_d o' = VX (Ok (XR x')) /\
      (Q2R k * x' * (Q2R k * x') = Q2R k * x * (Q2R k * x) + 1 / 12 - 1 / 12 / (IZR g * IZR g))%R.
Proof.
  intros VT VS VT' VS' L L' CS CS' G T P RE E E' HS AF k s x K NK SY S24 SD.
  destruct (restated_figures fs fs' h w g c t p fname fname' d d' es es' visit_t visit_s visit_t' visit_s'
    VT VS VT' VS' L L' CS CS' G T P RE) as (o1 & o1' & E1 & E1' & FO).
  rewrite E in E1. injection E1 as <-. rewrite E' in E1'. injection E1' as <-.
  assert (GQ : (Q2R (inject_Z g) = IZR g)%R) by (unfold Q2R; simpl; lra).
  assert (GP : (1 <= IZR g)%R) by (apply IZR_le; lia).
  cbn [value_of] in *. injection K as K. injection SY as SY. injection SD as SD.
  pose proof (FO F_K (or_intror HS) (or_introl eq_refl)) as FK.
  pose proof (FO F_sigma_y_dark (or_intror HS) (or_intror (or_intror (conj eq_refl AF)))) as FS.
  unfold follows in FK, FS. cbn [value_of dimension_of] in FK, FS. rewrite K in FK. rewrite SY in FS.
  unfold factor in FK, FS. cbn [d_grey d_photon d_time] in FK, FS.
  destruct (gain o') as [k'|e] eqn:K'; [|contradiction]. destruct (sigma_y_dark o') as [[s'|b|]|e] eqn:SY';
    cbn [times_value same_res times_x] in FK, FS; try contradiction; try discriminate.
  injection FS as FS. unfold times_q in FK.
  assert (F1 : inject_Z g ^ 1 * p ^ 0 * t ^ 0 == inject_Z g) by (simpl; ring). rewrite F1 in FK.
  assert (FS' : s' = (IZR g * s)%R).
  { rewrite FS, <- GQ. f_equal. apply Qeq_eqR. exact F1. }
  assert (EK : Q2R k' = (IZR g * Q2R k)%R) by (rewrite (Qeq_eqR _ _ FK), Q2R_mult, GQ; auto).
  assert (NK' : ~ k' == 0).
  { intro H. apply Qeq_eqR in H. rewrite EK, RMicromega.Q2R_0 in H. apply Rmult_integral in H. destruct H; [lra|].
    apply NK. apply eqR_Qeq. rewrite RMicromega.Q2R_0. auto. }
  destruct (sigma_d_value o s k SY S24 K NK) as (y & Y1 & Y2). rewrite Y1 in SD. injection SD as ->.
  destruct (sigma_d_value o' s' k' SY') as (y' & Y1' & Y2'); auto.
  { rewrite FS'. nra. }
  exists y'. split; [rewrite Y1'; auto|]. rewrite FS', EK in Y2'.
  assert (Z : (IZR g * IZR g * (Q2R k * y' * (Q2R k * y')) = IZR g * IZR g * (s * s) - 1 / 12)%R) by nra.
  assert (H : (Q2R k * y' * (Q2R k * y') = s * s - 1 / 12 / (IZR g * IZR g))%R).
  { apply (Rmult_eq_reg_l (IZR g * IZR g)); [rewrite Z; field; lra|nra]. }
  rewrite H. lra.
Qed.

(** ** Other units *)
(** Exposure times in microseconds instead of milliseconds, photons of half the area. *)
Definition unit_text : str := lit "n 8 2 1
b 1000 50
i c
i d
d 1000
i a
i b
b 2000 100
i e
i f
d 2000
i a
i b
b 3000 150
i g
i h
d 3000
i a
i b
b 4000 200
i i
i j
d 4000
i a
i b
b 2000 100
i e
i f
i e
d 2000
i a
i b
i a
".
Definition unit_entries : list entry :=
  [ent Temporal 1000 50 ["c"; "d"]%string; ent Temporal 1000 0 ["a"; "b"]%string;
   ent Temporal 2000 100 ["e"; "f"]%string; ent Temporal 2000 0 ["a"; "b"]%string;
   ent Temporal 3000 150 ["g"; "h"]%string; ent Temporal 3000 0 ["a"; "b"]%string;
   ent Temporal 4000 200 ["i"; "j"]%string; ent Temporal 4000 0 ["a"; "b"]%string;
   ent Spatial 2000 100 ["e"; "f"; "e"]%string; ent Spatial 2000 0 ["a"; "b"; "a"]%string].

Lemma unit_listed : lists set_file unit_text unit_entries.
Proof. listed unit_text. Qed.

Lemma unit_complete : complete_set set_fs 1 2 unit_entries.
Proof.
  constructor.
  - split; [lia|vm_compute; discriminate].
  - intros e H. each H; split; eexists; reflexivity.
  - intros e H. each H; vm_compute; discriminate.
  - intros e H. each H; (split; [vm_compute; lia|]);
      (eexists; split; [repeat (apply Forall2_cons; [reflexivity|]); apply Forall2_nil|]);
      repeat constructor; try (simpl; destruct c; vm_compute; congruence);
      simpl; destruct c; reflexivity.
  - intros e H T. each H; try discriminate T.
    all: match goal with |- exists d, _ /\ _ /\ _ /\ _ = ?e =>
      match e with e_exposure ?x => pose (t := e_exposure x) end end.
    all: vm_compute in t.
    all: match goal with
         | t := FFin (1000 # 1) |- _ => exists (ent Temporal 1000 0 ["a"; "b"]%string)
         | t := FFin (2000 # 1) |- _ => exists (ent Temporal 2000 0 ["a"; "b"]%string)
         | t := FFin (3000 # 1) |- _ => exists (ent Temporal 3000 0 ["a"; "b"]%string)
         | t := FFin (4000 # 1) |- _ => exists (ent Temporal 4000 0 ["a"; "b"]%string)
         end.
    all: split; [simpl; tauto|repeat split].
  - intros e H T. each H; try discriminate T.
    all: match goal with |- exists d, _ /\ _ /\ _ /\ _ = ?e =>
      match e with e_exposure ?x => pose (t := e_exposure x) end end.
    all: vm_compute in t.
    all: match goal with
         | t := FFin (1000 # 1) |- _ => exists (ent Temporal 1000 50 ["c"; "d"]%string)
         | t := FFin (2000 # 1) |- _ => exists (ent Temporal 2000 100 ["e"; "f"]%string)
         | t := FFin (3000 # 1) |- _ => exists (ent Temporal 3000 150 ["g"; "h"]%string)
         | t := FFin (4000 # 1) |- _ => exists (ent Temporal 4000 200 ["i"; "j"]%string)
         end.
    all: split; [simpl; tauto|split; [reflexivity|split; [discriminate|reflexivity]]].
  - right. intros e e' H H' T T' D D' E.
    each H; try discriminate T; try (exfalso; apply D; reflexivity);
      each H'; try discriminate T'; try discriminate E; try reflexivity; exfalso; apply D'; reflexivity.
  - exists (ent Spatial 2000 0 ["a"; "b"; "a"]%string), (ent Spatial 2000 100 ["e"; "f"; "e"]%string).
    split; [simpl; tauto|]. split; [simpl; tauto|]. split; [reflexivity|]. split; [reflexivity|].
    split; [reflexivity|]. split; [discriminate|]. split; [reflexivity|].
    intros e H S. each H; try discriminate S; auto.
Qed.

Lemma regraded_refl l : Forall2 (regraded 1 0) l l.
Proof. induction l; constructor; auto. split; [auto|]. split; [auto|]. intros. lia. Qed.

Lemma unit_restated : Forall2 (restated set_fs set_fs (regraded 1 0) 1000 (1 # 2)) set_entries unit_entries.
Proof.
  repeat apply Forall2_cons; try apply Forall2_nil; (split; [reflexivity|]); (split; [reflexivity|]); (split; [reflexivity|]);
    intros ims H; exists ims; (split; [exact H|apply regraded_refl]).
Qed.
