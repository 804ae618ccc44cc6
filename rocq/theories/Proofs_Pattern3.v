(** A case for C115: rows of pixels with alternating levels, each of which tosses its coins. *)
From Coq Require Import List Bool Arith ZArith QArith Qreals Reals Lia Lra.
From Verif Require Import Base_Prelude Base_Num Base_Sum Base_SumR Base_Xreal Base_Order Model_Images Model_Loader Model_Data
  Model_Results Spec_Images Spec_Data Spec_Results Spec_Chance Spec_Linear Spec_Any Spec_Near Spec_Pattern Proofs_Linear Proofs_Any
  Proofs_Any2 Proofs_Any3 Proofs_Near Proofs_Near2 Proofs_Near3 Proofs_Near4 Model_Camera Model_Digit Proofs_Any4 Proofs_Data Proofs_Data2 Proofs_Pattern Proofs_Pattern2.
Import ListNotations.
Open Scope R_scope.
Set Bullet Behavior "Strict Subproofs".

(** Even columns: grey value x0 plus or minus a0; odd columns: x1 plus or minus a1. *)
Record stripe := mkStripe { x0 : Z; a0 : Z; x1 : Z; a1 : Z }.
Definition level (z : stripe) (c : nat) : Z := if Nat.even c then x0 z else x1 z.
Definition amp (z : stripe) (c : nat) : Z := if Nat.even c then a0 z else a1 z.
Definition striped_image (w : nat) (z : stripe) (l : nat) (o : nat -> bool * bool) : image :=
  mkImg 1 w (fun _ c => toss_value (level z c) (amp z c) l (o c)).
Definition striped (w : nat) (z : stripe) (o : nat -> bool * bool) : list image :=
  [striped_image w z 0 o; striped_image w z 1 o].
Definition stripes (z : stripe) (r c : nat) : R := IZR (level z c).
Definition gap (z : stripe) : R := IZR (x1 z) - IZR (x0 z).

Section Striped.
Variables (k : nat) (z : stripe).
Hypothesis k1 : (1 <= k)%nat.
Hypothesis ok0 : (0 <= a0 z <= x0 z /\ x0 z + a0 z < 65536)%Z.
Hypothesis ok1 : (0 <= a1 z <= x1 z /\ x1 z + a1 z < 65536)%Z.
Notation w := (2 * k)%nat.

Lemma grey_striped l r c o : (l < 2)%nat -> grey l r c (striped w z o) = tossed (level z c) (amp z c) l (o c).
Proof. intros H. destruct l as [|[|l]]; [reflexivity|reflexivity|lia]. Qed.
Lemma striped_mean l r c : (l < 2)%nat -> (c < w)%nat ->
  row_mean w (fun o => grey l r c (striped w z o)) = stripes z r c.
Proof.
  intros Hl Hc. rewrite (row_via1 w c (tossed (level z c) (amp z c) l)); [apply tossed_mean| |exact Hc].
  intros o. apply grey_striped, Hl.
Qed.
Lemma striped_covar l r c l' r' c' : (l < 2)%nat -> (l' < 2)%nat -> (c < w)%nat -> (c' < w)%nat ->
  covar (row w) (fun o => grey l r c (striped w z o)) (fun o => grey l' r' c' (striped w z o)) =
  if ((l =? l') && (c =? c'))%nat then IZR (amp z c) * IZR (amp z c) else 0.
Proof.
  intros Hl Hl' Hc Hc'. unfold covar, row, expect. rewrite !striped_mean by assumption. unfold stripes.
  set (x := level z c). set (x' := level z c').
  destruct (Nat.eqb_spec c c') as [E|N].
  - subst c'. change x' with x.
    rewrite (row_via1 w c (fun q => (tossed x (amp z c) l q - IZR x) * (tossed x (amp z c) l' q - IZR x))); [|..|exact Hc].
    2:{ intros o. rewrite !grey_striped by assumption. reflexivity. }
    set (a := amp z c).
    rewrite (mean4_ext _ (fun q => (if toss l q then IZR a else - IZR a) * (if toss l' q then IZR a else - IZR a)))
      by (intros q; rewrite !tossed_eq; ring).
    unfold mean4, mean2. destruct l as [|[|l]]; [| |lia]; (destruct l' as [|[|l']]; [| |lia]);
      cbn [toss fst snd Nat.eqb andb]; field.
  - rewrite andb_false_r.
    rewrite (row_via2 w c c' (fun q => tossed x (amp z c) l q - IZR x) (fun q => tossed x' (amp z c') l' q - IZR x')); try assumption.
    2:{ intros o. rewrite !grey_striped by assumption. reflexivity. }
    rewrite (mean4_ext (fun q => tossed x (amp z c) l q - IZR x) (fun q => if toss l q then IZR (amp z c) else - IZR (amp z c)))
      by (intros q; rewrite tossed_eq; ring).
    replace (mean4 (fun q => if toss l q then IZR (amp z c) else - IZR (amp z c))) with 0; [ring|].
    unfold mean4, mean2. destruct l; cbn [toss fst snd]; field.
Qed.
Lemma striped_series : random_series (row w) (striped w z) 2 1 w (stripes z) (fun _ => 0) (fun _ _ c => IZR (amp z c) * IZR (amp z c)).
Proof.
  constructor; try (intros; exact I).
  - reflexivity.
  - intros l r c Hl Hr Hc. rewrite Rplus_0_r. apply striped_mean; assumption.
  - intros l r c Hl Hr Hc. rewrite striped_covar by assumption. rewrite !Nat.eqb_refl. reflexivity.
  - intros l r c l' r' c' Hl Hr Hc Hl' Hr' Hc' N. rewrite striped_covar by assumption.
    destruct (Nat.eqb_spec l l') as [E|]; [|reflexivity]. destruct (Nat.eqb_spec c c') as [E'|]; [|reflexivity].
    exfalso. apply N. subst. f_equal. f_equal. lia.
Qed.
Lemma level_range c : (0 <= amp z c <= level z c /\ level z c + amp z c < 65536)%Z.
Proof. unfold level, amp. destruct (Nat.even c); lia. Qed.
Lemma striped_documented o : documented 1 w (striped w z o).
Proof.
  split; [discriminate|]. split; [simpl; lia|]. split.
  - repeat (apply Forall_cons || apply Forall_nil); split; reflexivity.
  - repeat (apply Forall_cons || apply Forall_nil); intros r c Hr Hc; cbn [striped_image px]; unfold toss_value;
      pose proof (level_range c); change (2 ^ 16)%Z with 65536%Z; destruct (toss _ _); lia.
Qed.

(** Sums over the stripes. *)
Lemma sum_pairs f n : sumR (2 * n) f = sumR n (fun i => f (2 * i)%nat + f (2 * i + 1)%nat).
Proof.
  induction n; [reflexivity|]. replace (2 * S n)%nat with (S (S (2 * n)))%nat by lia. cbn [sumR]. rewrite IHn.
  replace (2 * n + 1)%nat with (S (2 * n)) by lia. ring.
Qed.
Lemma even_two i : Nat.even (2 * i) = true /\ Nat.even (2 * i + 1) = false.
Proof.
  replace (Nat.even (2 * i + 1)) with false by (rewrite Nat.add_1_r, Nat.even_succ, <- Nat.negb_even, Nat.even_mul; reflexivity).
  rewrite Nat.even_mul. split; reflexivity.
Qed.
Lemma striped_sum (f : nat -> R) (u v : R) : (forall i, f (2 * i)%nat = u) -> (forall i, f (2 * i + 1)%nat = v) ->
  sumR2 1 w (fun _ c => f c) = INR w * ((u + v) / 2).
Proof.
  intros U V. rewrite (sumR2_flat 1 w) by lia. rewrite Nat.mul_1_l. rewrite (sumR_ext w _ f).
  - rewrite sum_pairs. rewrite (sumR_ext k _ (fun _ => u + v)) by (intros; rewrite U, V; reflexivity).
    rewrite sumR_const, mult_INR. simpl (INR 2). field.
  - intros i Hi. rewrite Nat.mod_small by exact Hi. reflexivity.
Qed.
Let Nw : 0 < INR w. Proof. apply lt_0_INR. lia. Qed.
Lemma striped_pixel_mean (f : nat -> R) (u v : R) : (forall i, f (2 * i)%nat = u) -> (forall i, f (2 * i + 1)%nat = v) ->
  pixel_meanR 1 w (fun _ c => f c) = (u + v) / 2.
Proof. intros U V. unfold pixel_meanR. rewrite (striped_sum f u v U V), Nat.mul_1_l. field. lra. Qed.
Lemma striped_variance (f : nat -> R) (u v : R) : (forall i, f (2 * i)%nat = u) -> (forall i, f (2 * i + 1)%nat = v) ->
  spatial_varianceR 1 w (fun _ c => f c) = INR w / INR (w - 1) * ((v - u) * (v - u) / 4).
Proof.
  intros U V. unfold spatial_varianceR. rewrite (striped_pixel_mean f u v U V). rewrite Nat.mul_1_l.
  rewrite (striped_sum (fun c => (f c - (u + v) / 2) * (f c - (u + v) / 2)) ((v - u) * (v - u) / 4) ((v - u) * (v - u) / 4)).
  - field. apply not_0_INR. lia.
  - intros i. rewrite U. field.
  - intros i. rewrite V. field.
Qed.
Lemma share_ge : 1 <= INR w / INR (w - 1).
Proof.
  assert (P : 0 < INR (w - 1)) by (apply lt_0_INR; lia). assert (E : INR w = INR (w - 1) + 1) by (rewrite <- S_INR; f_equal; lia).
  apply (Rmult_le_reg_r (INR (w - 1))); [exact P|]. unfold Rdiv. rewrite Rmult_assoc, Rinv_l by lra. lra.
Qed.
Lemma level_even i : IZR (level z (2 * i)) = IZR (x0 z).
Proof. unfold level. rewrite (proj1 (even_two i)). reflexivity. Qed.
Lemma level_odd i : IZR (level z (2 * i + 1)) = IZR (x1 z).
Proof. unfold level. rewrite (proj2 (even_two i)). reflexivity. Qed.
Lemma stripes_mean : pixel_meanR 1 w (stripes z) = (IZR (x0 z) + IZR (x1 z)) / 2.
Proof. apply (striped_pixel_mean (fun c => IZR (level z c))); [apply level_even|apply level_odd]. Qed.
Lemma stripes_variance : spatial_varianceR 1 w (stripes z) = INR w / INR (w - 1) * (gap z * gap z / 4).
Proof. apply (striped_variance (fun c => IZR (level z c))); [apply level_even|apply level_odd]. Qed.

Lemma striped_noise V M D :
  IZR (a0 z) * IZR (a0 z) <= V -> IZR (a1 z) * IZR (a1 z) <= V ->
  IZR (a0 z) * IZR (a0 z) * (IZR (a0 z) * IZR (a0 z)) <= M -> IZR (a1 z) * IZR (a1 z) * (IZR (a1 z) * IZR (a1 z)) <= M ->
  Rabs (gap z) / 2 <= D ->
  pixel_noise (row w) (striped w z) 2 1 w (stripes z) V M D.
Proof.
  intros V0 V1 M0 M1 HD. constructor; try (intros; exact I).
  - intros r c r' c' f g Hr Hc Hr' Hc' N _ _ _.
    assert (Nc : c <> c') by (intros E; apply N; subst; f_equal; lia).
    set (F f c := fun q : bool * bool => f [toss_value (level z c) (amp z c) 0 q; toss_value (level z c) (amp z c) 1 q] : R).
    assert (E : forall f r c, (c < w)%nat -> row_mean w (fun o => f (history (striped w z o) r c)) = mean4 (F f c)).
    { intros f1 r1 c1 H1. apply (row_via1 w c1 (F f1 c1)); [reflexivity|exact H1]. }
    unfold covar, row, expect. rewrite !E by assumption.
    rewrite (row_via2 w c c' (fun q => F f c q - mean4 (F f c)) (fun q => F g c' q - mean4 (F g c'))); try assumption; [|reflexivity].
    replace (mean4 (fun q => F f c q - mean4 (F f c))) with 0; [ring|]. unfold mean4, mean2. field.
  - intros ((l, r), c) (Hl & Hr & Hc). unfold value. cbn [fst snd] in *. rewrite striped_covar by assumption.
    rewrite !Nat.eqb_refl. cbn [andb]. unfold amp. destruct (Nat.even c); assumption.
  - intros ((l, r), c) (Hl & Hr & Hc). unfold off_mean, value. cbn [fst snd] in *. unfold row, expect.
    set (x := level z c). set (a := amp z c).
    rewrite (row_via1 w c (fun q => ((tossed x a l q - IZR x) * (tossed x a l q - IZR x)) * ((tossed x a l q - IZR x) * (tossed x a l q - IZR x))));
      [|..|exact Hc].
    2:{ intros o. rewrite !grey_striped by assumption. reflexivity. }
    rewrite (mean4_ext _ (fun q => IZR a * IZR a * (IZR a * IZR a))).
    + unfold mean4, mean2. unfold a, amp. destruct (Nat.even c); lra.
    + intros q. rewrite tossed_eq. destruct (toss l q); ring.
  - intros r c Hr Hc. rewrite stripes_mean. eapply Rle_trans; [|exact HD]. unfold stripes, level.
    assert (E : Rabs (gap z) / 2 = Rabs (gap z / 2)) by (unfold Rdiv; rewrite Rabs_mult, (Rabs_pos_eq (/ 2)) by lra; reflexivity).
    rewrite E. apply Req_le. unfold gap. destruct (Nat.even c).
    + rewrite <- Rabs_Ropp. f_equal. field.
    + f_equal. field.
Qed.
Lemma striped_patterned V M D : pixel_noise (row w) (striped w z) 2 1 w (stripes z) V M D ->
  patterned (row w) (striped w z) 2 1 w (stripes z) V M D.
Proof. intros PN. split; [eexists; exact striped_series|]. split; [exact striped_documented|exact PN]. Qed.

Definition series_data (ims : list image) : sdata :=
  match get_int_imgs ims with
  | Ok r => match get_spatial_data 1 w r with Ok d => d | Err _ => mkS (mkImg 0 0 (fun _ _ => 0%Z)) 0 0 0 None None 0 None None end
  | Err _ => mkS (mkImg 0 0 (fun _ _ => 0%Z)) 0 0 0 None None 0 None None
  end.
Lemma striped_data o : spatial_data_of 1 w (striped w z o) (series_data (striped w z o)).
Proof.
  destruct (spatial_statistics 1 w (striped w z o) (striped_documented o)) as (r & d & Er & Ed & _); [simpl; lia|lia|].
  exists r. split; [exact Er|]. unfold series_data. rewrite Er, Ed. reflexivity.
Qed.

(** Simulation: offset 5, gain 1; the noise is that of the light. *)
Definition striped_setting (d1 : Z) : setting :=
  mkSetting 8 1 5 100 0 (fun _ c => IZR (amp z c * amp z c)) (fun _ c => if Nat.even c then 0 else IZR d1) 0 0.
Lemma striped_simulated d1 : (0 <= d1)%Z -> (x0 z = 5 + a0 z * a0 z)%Z -> (x1 z = 5 + d1 + a1 z * a1 z)%Z ->
  (x0 z + a0 z <= 100)%Z -> (x1 z + a1 z <= 100)%Z ->
  simulated (row w) (striped_setting d1) (striped w z) 2 1 w.
Proof.
  intros Hd Hx0 Hx1 Hm0 Hm1.
  constructor.
  - reflexivity.
  - intros l r c Hl Hr Hc. set (x := level z c). set (a := amp z c). set (d := (if Nat.even c then 0 else d1)%Z).
    assert (Hx : (x = 5 + d + a * a)%Z) by (unfold x, a, d, level, amp; destruct (Nat.even c); lia).
    assert (Hm : (0 <= d /\ 0 <= a /\ x + a <= 100)%Z) by (unfold x, a, d, level, amp; destruct (Nat.even c); lia).
    assert (Ed : st_dsnu (striped_setting d1) r c = IZR d) by (cbn [st_dsnu striped_setting]; unfold d; destruct (Nat.even c); reflexivity).
    set (t := fun _ : nat -> bool * bool => 0%Z). set (i := fun o : nat -> bool * bool => (toss_value x a l (o c) - 5 - d)%Z).
    set (n := fun _ : nat -> bool * bool => 0).
    assert (EI : forall o, IZR (i o) = tossed x a l (o c) - 5 - IZR d) by (intros; unfold i; rewrite !minus_IZR; reflexivity).
    assert (RI : forall o, (0 <= i o /\ i o + d <= 95)%Z).
    { intros o. unfold i, toss_value. destruct (toss l (o c)); nia. }
    assert (MI : row_mean w (fun o => IZR (i o)) = IZR (a * a)).
    { rewrite (row_via1 w c (fun q => tossed x a l q - 5 - IZR d)); [|exact EI|exact Hc].
      rewrite (mean4_ext _ (fun q => IZR x - 5 - IZR d + (if toss l q then IZR a else - IZR a))) by (intros; rewrite tossed_eq; ring).
      rewrite Hx, !plus_IZR. unfold mean4, mean2. destruct l; cbn [toss fst snd]; field. }
    assert (DV : deliveries (row w) t i n 0 (IZR (a * a)) 0 0).
    { assert (Z1 : forall c, row_mean w (fun _ => c) = c) by apply row_const.
      constructor; try exact I; unfold covar, row, expect, t, n; rewrite ?MI, ?Z1; try reflexivity; try ring;
        try (etransitivity; [apply (row_ext w _ (fun _ => 0)); intros; ring|apply row_const]).
      - rewrite (row_via1 w c (fun q => (tossed x a l q - 5 - IZR d - IZR (a * a)) * (tossed x a l q - 5 - IZR d - IZR (a * a))));
          [|intros o; rewrite EI; reflexivity|exact Hc].
        rewrite (mean4_ext _ (fun q => (if toss l q then IZR a else - IZR a) * (if toss l q then IZR a else - IZR a))).
        + rewrite mult_IZR. unfold mean4, mean2. destruct l; cbn [toss fst snd]; field.
        + intros q. rewrite tossed_eq, Hx, !plus_IZR. destruct (toss l q); ring. }
    assert (UC : unclipped (IZR (img_max 8)) 1 5 100 (IZR d) t i n).
    { intros o. change (img_max 8) with 255%Z. cbv zeta. unfold t, n. destruct (RI o) as (R1 & R2).
      apply IZR_le in R1. apply IZR_le in R2. rewrite plus_IZR in R2.
      assert (0 <= IZR d) by (apply (IZR_le 0); lia). lra. }
    exists t, i, n, (fun _ => 0). split; [exact DV|].
    rewrite <- Ed in UC. split; [exact UC|].
    destruct (integer_fair _ (row w) (striped_setting d1) r c t i n (fun o => toss_value x a l (o c)) UC) as (F & V).
    { intros o. rewrite Ed. cbn [st_K st_offset striped_setting]. rewrite EI. unfold t, n, tossed. ring. }
    split; [exact F|]. split.
    { exact (linear_variance_exists (row w) t i n 0 (IZR (a * a)) 0 0 DV 8 1 5 100 _ UC I). }
    intros o. rewrite V. rewrite grey_striped by exact Hl. reflexivity.
  - intros l r c l' r' c' Hl Hr Hc Hl' Hr' Hc' N. split; [exact I|].
    exact (rs_uncorrelated _ _ _ _ _ _ _ _ striped_series l r c l' r' c' Hl Hr Hc Hl' Hr' Hc' N).
Qed.
End Striped.

Definition bright_stripes : stripe := mkStripe 9 2 23 4.
Definition dark_stripes : stripe := mkStripe 5 0 7 0.
Definition striped_spatial (k : nat) (o : nat -> bool * bool) : spatial :=
  mkSpatial (FFin 1%Q) (FFin 100%Q) (series_data k (striped (2 * k) dark_stripes o)) (series_data k (striped (2 * k) bright_stripes o)).
(** The temporal data of [row_data], the spatial data of the stripes. *)
Definition striped_obj (k : nat) (o : nat -> bool * bool) : robj := row_data (striped_spatial k o) (2 * k) o.

Lemma striped_case k : (1 <= k)%nat ->
  (patterned (row (2 * k)) (striped (2 * k) bright_stripes) 2 1 (2 * k) (stripes bright_stripes) 16 256 7 /\
   patterned (row (2 * k)) (striped (2 * k) dark_stripes) 2 1 (2 * k) (stripes dark_stripes) 0 0 1) /\
  ((forall o, spatial_data_of 1 (2 * k) (striped (2 * k) bright_stripes o) (sp_bright (o_s (striped_obj k o)))) /\
   (forall o, spatial_data_of 1 (2 * k) (striped (2 * k) dark_stripes o) (sp_dark (o_s (striped_obj k o))))) /\
  1 / 2 <= spatial_varianceR 1 (2 * k) (stripes dark_stripes) /\
  2 * (1 / 2) <= spatial_varianceR 1 (2 * k) (stripes bright_stripes) - spatial_varianceR 1 (2 * k) (stripes dark_stripes) /\
  2 * (1 / 2) < pixel_meanR 1 (2 * k) (stripes bright_stripes) - pixel_meanR 1 (2 * k) (stripes dark_stripes).
Proof.
  intros k1. assert (G := share_ge k k1).
  rewrite !stripes_variance, !stripes_mean by exact k1. unfold gap. cbn [x0 x1 bright_stripes dark_stripes].
  split; [split|split; [split|]].
  - apply striped_patterned; cbn [x0 x1 a0 a1 bright_stripes]; try lia.
    apply striped_noise; cbn [x0 x1 a0 a1 bright_stripes]; try lia; try lra.
    unfold gap. cbn [x0 x1 bright_stripes]. rewrite Rabs_pos_eq; lra.
  - apply striped_patterned; cbn [x0 x1 a0 a1 dark_stripes]; try lia.
    apply striped_noise; cbn [x0 x1 a0 a1 dark_stripes]; try lia; try lra.
    unfold gap. cbn [x0 x1 dark_stripes]. rewrite Rabs_pos_eq; lra.
  - intros o. apply striped_data; cbn [x0 x1 a0 a1 bright_stripes]; lia.
  - intros o. apply striped_data; cbn [x0 x1 a0 a1 dark_stripes]; lia.
  - split; [|split]; lra.
Qed.

Lemma striped_odds w : 500000 <= INR w -> total_odds 2 2 1 w 16 256 7 0 0 1 (1 / 2) <= 1 / 2.
Proof.
  intros H. unfold total_odds, pattern_odds, level_odds. rewrite Nat.mul_1_l. simpl (INR 2).
  match goal with |- ?x <= _ => replace x with (233632 / INR w) by (field; lra) end.
  apply (Rmult_le_reg_r (INR w)); [lra|]. unfold Rdiv at 1. rewrite Rmult_assoc, Rinv_l by lra. lra.
Qed.

(** The same as a simulation. *)
Definition bright_setting := striped_setting bright_stripes 2.
Definition dark_setting := striped_setting dark_stripes 2.
Lemma striped_simulation k : (1 <= k)%nat ->
  simulated (row (2 * k)) bright_setting (striped (2 * k) bright_stripes) 2 1 (2 * k) /\
  simulated (row (2 * k)) dark_setting (striped (2 * k) dark_stripes) 2 1 (2 * k) /\
  same_but_light bright_setting dark_setting /\
  (forall r c, st_light dark_setting r c = 0) /\
  (forall r c, model_mean bright_setting r c = stripes bright_stripes r c) /\
  (forall r c, model_mean dark_setting r c = stripes dark_stripes r c).
Proof.
  intros k1. split; [|split; [|split; [|split; [|split]]]].
  - apply striped_simulated; cbn [x0 x1 a0 a1 bright_stripes]; lia.
  - apply striped_simulated; cbn [x0 x1 a0 a1 dark_stripes]; lia.
  - repeat split.
  - intros r c. cbn [st_light dark_setting striped_setting]. unfold amp. cbn [a0 a1 dark_stripes]. destruct (Nat.even c); reflexivity.
  - intros r c. unfold model_mean, stripes, level, bright_setting, striped_setting, amp.
    cbn [st_offset st_K st_dark st_light st_dsnu st_mu x0 x1 a0 a1 bright_stripes]. destruct (Nat.even c); simpl; ring.
  - intros r c. unfold model_mean, stripes, level, dark_setting, striped_setting, amp.
    cbn [st_offset st_K st_dark st_light st_dsnu st_mu x0 x1 a0 a1 dark_stripes]. destruct (Nat.even c); simpl; ring.
Qed.

Lemma noise_ext W (C : chance W) S L h w mu mu' V M D : (forall r c, mu r c = mu' r c) ->
  pixel_noise C S L h w mu V M D -> pixel_noise C S L h w mu' V M D.
Proof.
  intros E [A1 A2 A3 A4 A5 A6]. constructor; try assumption.
  - intros p Hp. eapply Rle_trans; [|apply (A5 p Hp)]. apply Req_le, exp_ext. intros o. unfold off_mean. rewrite E. reflexivity.
  - intros r c Hr Hc. rewrite <- (pixel_mean_ext h w mu mu') by (intros; apply E). rewrite <- E. apply A6; assumption.
Qed.

(** Both measurements in one object. *)
Lemma striped_measurement k : (1 <= k)%nat -> (Z.of_nat (2 * k) <= 2 ^ 29)%Z ->
  measurement (row (2 * k)) (striped_obj k) (row_bright (2 * k)) (row_dark (2 * k)) 4 1 (2 * k) row_truth row_light 9 648.
Proof.
  intros k1 Hk. assert (R := fun sp => row_measurement sp (2 * k) ltac:(lia) Hk). constructor.
  - intros o. apply (me_shape _ _ _ _ _ _ _ _ _ _ _ (R (striped_spatial k o)) o).
  - intros o. apply (me_unforced _ _ _ _ _ _ _ _ _ _ _ (R (striped_spatial k o)) o).
  - intros o i Hi. apply (me_light _ _ _ _ _ _ _ _ _ _ _ (R (striped_spatial k o)) o i Hi).
  - apply (me_bright _ _ _ _ _ _ _ _ _ _ _ (R (striped_spatial k (fun _ => (true, true))))).
  - apply (me_dark _ _ _ _ _ _ _ _ _ _ _ (R (striped_spatial k (fun _ => (true, true))))).
  - intros o i Hi. apply (me_computed _ _ _ _ _ _ _ _ _ _ _ (R (striped_spatial k o)) o i Hi).
  - intros o i Hi. apply (me_clipped _ _ _ _ _ _ _ _ _ _ _ (R (striped_spatial k o)) o i Hi).
Qed.
