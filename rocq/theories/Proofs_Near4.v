(** Proofs for C102: the linear law of the simulated camera, and a camera of any number of
    pixels that meets the conditions. *)
From Coq Require Import List Bool Arith ZArith QArith Qreals Reals Lia Lra.
From Coquelicot Require Import Coquelicot.
From Flocq Require Import Core.
From Verif Require Import Base_Prelude Base_Num Base_Sum Base_SumR Base_Xreal Model_Images Model_Loader Model_Data
  Model_Results Model_Camera Model_Digit Spec_Images Spec_Data Spec_Results Spec_Chance Spec_Digit Spec_Linear Spec_Any
  Spec_Near Proofs_Digit Proofs_Data2 Proofs_Chance2 Proofs_Linear Proofs_Any Proofs_Any2 Proofs_Any3 Proofs_Any4 Proofs_Near
  Proofs_Near2 Proofs_Near3.
Import ListNotations.
Open Scope R_scope.

(** ** Enough pixels *)
Lemma enough_pixels n V M e d : 0 < e -> 0 < d -> exists N0, forall N, (N0 <= N)%nat -> (0 < N)%nat ->
  INR n / INR N * ((V + 2 * M) / (e * e) + 4 * V / e) <= d.
Proof.
  intros e0 d0. set (A := (V + 2 * M) / (e * e) + 4 * V / e).
  set (z := INR n * A / d). exists (Z.to_nat (up z)). intros N HN N0.
  assert (P : 0 < INR N) by (apply lt_0_INR; exact N0).
  assert (L : z <= INR N).
  { destruct (archimed z) as (Hz & _). destruct (Z_le_gt_dec 0 (up z)) as [H|H].
    - apply le_INR in HN. rewrite INR_IZR_INZ, Z2Nat.id in HN by exact H. lra.
    - assert (IZR (up z) <= 0) by (apply IZR_le; lia). lra. }
  apply Rmult_le_reg_r with (INR N); [exact P|].
  replace (INR n / INR N * A * INR N) with (INR n * A) by (field; lra).
  apply Rmult_le_compat_r with (r := d) in L; [|lra]. unfold z in L.
  replace (INR n * A / d * d) with (INR n * A) in L by (field; lra). lra.
Qed.

(** ** The law of the simulated camera *)
Lemma simulated_law W (C : chance W) O B D n h w T x V M p eta K (a d : nat -> setting) :
  measurement C O B D n h w T x V M -> (2 <= h * w)%nat -> (p < n)%nat -> 0 < eta -> 0 < K ->
  (forall i, (i <= p)%nat -> simulated C (a i) (B i) 2 h w /\ simulated C (d i) (D i) 2 h w /\
     same_but_light (a i) (d i) /\ st_K (a i) = K /\
     pixel_meanR h w (fun r c => st_light (a i) r c - st_light (d i) r c) = eta * x i) ->
  linear_law T x p eta K (1 / 4).
Proof.
  intros ME HN Hp E0 K0 SI.
  assert (N2 : 2 <= INR (h * w)) by (change 2 with (INR 2); apply le_INR; exact HN).
  assert (NI : 1 - 1 / INR (h * w) > 0).
  { apply Rmult_lt_reg_r with (INR (h * w)); [lra|]. rewrite Rmult_0_l.
    replace ((1 - 1 / INR (h * w)) * INR (h * w)) with (INR (h * w) - 1) by (field; lra). lra. }
  assert (X : forall i, (i <= p)%nat ->
    tr_mean T i - tr_dark_mean T i = K * (eta * x i) /\
    Rabs ((tr_var T i - tr_dark_var T i) - K * (tr_mean T i - tr_dark_mean T i)) <= 1 / 4).
  { intros i Hi. destruct (SI i Hi) as (SA & SD & SB & EK & EX).
    assert (Hi' : (i < n)%nat) by lia.
    destruct (me_bright _ _ _ _ _ _ _ _ _ _ _ ME i Hi') as (OK & mu & s2 & NP & -> & ->).
    destruct (me_dark _ _ _ _ _ _ _ _ _ _ _ ME i Hi') as (OK' & mu' & s2' & NP' & -> & ->).
    assert (HT : forall o, temporal_data_of (B i o) (the_data (B i o))).
    { intros o. destruct (me_computed _ _ _ _ _ _ _ _ _ _ _ ME o i Hi') as ((t & Ht & _) & _). apply (the_data_of _ t Ht). }
    assert (HT' : forall o, temporal_data_of (D i o) (the_data (D i o))).
    { intros o. destruct (me_computed _ _ _ _ _ _ _ _ _ _ _ ME o i Hi') as (_ & (t & Ht & _)). apply (the_data_of _ t Ht). }
    destruct (temporal_any_obj W C (B i) h w _ _ _ _ (np_series _ _ _ _ _ _ _ _ NP) ltac:(lia) OK HT) as (A1 & A2).
    destruct (temporal_any_obj W C (D i) h w _ _ _ _ (np_series _ _ _ _ _ _ _ _ NP') ltac:(lia) OK' HT') as (A3 & A4).
    rewrite (proj1 (zero_drift 2 ltac:(lia))), Rplus_0_r in A1.
    rewrite (proj1 (zero_drift 2 ltac:(lia))), Rplus_0_r in A3.
    destruct (sim_transfer W W C C (a i) (d i) (B i) (D i) h w _ _ SA SD SB ltac:(lia) OK OK' HT HT' _ _ _ _ A1 A2 A3 A4) as (M1 & M2).
    rewrite EX, EK in M1. split; [exact M1|]. rewrite EK in M2.
    fold (both s2) in M2. fold (both s2') in M2.
    set (g := 1 - 1 / INR (h * w)) in *.
    set (v := pixel_meanR h w (both s2)). set (v' := pixel_meanR h w (both s2')).
    set (dm := pixel_meanR h w mu - pixel_meanR h w mu') in *.
    assert (EQ : Rabs (g * v - g * v' - g * K * dm) = g * Rabs (v - v' - K * dm)).
    { rewrite <- (Rabs_pos_eq g) at 4 by lra. rewrite <- Rabs_mult. f_equal. ring. }
    apply Rmult_le_reg_l with g; [lra|]. rewrite <- EQ. fold v in M2. fold v' in M2. lra. }
  constructor; [exact E0|exact K0| |]; intros i Hi; apply X; exact Hi.
Qed.

(** ** A row of pixels, each of which tosses its coins *)
Definition mean4 (f : bool * bool -> R) : R := mean2 (fun a => mean2 (fun b => f (a, b))).
Definition set_at (o : nat -> bool * bool) (k : nat) (q : bool * bool) (i : nat) : bool * bool :=
  if (i =? k)%nat then q else o i.
Fixpoint row_mean (k : nat) (f : (nat -> bool * bool) -> R) : R :=
  match k with
  | O => f (fun _ => (false, false))
  | S k => mean4 (fun q => row_mean k (fun o => f (set_at o k q)))
  end.
Lemma mean4_ext f g : (forall q, f q = g q) -> mean4 f = mean4 g.
Proof. intros H. unfold mean4, mean2. rewrite !H. reflexivity. Qed.
Lemma row_ext k : forall f g, (forall o, f o = g o) -> row_mean k f = row_mean k g.
Proof. induction k; intros f g H; cbn [row_mean]; [apply H|]. apply mean4_ext. intros q. apply IHk. intros o. apply H. Qed.
Lemma row_plus k : forall f g, row_mean k (fun o => f o + g o) = row_mean k f + row_mean k g.
Proof.
  induction k; intros f g; cbn [row_mean]; [reflexivity|].
  rewrite (mean4_ext _ (fun q => row_mean k (fun o => f (set_at o k q)) + row_mean k (fun o => g (set_at o k q))));
    [|intros; apply IHk]. unfold mean4, mean2. field.
Qed.
Lemma row_scale k : forall c f, row_mean k (fun o => c * f o) = c * row_mean k f.
Proof.
  induction k; intros c f; cbn [row_mean]; [reflexivity|].
  rewrite (mean4_ext _ (fun q => c * row_mean k (fun o => f (set_at o k q)))); [|intros; apply IHk].
  unfold mean4, mean2. field.
Qed.
Lemma row_const k : forall c, row_mean k (fun _ => c) = c.
Proof.
  induction k; intros c; cbn [row_mean]; [reflexivity|].
  rewrite (mean4_ext _ (fun _ => c)); [|intros; apply IHk]. unfold mean4, mean2. field.
Qed.
Lemma row_le k : forall f g, (forall o, f o <= g o) -> row_mean k f <= row_mean k g.
Proof.
  induction k; intros f g H; cbn [row_mean]; [apply H|].
  unfold mean4, mean2.
  repeat match goal with |- (_ + _) / 2 <= (_ + _) / 2 => apply Rmult_le_compat_r; [lra|]; apply Rplus_le_compat end;
    apply IHk; intros o; apply H.
Qed.
Definition row (w : nat) : chance (nat -> bool * bool).
Proof.
  refine (mkChance _ (fun _ => True) (row_mean w) _ _ _ _ _ _ _); try (intros; exact I).
  - apply row_const.
  - intros. apply row_plus.
  - intros. apply row_scale.
  - intros. apply row_le. assumption.
Defined.

Lemma set_same o k q : set_at o k q k = q.
Proof. unfold set_at. rewrite Nat.eqb_refl. reflexivity. Qed.
Lemma set_other o k q i : i <> k -> set_at o k q i = o i.
Proof. intros H. unfold set_at. destruct (Nat.eqb_spec i k); [contradiction|reflexivity]. Qed.
Lemma row_one w c f : (c < w)%nat -> row_mean w (fun o => f (o c)) = mean4 f.
Proof.
  induction w as [|w IH]; intros H; [lia|]. cbn [row_mean]. destruct (Nat.eq_dec c w) as [->|N].
  - apply mean4_ext. intros q. rewrite (row_ext w _ (fun _ => f q)); [apply row_const|]. intros o. rewrite set_same. reflexivity.
  - rewrite (mean4_ext _ (fun _ => mean4 f)); [unfold mean4, mean2; field|].
    intros q. rewrite (row_ext w _ (fun o => f (o c))); [apply IH; lia|]. intros o. rewrite set_other by assumption. reflexivity.
Qed.
Lemma row_two w c d f g : (c < w)%nat -> (d < w)%nat -> c <> d ->
  row_mean w (fun o => f (o c) * g (o d)) = mean4 f * mean4 g.
Proof.
  revert c d f g. induction w as [|w IH]; intros c d f g Hc Hd N; [lia|]. cbn [row_mean].
  destruct (Nat.eq_dec c w) as [->|Nc]; [|destruct (Nat.eq_dec d w) as [->|Nd]].
  - rewrite (mean4_ext _ (fun q => f q * mean4 g)); [unfold mean4, mean2; field|].
    intros q. rewrite (row_ext w _ (fun o => f q * g (o d))).
    + rewrite row_scale, row_one by lia. reflexivity.
    + intros o. rewrite set_same, set_other by lia. reflexivity.
  - rewrite (mean4_ext _ (fun q => mean4 f * g q)); [unfold mean4, mean2; field|].
    intros q. rewrite (row_ext w _ (fun o => g q * f (o c))).
    + rewrite row_scale, row_one by lia. ring.
    + intros o. rewrite set_same, set_other by lia. ring.
  - rewrite (mean4_ext _ (fun _ => mean4 f * mean4 g)); [unfold mean4, mean2; field|].
    intros q. rewrite (row_ext w _ (fun o => f (o c) * g (o d))); [apply IH; lia|].
    intros o. rewrite !set_other by assumption. reflexivity.
Qed.

Lemma row_via1 w c f F : (forall o, F o = f (o c)) -> (c < w)%nat -> row_mean w F = mean4 f.
Proof. intros E H. rewrite (row_ext w _ _ E). apply row_one, H. Qed.
Lemma row_via2 w c d f g F : (forall o, F o = f (o c) * g (o d)) -> (c < w)%nat -> (d < w)%nat -> c <> d ->
  row_mean w F = mean4 f * mean4 g.
Proof. intros E H. rewrite (row_ext w _ _ E). apply row_two, H. Qed.

(** Images of grey value b plus or minus a. *)
Definition toss (l : nat) (q : bool * bool) : bool := match l with O => fst q | _ => snd q end.
Definition toss_value (b a : Z) (l : nat) (q : bool * bool) : Z := if toss l q then (b + a)%Z else (b - a)%Z.
Definition toss_image (w : nat) (b a : Z) (l : nat) (o : nat -> bool * bool) : image :=
  mkImg 1 w (fun _ c => toss_value b a l (o c)).
Definition toss_pair (w : nat) (b a : Z) (o : nat -> bool * bool) : list image :=
  [toss_image w b a 0 o; toss_image w b a 1 o].
Definition tossed (b a : Z) (l : nat) (q : bool * bool) : R := IZR (toss_value b a l q).
Lemma grey_toss w b a l r c o : (l < 2)%nat -> grey l r c (toss_pair w b a o) = tossed b a l (o c).
Proof. intros H. split_index l; reflexivity. Qed.
Lemma tossed_eq b a l q : tossed b a l q = IZR b + (if toss l q then IZR a else - IZR a).
Proof. unfold tossed, toss_value. destruct (toss l q); [apply plus_IZR|rewrite minus_IZR; ring]. Qed.

Lemma tossed_mean b a l : mean4 (tossed b a l) = IZR b.
Proof.
  rewrite (mean4_ext _ _ (tossed_eq b a l)). unfold mean4, mean2. destruct l; cbn [toss fst snd]; field.
Qed.
Section Toss.
Variables (w : nat) (b a : Z).
Lemma toss_mean l r c : (l < 2)%nat -> (c < w)%nat -> row_mean w (fun o => grey l r c (toss_pair w b a o)) = IZR b.
Proof.
  intros Hl Hc. rewrite (row_ext w _ (fun o => tossed b a l (o c))); [|intros; apply grey_toss, Hl].
  rewrite row_one by exact Hc. apply tossed_mean.
Qed.
Lemma toss_covar l r c l' r' c' : (l < 2)%nat -> (l' < 2)%nat -> (c < w)%nat -> (c' < w)%nat ->
  covar (row w) (fun o => grey l r c (toss_pair w b a o)) (fun o => grey l' r' c' (toss_pair w b a o)) =
  if ((l =? l') && (c =? c'))%nat then IZR a * IZR a else 0.
Proof.
  intros Hl Hl' Hc Hc'. unfold covar, row, expect. rewrite !toss_mean by assumption.
  destruct (Nat.eqb_spec c c') as [<-|N].
  - rewrite (row_via1 w c (fun q => (tossed b a l q - IZR b) * (tossed b a l' q - IZR b))); [|..|exact Hc].
    2:{ intros o. rewrite !grey_toss by assumption. reflexivity. }
    rewrite (mean4_ext _ (fun q =>
      (if toss l q then IZR a else - IZR a) * (if toss l' q then IZR a else - IZR a))) by (intros; rewrite !tossed_eq; ring).
    unfold mean4, mean2. split_index l; split_index l'; cbn [toss fst snd Nat.eqb andb]; field.
  - rewrite andb_false_r.
    rewrite (row_via2 w c c' (fun q => tossed b a l q - IZR b) (fun q => tossed b a l' q - IZR b)); try assumption.
    2:{ intros o. rewrite !grey_toss by assumption. reflexivity. }
    rewrite (mean4_ext (fun q => tossed b a l q - IZR b) (fun q => if toss l q then IZR a else - IZR a)) by (intros; rewrite tossed_eq; ring).
    replace (mean4 (fun q => if toss l q then IZR a else - IZR a)) with 0; [ring|].
    unfold mean4, mean2. destruct l; cbn [toss fst snd]; field.
Qed.
Lemma toss_series : random_series (row w) (toss_pair w b a) 2 1 w (fun _ _ => IZR b) (fun _ => 0) (fun _ _ _ => IZR a * IZR a).
Proof.
  constructor; try (intros; exact I).
  - reflexivity.
  - intros l r c Hl Hr Hc. rewrite Rplus_0_r. apply toss_mean; assumption.
  - intros l r c Hl Hr Hc. rewrite toss_covar by assumption. rewrite !Nat.eqb_refl. reflexivity.
  - intros l r c l' r' c' Hl Hr Hc Hl' Hr' Hc' N. rewrite toss_covar by assumption.
    destruct (Nat.eqb_spec l l') as [<-|]; [|reflexivity]. destruct (Nat.eqb_spec c c') as [<-|]; [|reflexivity].
    exfalso. apply N. f_equal. f_equal. lia.
Qed.
Definition tossed_change (q : bool * bool) : R := tossed b a 0 q - tossed b a 1 q.
Lemma change_toss r c o : change r c (toss_pair w b a o) = tossed_change (o c).
Proof. unfold change. rewrite !grey_toss by lia. reflexivity. Qed.
Lemma tossed_change_eq q : tossed_change q = (if fst q then IZR a else - IZR a) - (if snd q then IZR a else - IZR a).
Proof. unfold tossed_change. rewrite !tossed_eq. cbn [toss]. ring. Qed.
Lemma toss_noisy V M : IZR a * IZR a <= V -> 8 * (IZR a * IZR a) * (IZR a * IZR a) <= M ->
  noisy_pair (row w) (toss_pair w b a) 1 w (fun _ _ => IZR b) (fun _ _ _ => IZR a * IZR a) V M.
Proof.
  intros HV HM. constructor; try (intros; exact I).
  - exact toss_series.
  - intros. exact HV.
  - intros r c Hr Hc. unfold row, expect. eapply Rle_trans; [|exact HM]. apply Req_le.
    rewrite (row_via1 w c (fun q => (tossed_change q * tossed_change q) * (tossed_change q * tossed_change q))); [|..|exact Hc].
    2:{ intros o. rewrite change_toss. reflexivity. }
    unfold mean4, mean2. rewrite !tossed_change_eq. cbn [fst snd]. field.
  - intros r c r' c' Hr Hc Hr' Hc' N. assert (Nc : c <> c') by (intros ->; apply N; f_equal; lia).
    set (f := fun q => tossed_change q * tossed_change q).
    assert (E : forall r c, (c < w)%nat ->
      row_mean w (fun o => change r c (toss_pair w b a o) * change r c (toss_pair w b a o)) = mean4 f).
    { intros r1 c1 H1. apply (row_via1 w c1 f); [|exact H1]. intros o. rewrite change_toss. reflexivity. }
    unfold covar, row, expect. rewrite !E by assumption.
    rewrite (row_via2 w c c' (fun q => f q - mean4 f) (fun q => f q - mean4 f)); try assumption.
    2:{ intros o. rewrite !change_toss. reflexivity. }
    replace (mean4 (fun q => f q - mean4 f)) with 0; [ring|]. unfold mean4, mean2. field.
Qed.
Lemma toss_ok : (2 <= w)%nat -> (Z.of_nat w <= 2 ^ 29)%Z -> (0 <= a <= b)%Z -> (b + a < 65536)%Z ->
  forall o A B, toss_pair w b a o = [A; B] -> pair_ok 1 w A B.
Proof.
  intros W2 WL Ha Hb o A B E. injection E as <- <-. unfold pair_ok. rewrite Nat.mul_1_l.
  split; [lia|]. split; [exact WL|]. do 4 (split; [reflexivity|]).
  repeat (apply Forall_cons || apply Forall_nil); intros r c Hr Hc; cbn [toss_image px]; unfold toss_value;
    change (2 ^ 16)%Z with 65536%Z; destruct (toss _ _); lia.
Qed.
Lemma toss_true V M : (2 <= w)%nat -> (Z.of_nat w <= 2 ^ 29)%Z -> (0 <= a <= b)%Z -> (b + a < 65536)%Z ->
  IZR a * IZR a <= V -> 8 * (IZR a * IZR a) * (IZR a * IZR a) <= M ->
  true_pair (row w) (toss_pair w b a) 1 w V M (IZR b) (IZR a * IZR a).
Proof.
  intros W2 WL Ha Hb HV HM. split; [apply toss_ok; assumption|].
  exists (fun _ _ => IZR b), (fun _ _ _ => IZR a * IZR a). split; [apply toss_noisy; assumption|].
  assert (E : forall x, x = pixel_meanR 1 w (fun _ _ => x)).
  { intros x. rewrite (pixel_mean_ext 1 w _ (fun r c => x + 0 * 0)) by (intros; ring).
    rewrite (pixel_mean_affine 1 w x 0 (fun _ _ => 0)) by lia. ring. }
  split; [apply E|]. rewrite (E (IZR a * IZR a)) at 1. apply pixel_mean_ext. intros. unfold both. field.
Qed.
Lemma toss_summary : (2 <= w)%nat -> (Z.of_nat w <= 2 ^ 29)%Z -> (0 <= a <= b)%Z -> (b + a < 65536)%Z ->
  forall o, temporal_data_of (toss_pair w b a o) (the_data (toss_pair w b a o)).
Proof.
  intros W2 WL Ha Hb o.
  destruct (pair_estimators 1 w _ _ (toss_ok W2 WL Ha Hb o _ _ eq_refl)) as (r & E & _).
  change (get_int_imgs (toss_pair w b a o) = Ok r) in E. unfold the_data, temporal_data_of. rewrite E.
  exists r. split; reflexivity.
Qed.
Lemma toss_quiet : (2 <= w)%nat -> (Z.of_nat w <= 2 ^ 29)%Z -> (0 <= a <= b)%Z -> (b + a < 65536)%Z -> a = 0%Z ->
  forall o, (td_s2 (1 * w) (the_data (toss_pair w b a o)) == 0)%Q.
Proof.
  intros W2 WL Ha Hb E o. apply eqR_Qeq.
  destruct (pair_figures 1 w _ _ _ (toss_ok W2 WL Ha Hb o _ _ eq_refl) (toss_summary W2 WL Ha Hb o)) as (_ & ->).
  assert (DZ : forall k, diff 1 w (toss_pair w b a o) k = 0).
  { intros k. unfold diff. rewrite !grey_toss, !tossed_eq, E by lia. destruct (toss _ _), (toss _ _); ring. }
  change [toss_image w b a 0 o; toss_image w b a 1 o] with (toss_pair w b a o).
  rewrite (sumR_ext (1 * w) (diff 1 w (toss_pair w b a o)) (fun _ => 0)) by (intros; apply DZ).
  rewrite sumR_const.
  rewrite (sumR_ext (1 * w) _ (fun _ => 0)) by (intros; rewrite DZ; unfold Rdiv; ring).
  rewrite sumR_const. rewrite Q2R_0'. unfold Rdiv. ring.
Qed.

(** Simulation: no dark electrons, a * a light electrons on average, gain 1, offset 5. *)
Definition toss_setting (light : R) : setting :=
  mkSetting 8 1 5 100 0 (fun _ _ => light) (fun _ _ => 0) 0 0.
Lemma toss_simulated : (0 <= a)%Z -> (b = 5 + a * a)%Z -> (b + a <= 100)%Z ->
  simulated (row w) (toss_setting (IZR (a * a))) (toss_pair w b a) 2 1 w.
Proof.
  intros Ha Hb Hm.
  constructor.
  - reflexivity.
  - intros l r c Hl Hr Hc.
    set (t := fun _ : nat -> bool * bool => 0%Z). set (i := fun o : nat -> bool * bool => (toss_value b a l (o c) - 5)%Z).
    set (n := fun _ : nat -> bool * bool => 0).
    assert (EI : forall o, IZR (i o) = tossed b a l (o c) - 5) by (intros; unfold i; apply minus_IZR).
    assert (RI : forall o, (0 <= i o <= 95)%Z).
    { intros o. unfold i, toss_value. destruct (toss l (o c)); nia. }
    assert (MI : row_mean w (fun o => IZR (i o)) = IZR (a * a)).
    { rewrite (row_via1 w c (fun q => tossed b a l q - 5)); [|exact EI|exact Hc].
      rewrite (mean4_ext _ (fun q => IZR b - 5 + (if toss l q then IZR a else - IZR a))) by (intros; rewrite tossed_eq; ring).
      rewrite Hb, plus_IZR. unfold mean4, mean2. destruct l; cbn [toss fst snd]; field. }
    assert (DV : deliveries (row w) t i n 0 (IZR (a * a)) 0 0).
    { assert (Z1 : forall c, row_mean w (fun _ => c) = c) by apply row_const.
      constructor; try exact I; unfold covar, row, expect, t, n; rewrite ?MI, ?Z1; try reflexivity; try ring;
        try (etransitivity; [apply (row_ext w _ (fun _ => 0)); intros; ring|apply row_const]).
      - rewrite (row_via1 w c (fun q => (tossed b a l q - 5 - IZR (a * a)) * (tossed b a l q - 5 - IZR (a * a))));
          [|intros o; rewrite EI; reflexivity|exact Hc].
        rewrite (mean4_ext _ (fun q => (if toss l q then IZR a else - IZR a) * (if toss l q then IZR a else - IZR a))).
        + rewrite mult_IZR. unfold mean4, mean2. destruct l; cbn [toss fst snd]; field.
        + intros q. rewrite tossed_eq, Hb, plus_IZR. destruct (toss l q); ring. }
    assert (UC : unclipped (IZR (img_max 8)) 1 5 100 0 t i n).
    { intros o. change (img_max 8) with 255%Z. cbv zeta. unfold t, n. destruct (RI o) as (R1 & R2).
      apply IZR_le in R1. apply IZR_le in R2. lra. }
    exists t, i, n, (fun _ => 0). split; [exact DV|]. split; [exact UC|].
    destruct (integer_fair _ (row w) (toss_setting (IZR (a * a))) r c t i n (fun o => toss_value b a l (o c)) UC) as (F & V).
    { intros o. cbn [st_K st_dsnu st_offset toss_setting]. rewrite EI. unfold t, n, tossed. ring. }
    split; [exact F|]. split.
    { exact (linear_variance_exists (row w) t i n 0 (IZR (a * a)) 0 0 DV 8 1 5 100 _ UC I). }
    intros o. rewrite V. rewrite grey_toss by exact Hl. reflexivity.
  - intros l r c l' r' c' Hl Hr Hc Hl' Hr' Hc' N. split; [exact I|].
    exact (rs_uncorrelated _ _ _ _ _ _ _ _ toss_series l r c l' r' c' Hl Hr Hc Hl' Hr' Hc' N).
Qed.
End Toss.

(** Four points; the last one is saturated. *)
Definition row_level (i : nat) : Z * Z :=
  match i with O => (6, 1) | S O => (9, 2) | S (S O) => (14, 3) | _ => (17, 0) end%Z.
Definition row_bright (w i : nat) : (nat -> bool * bool) -> list image :=
  toss_pair w (fst (row_level i)) (snd (row_level i)).
Definition row_dark (w i : nat) : (nat -> bool * bool) -> list image := toss_pair w 5 0.
Definition row_photons (i : nat) : Q := match i with O => 2 | S O => 8 | S (S O) => 18 | _ => 40 end%Q.
Definition four (f : nat -> Q) : list Q := map f [0; 1; 2; 3]%nat.
Definition row_data (sp : spatial) (w : nat) (o : nat -> bool * bool) : robj :=
  mkObj (mkRT (four row_photons) (four row_photons)
    (four (fun i => td_mean (1 * w) (the_data (row_bright w i o))))
    (four (fun i => td_s2 (1 * w) (the_data (row_bright w i o))))
    (four (fun i => td_mean (1 * w) (the_data (row_dark w i o))))
    (four (fun i => td_s2 (1 * w) (the_data (row_dark w i o))))) sp None None.
Definition row_truth : truth :=
  mkTruth (fun i => IZR (fst (row_level i))) (fun i => IZR (snd (row_level i)) * IZR (snd (row_level i))) (fun _ => 5) (fun _ => 0 * 0).
Definition row_light (i : nat) : R := Q2R (row_photons i).

Lemma four_at f i : (i < 4)%nat -> at_ (four f) i = f i.
Proof. intros H. do 4 (destruct i as [|i]; [reflexivity|]). lia. Qed.
Lemma row_measurement sp w : (2 <= w)%nat -> (Z.of_nat w <= 2 ^ 29)%Z ->
  measurement (row w) (row_data sp w) (row_bright w) (row_dark w) 4 1 w row_truth row_light 9 648.
Proof.
  intros W2 WL.
  assert (RL : forall i, (0 <= snd (row_level i) <= 3)%Z /\ (snd (row_level i) <= fst (row_level i) <= 17)%Z).
  { intros i. do 3 (destruct i as [|i]; [simpl; lia|]). simpl; lia. }
  constructor.
  - intros o. repeat split.
  - intros o. reflexivity.
  - intros o i Hi. unfold photonsR, photons. cbn [row_data o_t r_up]. rewrite four_at by exact Hi. reflexivity.
  - intros i Hi. destruct (RL i) as (R1 & R2). cbn [row_truth tr_mean tr_var].
    assert (P : 0 <= IZR (snd (row_level i)) <= 3) by (split; apply IZR_le; lia).
    assert (Q : 0 <= IZR (snd (row_level i)) * IZR (snd (row_level i)) <= 9) by nra.
    apply toss_true; try assumption; try lia; nra.
  - intros i Hi. apply toss_true; try assumption; try lia; lra.
  - intros o i Hi. destruct (RL i) as (R1 & R2). cbn [row_data o_t r_uy r_s2y r_uydark r_s2ydark]. rewrite !four_at by exact Hi.
    split; [exists (the_data (row_bright w i o))|exists (the_data (row_dark w i o))].
    + split; [apply toss_summary; try assumption; lia|split; reflexivity].
    + split; [apply toss_summary; try assumption; lia|split; reflexivity].
  - intros o i Hi. cbn [row_truth tr_var]. intros E. destruct (RL i) as (R1 & R2).
    cbn [row_data o_t r_s2y]. rewrite four_at by exact Hi. apply toss_quiet; try assumption; try lia.
    apply Rmult_integral in E. destruct E as [E|E]; apply eq_IZR in E; exact E.
Qed.
Lemma row_law : linear_law row_truth row_light 2 (1 / 2) 1 (1 / 4).
Proof.
  constructor; try lra; intros i Hi; do 3 (destruct i as [|i]; [unfold row_light, Q2R; cbn; try apply Rabs_le; lra|]); lia.
Qed.
Definition row_setting (i : nat) : setting := toss_setting (IZR (snd (row_level i) * snd (row_level i))).
Definition row_dark_setting (i : nat) : setting := toss_setting (IZR (0 * 0)).
Lemma row_simulation w : (2 <= w)%nat -> forall i, (i <= 2)%nat ->
  simulated (row w) (row_setting i) (row_bright w i) 2 1 w /\ simulated (row w) (row_dark_setting i) (row_dark w i) 2 1 w /\ same_but_light (row_setting i) (row_dark_setting i) /\ st_K (row_setting i) = 1 /\ pixel_meanR 1 w (fun r c => st_light (row_setting i) r c - st_light (row_dark_setting i) r c) = 1 / 2 * row_light i.
Proof.
  intros W2 i Hi. split.
  - apply toss_simulated; do 3 (destruct i as [|i]; [cbn; lia|]); lia.
  - split; [apply toss_simulated; lia|]. split; [|split; [reflexivity|]]; [repeat split|].
    rewrite (pixel_mean_ext 1 w _ (fun r c => (IZR (snd (row_level i) * snd (row_level i)) - IZR (0 * 0)) + 0 * 0)).
    2:{ intros. cbn [row_setting row_dark_setting toss_setting st_light]. ring. }
    rewrite (pixel_mean_affine 1 w _ 0 (fun _ _ => 0)) by lia.
    do 3 (destruct i as [|i]; [unfold row_light, Q2R; cbn; lra|]). lia.
Qed.
Lemma row_clear : clear_points row_truth 4 2 (1 / 4).
Proof.
  constructor; try lia; try lra; try (intros i Hi; do 4 (destruct i as [|i]; [cbn; try lra; try lia|]); lia); try (cbn; lra).
Qed.

(** Measured values that deviate from the truth by at most 1/4. *)
Definition off_data (sp : spatial) : robj :=
  mkObj (mkRT [2; 8; 18; 40]%Q [2; 8; 18; 40]%Q [61 # 10; 9; 139 # 10; 17]%Q [11 # 10; 4; 44 # 5; 0]%Q
    [5; 5; 51 # 10; 5]%Q [0; 1 # 10; 0; 0]%Q) sp None None.
Lemma off_within sp : measured_within (off_data sp) row_truth 4 (1 / 4).
Proof.
  constructor; intros i Hi; do 4 (destruct i as [|i]; [unfold Q2R; cbn; apply Rabs_le; lra|]); lia.
Qed.
Lemma off_shaped sp : shaped (off_data sp) 4.
Proof. repeat split. Qed.
Lemma off_law sp : linear_law row_truth (photonsR (off_data sp)) 2 (1 / 2) 1 (1 / 4).
Proof.
  apply (law_ext row_truth row_light); [|exact row_law]. intros i Hi. do 3 (destruct i as [|i]; [reflexivity|]). lia.
Qed.
Lemma off_nonneg sp : List.Forall (fun v => (0 <= v)%Q) (r_s2y (o_t (off_data sp))).
Proof. repeat constructor; discriminate. Qed.
Lemma off_zero sp i : (i < 4)%nat -> tr_var row_truth i = 0 -> (at_ (r_s2y (o_t (off_data sp))) i == 0)%Q.
Proof. intros Hi. do 4 (destruct i as [|i]; [cbn; intros; try reflexivity; lra|]). lia. Qed.
Lemma off_near sp : near_linear (off_data sp) 4 2 (1 / 2) 1 (2 * (1 / 4)) (2 * (1 / 4) * (1 + 1) + 1 / 4).
Proof.
  apply (stable_near (off_data sp) row_truth 4 2 (1 / 2) 1 (1 / 4) (1 / 4)).
  - apply off_law.
  - exact row_clear.
  - apply off_within.
  - apply off_shaped.
  - reflexivity.
  - apply off_nonneg.
  - apply off_zero.
Qed.

Lemma stable_obj (o : robj) T n p eta K q e :
  linear_law T (photonsR o) p eta K q -> clear_points T n p e -> measured_within o T n e ->
  shaped o n -> unforced o -> List.Forall (fun v => (0 <= v)%Q) (r_s2y (o_t o)) ->
  (forall i, (i < n)%nat -> tr_var T i = 0 -> (at_ (r_s2y (o_t o)) i == 0)%Q) ->
  fst (index_u_ysat o) = Ok (Z.of_nat p) /\
  near_linear o n p eta K (2 * e) (2 * e * (1 + K) + q) /\
  right_within o p eta K q e.
Proof.
  intros. split; [eapply stable_sat; eassumption|]. split; [eapply stable_near; eassumption|].
  eapply stable_figures; eassumption.
Qed.
Lemma simulated_unlikely W (C : chance W) O B D n h w T x V M p eta K (a d : nat -> setting) e :
  measurement C O B D n h w T x V M -> (2 <= h * w)%nat -> 0 < eta -> 0 < K ->
  (forall i, (i <= p)%nat -> simulated C (a i) (B i) 2 h w /\ simulated C (d i) (D i) 2 h w /\
     same_but_light (a i) (d i) /\ st_K (a i) = K /\
     pixel_meanR h w (fun r c => st_light (a i) r c - st_light (d i) r c) = eta * x i) ->
  clear_points T n p e -> 0 < e ->
  unlikely C (fun o => ~ right_within (O o) p eta K (1 / 4) e)
    (INR n / INR (h * w) * ((V + 2 * M) / (e * e) + 4 * V / e)).
Proof.
  intros ME HN E0 K0 SI CL e0. pose proof (cl_points _ _ _ _ CL) as PN.
  apply (measured_unlikely C O B D n h w p T x V M eta K (1 / 4) e ME); try assumption.
  apply (simulated_law W C O B D n h w T x V M p eta K a d ME); try assumption. lia.
Qed.
Lemma pixels_suffice n V M e d : 0 < e -> 0 < d -> exists N0 : nat,
  forall W (C : chance W) O B D h w T x p eta K q,
  measurement C O B D n h w T x V M -> linear_law T x p eta K q -> clear_points T n p e ->
  (2 <= h * w)%nat -> (N0 <= h * w)%nat ->
  unlikely C (fun o => ~ right_within (O o) p eta K q e) d.
Proof.
  intros e0 d0. destruct (enough_pixels n V M e d e0 d0) as (N0 & HN0). exists N0. intros.
  eapply unlikely_mono; [|apply (HN0 (h * w)%nat); [assumption|lia]|eapply measured_unlikely; eassumption]. auto.
Qed.
