From Coq Require Import Ascii String List Bool Arith ZArith QArith Qpower Reals Qreals Lia Lra.
From Flocq Require Import Core.
From Verif Require Import Base_Prelude Base_Str Base_Num Spec_Num Proofs_Round.
Import ListNotations.
Open Scope Z_scope.

Lemma digit_val_digit c d : digit c d -> digit_val c = Some d.
Proof. destruct 1; reflexivity. Qed.

Lemma digit_digit_val c d : digit_val c = Some d -> digit c d.
Proof.
  destruct c as [[] [] [] [] [] [] [] []]; intro H; vm_compute in H; try discriminate H;
    injection H as <-; constructor.
Qed.

Lemma digit_not_under : forall d, ~ digit "_" d.
Proof. intros d H. inversion H. Qed.

(** The accumulating reader against [spells]. *)
Lemma value_app ds es :
  value (ds ++ es) = value ds * 10 ^ Z.of_nat (length es) + value es.
Proof.
  induction ds as [|d ds IH]; simpl; auto.
  rewrite IH, app_length, Nat2Z.inj_add, Z.pow_add_r by lia. ring.
Qed.

Lemma dpart_aux_spells s ds :
  spells s ds -> forall prev acc n,
  dpart_aux prev acc n s = Some (acc * 10 ^ Z.of_nat (length ds) + value ds, (n + length ds)%nat).
Proof.
  induction 1 as [c d Hc|c d s ds Hc H IH|c d s ds Hc H IH]; intros prev acc n.
  - cbn [dpart_aux]. rewrite (digit_val_digit _ _ Hc). cbn [length value].
    change (10 ^ Z.of_nat 1) with 10. change (10 ^ Z.of_nat 0) with 1.
    f_equal. f_equal; lia.
  - cbn [dpart_aux]. rewrite (digit_val_digit _ _ Hc). rewrite IH.
    cbn [length value]. f_equal. f_equal; [|lia].
    rewrite Nat2Z.inj_succ, Z.pow_succ_r by lia. ring.
  - cbn [dpart_aux]. rewrite (digit_val_digit _ _ Hc).
    change (digit_val "_") with (@None Z). cbv iota. simpl andb. cbv iota. rewrite IH.
    cbn [length value]. f_equal. f_equal; [|lia].
    rewrite Nat2Z.inj_succ, Z.pow_succ_r by lia. ring.
Qed.

Lemma dpart_aux_inv s : forall prev acc n v k,
  dpart_aux prev acc n s = Some (v, k) ->
  (s = [] /\ prev = true /\ v = acc /\ k = n) \/
  (exists ds, spells s ds) \/ (prev = true /\ exists s' ds, s = "_"%char :: s' /\ spells s' ds).
Proof.
  induction s as [|c s IH]; intros prev acc n v k H.
  - simpl in H. destruct prev; [|discriminate]. injection H as <- <-. auto.
  - right. cbn [dpart_aux] in H. destruct (digit_val c) as [d|] eqn:E.
    + apply digit_digit_val in E. left. apply IH in H.
      destruct H as [(-> & _)|[(ds & Hs)|(_ & s' & ds & -> & Hs)]].
      * exists [d]. constructor. auto.
      * exists (d :: ds). apply sp_cons; auto.
      * exists (d :: ds). apply sp_under; auto.
    + destruct (chr_eqb c "_" && prev)%bool eqn:F; [|discriminate].
      apply andb_true_iff in F. destruct F as (F & ->). apply chr_eqb_eq in F. subst c.
      right. split; auto. apply IH in H.
      destruct H as [(_ & H & _)|[(ds & Hs)|(H & _)]]; try discriminate.
      exists s, ds. auto.
Qed.

Lemma dpart_spells acc s ds :
  spells s ds -> dpart acc s = Some (acc * 10 ^ Z.of_nat (length ds) + value ds, length ds).
Proof. intro H. unfold dpart. rewrite (dpart_aux_spells s ds H). reflexivity. Qed.

Lemma dpart_inv acc s v k :
  dpart acc s = Some (v, k) ->
  exists ds, spells s ds /\ v = acc * 10 ^ Z.of_nat (length ds) + value ds /\ k = length ds.
Proof.
  intro H. pose proof H as H0. apply dpart_aux_inv in H.
  destruct H as [(_ & H & _)|[(ds & Hs)|(H & _)]]; try discriminate.
  exists ds. rewrite (dpart_spells acc s ds Hs) in H0. injection H0 as <- <-. auto.
Qed.

(** Characters that occur in spelled digits. *)
Definition spelled_char (c : ascii) : Prop := c = "_"%char \/ exists d, digit c d.

Lemma spells_chars s ds : spells s ds -> Forall spelled_char s.
Proof.
  induction 1; repeat apply Forall_cons; auto;
    try (right; eexists; eassumption); try (left; reflexivity).
Qed.

Lemma spells_nonnil s ds : spells s ds -> s <> [].
Proof. destruct 1; discriminate. Qed.

Lemma cut_none p s : Forall (fun c => p c = false) s -> cut p s = (s, None).
Proof.
  induction 1 as [|c s Hc H IH]; simpl; auto. rewrite Hc, IH. reflexivity.
Qed.

Lemma cut_some p s c t : Forall (fun c => p c = false) s -> p c = true ->
  cut p (s ++ c :: t) = (s, Some t).
Proof.
  intros H Hc. induction H as [|x s Hx H IH]; simpl.
  - rewrite Hc. reflexivity.
  - rewrite Hx, IH. reflexivity.
Qed.

Lemma cut_inv p s a b : cut p s = (a, b) ->
  Forall (fun c => p c = false) a /\
  match b with None => s = a | Some t => exists c, p c = true /\ s = a ++ c :: t end.
Proof.
  revert a b; induction s as [|x s IH]; simpl; intros a b H.
  - injection H as <- <-. auto.
  - destruct (p x) eqn:E.
    + injection H as <- <-. split; auto. exists x. auto.
    + destruct (cut p s) as (a' & b') eqn:F. injection H as <- <-.
      destruct (IH a' b' eq_refl) as (H1 & H2). split; auto.
      destruct b' as [t|]; [|congruence]. destruct H2 as (c & Hc & ->). exists c. auto.
Qed.

Lemma spelled_not c x :
  spelled_char c -> (x = "."%char \/ x = "e"%char \/ x = "E"%char \/ x = "+"%char \/ x = "-"%char) ->
  chr_eqb c x = false.
Proof.
  intros Hc Hx. apply chr_eqb_neq. intros ->.
  destruct Hc as [F|(d & F)].
  - destruct Hx as [Hx|[Hx|[Hx|[Hx|Hx]]]]; rewrite Hx in F; discriminate.
  - destruct Hx as [Hx|[Hx|[Hx|[Hx|Hx]]]]; rewrite Hx in F; inversion F.
Qed.

Lemma spells_no_dot s ds : spells s ds -> Forall (fun c => chr_eqb c "." = false) s.
Proof.
  intro H. eapply Forall_impl; [|apply (spells_chars _ _ H)].
  intros c Hc. apply spelled_not; auto.
Qed.

Lemma mantissa_spec m ip fp :
  mantissa m ip fp -> py_mantissa m = Some (value (ip ++ fp), length fp).
Proof.
  unfold py_mantissa. destruct 1 as [s ds H|s ds H|s ds H|s ds t es H1 H2].
  - rewrite cut_none by (eapply spells_no_dot; eauto).
    rewrite (dpart_spells 0 _ _ H), app_nil_r. simpl. reflexivity.
  - rewrite cut_some by (try reflexivity; eapply spells_no_dot; eauto).
    destruct s as [|c s]; [destruct (spells_nonnil _ _ H eq_refl)|].
    rewrite (dpart_spells 0 _ _ H), app_nil_r. simpl. reflexivity.
  - change ("."%char :: s) with ([] ++ "."%char :: s). rewrite cut_some by (auto; reflexivity).
    destruct s as [|c s]; [destruct (spells_nonnil _ _ H eq_refl)|].
    rewrite (dpart_spells 0 _ _ H). simpl. reflexivity.
  - rewrite cut_some by (try reflexivity; eapply spells_no_dot; eauto).
    destruct s as [|c s]; [destruct (spells_nonnil _ _ H1 eq_refl)|].
    destruct t as [|c' t]; [destruct (spells_nonnil _ _ H2 eq_refl)|].
    rewrite (dpart_spells 0 _ _ H1), (dpart_spells _ _ _ H2), value_app. reflexivity.
Qed.

Lemma mantissa_inv m v f :
  py_mantissa m = Some (v, f) ->
  exists ip fp, mantissa m ip fp /\ v = value (ip ++ fp) /\ f = length fp.
Proof.
  unfold py_mantissa. destruct (cut (fun c => chr_eqb c ".") m) as (a & b) eqn:E.
  destruct (cut_inv _ _ _ _ E) as (_ & Hb). destruct b as [t|].
  - destruct Hb as (c & Hc & ->). apply chr_eqb_eq in Hc. subst c.
    destruct a as [|x a].
    + destruct t as [|y t]; [discriminate|]. intro H. apply dpart_inv in H.
      destruct H as (ds & Hs & -> & ->). exists [], ds. split; [apply (mt_frac _ _ Hs)|]. auto.
    + destruct t as [|y t].
      * destruct (dpart 0 (x :: a)) as [(w & k)|] eqn:F; [|discriminate]. intro H. injection H as <- <-.
        apply dpart_inv in F. destruct F as (ds & Hs & -> & ->).
        exists ds, []. split; [apply (mt_dot _ _ Hs)|]. rewrite app_nil_r. auto.
      * destruct (dpart 0 (x :: a)) as [(w & k)|] eqn:F; [|discriminate]. intro H.
        apply dpart_inv in F. destruct F as (ds & Hs & -> & ->).
        apply dpart_inv in H. destruct H as (es & Ht & -> & ->).
        exists ds, es. split; [apply (mt_both _ _ _ _ Hs Ht)|]. rewrite value_app. auto.
  - subst a. destruct (dpart 0 m) as [(w & k)|] eqn:F; [|discriminate]. intro H. injection H as <- <-.
    apply dpart_inv in F. destruct F as (ds & Hs & -> & ->).
    exists ds, []. split; [apply (mt_int _ _ Hs)|]. rewrite app_nil_r. auto.
Qed.

Lemma take_sign_spec g sg s :
  sign g sg -> (forall c s', s = c :: s' -> c <> "+"%char /\ c <> "-"%char) ->
  take_sign (g ++ s) = (sg <? 0, s).
Proof.
  intros H Hs. destruct H; simpl; auto.
  destruct s as [|c s]; auto. destruct (Hs c s eq_refl) as (H1 & H2).
  unfold take_sign. rewrite (proj2 (chr_eqb_neq _ _) H1), (proj2 (chr_eqb_neq _ _) H2). reflexivity.
Qed.

Lemma take_sign_inv s neg s' :
  take_sign s = (neg, s') -> exists g sg, sign g sg /\ s = g ++ s' /\ neg = (sg <? 0) /\
  (sg = 1 \/ sg = -1).
Proof.
  destruct s as [|c s]; simpl.
  - intro H. injection H as <- <-. exists [], 1. repeat split; auto. constructor.
  - destruct (chr_eqb c "-") eqn:E; [|destruct (chr_eqb c "+") eqn:F]; intro H; injection H as <- <-.
    + apply chr_eqb_eq in E. subst. exists ["-"%char], (-1). repeat split; auto. constructor.
    + apply chr_eqb_eq in F. subst. exists ["+"%char], 1. repeat split; auto. constructor.
    + exists [], 1. repeat split; auto. constructor.
Qed.

Lemma spells_head s ds c s' : spells s ds -> s = c :: s' -> c <> "+"%char /\ c <> "-"%char.
Proof.
  intros H ->. apply spells_chars in H. inversion H as [|? ? Hc]; subst.
  split; apply chr_eqb_neq; apply spelled_not; auto.
Qed.

Lemma sign_flip sg v : (sg = 1 \/ sg = -1) -> (if sg <? 0 then - v else v) = sg * v.
Proof. intros [-> | ->]; cbn [Z.ltb Z.compare]; cbv iota; lia. Qed.

Lemma sign_pm g sg : sign g sg -> sg = 1 \/ sg = -1.
Proof. destruct 1; auto. Qed.

Lemma py_int_spec g sg s ds :
  sign g sg -> spells s ds -> py_int (g ++ s) = Some (sg * value ds).
Proof.
  intros Hg Hs. unfold py_int. rewrite (take_sign_spec g sg s Hg).
  - rewrite (dpart_spells 0 s ds Hs). rewrite sign_flip by (eapply sign_pm; eauto). f_equal; ring.
  - intros. eapply spells_head; eauto.
Qed.

Lemma py_int_inv t v :
  py_int t = Some v -> exists g sg s ds, t = g ++ s /\ sign g sg /\ spells s ds /\ v = sg * value ds.
Proof.
  unfold py_int. destruct (take_sign t) as (neg & s) eqn:E.
  destruct (take_sign_inv _ _ _ E) as (g & sg & Hg & Ht & Hn & Hsg).
  destruct (dpart 0 s) as [(w & k)|] eqn:F; [|discriminate]. intro H. injection H as <-.
  apply dpart_inv in F. destruct F as (ds & Hs & -> & _).
  exists g, sg, s, ds. repeat split; auto. subst neg. rewrite sign_flip by auto. ring.
Qed.

Lemma pow10_q_ten e : (pow10_q e == ten_to e)%Q.
Proof.
  unfold pow10_q, ten_to. destruct (0 <=? e) eqn:E.
  - apply Z.leb_le in E. change (10 ^ e # 1)%Q with (inject_Z (10 ^ e)).
    rewrite Zpower_Qpower by auto. reflexivity.
  - apply Z.leb_gt in E. replace e with (- (- e)) at 2 by lia. rewrite Qpower_opp.
    change 10%Q with (inject_Z 10). rewrite <- Zpower_Qpower by lia.
    assert (0 < 10 ^ - e) by (apply Z.pow_pos_nonneg; lia).
    destruct (10 ^ - e) as [|p|p]; try lia. unfold Qinv, inject_Z. simpl. reflexivity.
Qed.

Definition is_e (c : ascii) : bool := (chr_eqb c "e" || chr_eqb c "E")%bool.

Lemma mantissa_no_e m ip fp : mantissa m ip fp -> Forall (fun c => is_e c = false) m.
Proof.
  assert (S : forall s ds, spells s ds -> Forall (fun c => is_e c = false) s).
  { intros s ds H. eapply Forall_impl; [|apply (spells_chars _ _ H)].
    intros c Hc. unfold is_e. rewrite !spelled_not by auto. reflexivity. }
  destruct 1; repeat first [apply Forall_app; split | constructor]; eauto.
Qed.

Lemma mantissa_nonnil m ip fp : mantissa m ip fp ->
  exists c m', m = c :: m' /\ (c = "."%char \/ exists d, digit c d).
Proof.
  assert (S : forall s ds, spells s ds -> exists c s', s = c :: s' /\ exists d, digit c d).
  { destruct 1; eauto. }
  destruct 1 as [s ds H|s ds H|s ds H|s ds t es H1 H2].
  - destruct (S _ _ H) as (c & s' & -> & Hc). eauto.
  - destruct (S _ _ H) as (c & s' & -> & Hc). simpl. eauto.
  - eauto.
  - destruct (S _ _ H1) as (c & s' & -> & Hc). simpl. eauto.
Qed.

Lemma py_decimal_spec m x ip fp e :
  mantissa m ip fp -> exponent x e ->
  exists q, py_decimal (m ++ x) = Some q /\
  (q == inject_Z (value (ip ++ fp)) * ten_to (e - Z.of_nat (length fp)))%Q.
Proof.
  intros Hm Hx. unfold py_decimal. fold is_e. change (fun c => (chr_eqb c "e" || chr_eqb c "E")%bool) with is_e.
  destruct Hx as [|c g sg s ds Hc Hg Hs].
  - rewrite app_nil_r. rewrite cut_none by (eapply mantissa_no_e; eauto).
    rewrite (mantissa_spec _ _ _ Hm). eexists. split; [reflexivity|].
    rewrite pow10_q_ten. reflexivity.
  - rewrite cut_some.
    + rewrite (mantissa_spec _ _ _ Hm). rewrite (py_int_spec g sg s ds) by auto.
      eexists. split; [reflexivity|]. rewrite pow10_q_ten. reflexivity.
    + eapply mantissa_no_e; eauto.
    + destruct Hc as [-> | ->]; reflexivity.
Qed.

Lemma py_decimal_inv t q :
  py_decimal t = Some q ->
  exists m x ip fp e, t = m ++ x /\ mantissa m ip fp /\ exponent x e /\
  (q == inject_Z (value (ip ++ fp)) * ten_to (e - Z.of_nat (length fp)))%Q.
Proof.
  unfold py_decimal. change (fun c => (chr_eqb c "e" || chr_eqb c "E")%bool) with is_e.
  destruct (cut is_e t) as (m & eo) eqn:E.
  destruct (py_mantissa m) as [(v & f)|] eqn:Em; [|discriminate].
  destruct (mantissa_inv _ _ _ Em) as (ip & fp & Hm & -> & ->).
  destruct (cut_inv _ _ _ _ E) as (_ & Hb). destruct eo as [es|].
  - destruct Hb as (c & Hc & ->).
    destruct (py_int es) as [e|] eqn:Ee; [|discriminate]. intro H. injection H as <-.
    destruct (py_int_inv _ _ Ee) as (g & sg & s & ds & -> & Hg & Hs & ->).
    exists m, (c :: g ++ s), ip, fp, (sg * value ds). split; [reflexivity|]. split; auto.
    split.
    + constructor; auto. unfold is_e in Hc. apply orb_true_iff in Hc.
      destruct Hc as [Hc|Hc]; apply chr_eqb_eq in Hc; auto.
    + rewrite pow10_q_ten. reflexivity.
  - subst t. intro H. injection H as <-. exists m, [], ip, fp, 0. rewrite app_nil_r.
    split; [reflexivity|]. split; auto. split; [constructor|]. rewrite pow10_q_ten. reflexivity.
Qed.

Lemma not_word m x ip fp e w : mantissa m ip fp -> exponent x e ->
  (w = lit "inf" \/ w = lit "infinity" \/ w = lit "nan") -> str_eqb (lower (m ++ x)) w = false.
Proof.
  intros Hm Hx Hw. destruct (mantissa_nonnil _ _ _ Hm) as (c & m' & -> & Hc).
  apply str_eqb_neq. intro F. simpl in F.
  destruct Hc as [->|(d & Hc)].
  - destruct Hw as [->|[->| ->]]; discriminate.
  - destruct Hc; destruct Hw as [->|[->| ->]]; discriminate.
Qed.

Lemma py_float_denotes t q :
  denotes t q -> exists q', (q' == q)%Q /\ py_float t = Some (rnd64 q').
Proof.
  intros (g & m & x & sg & ip & fp & e & -> & Hg & Hm & Hx & Hq).
  unfold py_float. rewrite (take_sign_spec g sg (m ++ x) Hg).
  - rewrite !(not_word m x ip fp e) by auto. simpl orb. cbv iota.
    destruct (py_decimal_spec m x ip fp e Hm Hx) as (q0 & -> & Hq0).
    exists (if sg <? 0 then - q0 else q0)%Q. split; [|reflexivity].
    rewrite Hq. destruct (sign_pm _ _ Hg) as [-> | ->]; cbn [Z.ltb Z.compare]; cbv iota.
    + rewrite Hq0. rewrite Z.mul_1_l. reflexivity.
    + rewrite Hq0. rewrite inject_Z_mult. change (inject_Z (-1)) with (-(1))%Q. ring.
  - intros c s' Hs. destruct (mantissa_nonnil _ _ _ Hm) as (c0 & m' & -> & Hc).
    injection Hs as <- _. destruct Hc as [->|(d & Hc)]; [split; discriminate|].
    destruct Hc; split; discriminate.
Qed.

Lemma lower_word_head w : forall c w', w = c :: w' ->
  (lower w = lit "inf" \/ lower w = lit "infinity" \/ lower w = lit "nan") ->
  c <> "+"%char /\ c <> "-"%char.
Proof.
  intros c w' -> H. split; intros ->; destruct H as [H|[H|H]]; discriminate.
Qed.

Lemma py_float_special t r : special t r -> py_float t = Some r.
Proof.
  intros (g & w & sg & -> & Hg & H). unfold py_float.
  rewrite (take_sign_spec g sg w Hg).
  - destruct H as [([H|H] & ->)|(H & ->)]; rewrite H; reflexivity.
  - intros c w' E. apply (lower_word_head w c w' E). tauto.
Qed.

Lemma py_float_inv t r :
  py_float t = Some r -> special t r \/ exists q q', denotes t q /\ (q' == q)%Q /\ r = rnd64 q'.
Proof.
  unfold py_float. destruct (take_sign t) as (neg & s) eqn:E.
  destruct (take_sign_inv _ _ _ E) as (g & sg & Hg & Ht & Hn & Hsg).
  destruct (str_eqb (lower s) (lit "inf") || str_eqb (lower s) (lit "infinity"))%bool eqn:E1.
  { intro H. injection H as <-. left. exists g, s, sg. repeat split; auto. left. split; [|congruence].
    apply orb_true_iff in E1. destruct E1 as [E1|E1]; apply str_eqb_eq in E1; auto. }
  destruct (str_eqb (lower s) (lit "nan")) eqn:E2.
  { intro H. injection H as <-. left. exists g, s, sg. repeat split; auto. right. split; [|congruence].
    apply str_eqb_eq. auto. }
  destruct (py_decimal s) as [q|] eqn:E3; [|discriminate]. intro H. injection H as <-. right.
  destruct (py_decimal_inv _ _ E3) as (m & x & ip & fp & e & -> & Hm & Hx & Hq).
  exists (inject_Z (sg * value (ip ++ fp)) * ten_to (e - Z.of_nat (length fp)))%Q.
  exists (if neg then - q else q)%Q. split; [|split; [|reflexivity]].
  - exists g, m, x, sg, ip, fp, e. repeat split; auto.
  - subst neg. destruct Hsg as [-> | ->]; cbn [Z.ltb Z.compare]; cbv iota.
    + rewrite Hq. rewrite Z.mul_1_l. reflexivity.
    + rewrite Hq. rewrite inject_Z_mult. change (inject_Z (-1)) with (-(1))%Q. ring.
Qed.

Lemma rnd64_finite_small q v :
  rnd64 q = FFin v -> (Rabs (Q2R v) < bpow radix2 1024)%R.
Proof.
  unfold rnd64. destruct (Qnum q =? 0) eqn:E0.
  - intro H. injection H as <-. replace (Q2R 0) with 0%R by (unfold Q2R; simpl; lra).
    rewrite Rabs_R0. apply bpow_gt_0.
  - cbv zeta.
    set (e := Z.max _ (-1074)).
    set (m := if 0 <=? e then _ else _).
    destruct (2 ^ 1024 <=? Z.abs m * 2 ^ Z.max e 0) eqn:B; [discriminate|].
    intro H. injection H as <-. apply Z.leb_gt in B. rewrite q_of_me_val.
    rewrite Rabs_mult, <- abs_IZR, (Rabs_pos_eq (bpow radix2 e)) by apply bpow_ge_0.
    apply Rle_lt_trans with (IZR (Z.abs m) * bpow radix2 (Z.max e 0))%R.
    + apply Rmult_le_compat_l; [apply IZR_le; lia|]. apply bpow_le. lia.
    + rewrite !bpow_Z by lia. rewrite <- mult_IZR. apply IZR_lt. exact B.
Qed.

Lemma rnd64_reads q q' : (q' == q)%Q -> reads_as q (rnd64 q').
Proof.
  intro Hq. assert (Hr : Q2R q' = Q2R q) by (apply Qeq_eqR; auto).
  destruct (rnd64 q') as [v|neg|] eqn:E.
  - left. exists v. split; [reflexivity|]. split.
    + unfold nearest_even. rewrite <- Hr. apply rnd64_finite. auto.
    + eapply rnd64_finite_small; eauto.
  - right. destruct (rnd64_infinite _ _ E) as (H1 & H2).
    exists neg, (round radix2 fexp64 ZnearestE (Q2R q')). split; [reflexivity|]. split.
    + unfold nearest_even. rewrite Hr. reflexivity.
    + split; auto. rewrite H2.
      pose proof (bpow_gt_0 radix2 1024) as P.
      set (x := Q2R q') in *. set (y := round radix2 fexp64 ZnearestE x) in *.
      split; intro G.
      * destruct (Rle_or_lt 0 y) as [L|L]; auto. exfalso.
        assert (y <= 0)%R.
        { unfold y. rewrite <- (round_0 radix2 fexp64 ZnearestE). apply round_le; try typeclasses eauto. lra. }
        assert (y = 0)%R by lra. rewrite H0, Rabs_R0 in H1. lra.
      * destruct (Rle_or_lt 0 x) as [L|L]; auto. exfalso.
        assert (0 <= y)%R.
        { unfold y. rewrite <- (round_0 radix2 fexp64 ZnearestE). apply round_le; try typeclasses eauto. lra. }
        lra.
  - exfalso. apply (rnd64_not_nan _ E).
Qed.

Lemma reads_as_unique q r1 r2 : reads_as q r1 -> reads_as q r2 -> feq r1 r2 = true.
Proof.
  unfold reads_as, nearest_even.
  intros [(v1 & -> & H1 & B1)|(n1 & x1 & -> & H1 & B1 & S1)] [(v2 & -> & H2 & B2)|(n2 & x2 & -> & H2 & B2 & S2)]; simpl.
  - apply Qeq_bool_iff. apply eqR_Qeq. congruence.
  - rewrite H1, <- H2 in B1. lra.
  - rewrite H2, <- H1 in B2. lra.
  - rewrite <- H2 in H1. subst x1. clear H2. destruct n1, n2; auto; exfalso.
    + destruct S2 as (_ & S2). destruct S1 as (S1 & _). specialize (S2 (S1 eq_refl)). discriminate.
    + destruct S1 as (_ & S1). destruct S2 as (S2 & _). specialize (S1 (S2 eq_refl)). discriminate.
Qed.

(** binary64 numbers in the sense of the specification are Flocq's. *)
Lemma binary64_format x : binary64 x <-> generic_format radix2 fexp64 x.
Proof.
  split.
  - intros (m & e & -> & Hm & He). apply generic_format_FLT.
    exists (Float radix2 m e); simpl; auto.
  - intro H. apply FLT_format_generic in H; [|unfold Prec_gt_0; lia].
    destruct H as [[m e] H1 H2 H3]. exists m, e. simpl in *. auto.
Qed.

Lemma nearest_even_is_nearest q x : nearest_even q x ->
  binary64 x /\ forall y, binary64 y -> (Rabs (x - q) <= Rabs (y - q))%R.
Proof.
  unfold nearest_even. intros ->. split.
  - apply binary64_format. apply generic_format_round; typeclasses eauto.
  - intros y Hy. apply binary64_format in Hy.
    pose proof (round_N_pt radix2 fexp64 (fun z => negb (Z.even z)) q) as (_ & G).
    apply G. auto.
Qed.

(** Each literal denotes at most one number. *)
Lemma denotes_computed t q :
  denotes t q -> exists q0, py_decimal (snd (take_sign t)) = Some q0 /\
                 (q == if fst (take_sign t) then - q0 else q0)%Q.
Proof.
  intros (g & m & x & sg & ip & fp & e & -> & Hg & Hm & Hx & Hq).
  rewrite (take_sign_spec g sg (m ++ x) Hg).
  - cbn [fst snd]. destruct (py_decimal_spec m x ip fp e Hm Hx) as (q0 & E & Hq0).
    exists q0. split; auto. rewrite Hq.
    destruct (sign_pm _ _ Hg) as [-> | ->]; cbn [Z.ltb Z.compare]; cbv iota.
    + rewrite Hq0. rewrite Z.mul_1_l. reflexivity.
    + rewrite Hq0. rewrite inject_Z_mult. change (inject_Z (-1)) with (-(1))%Q. ring.
  - intros c s' Hs. destruct (mantissa_nonnil _ _ _ Hm) as (c0 & m' & -> & Hc).
    injection Hs as <- _. destruct Hc as [->|(d & Hc)]; [split; discriminate|].
    destruct Hc; split; discriminate.
Qed.

Lemma denotes_unique t q1 q2 : denotes t q1 -> denotes t q2 -> (q1 == q2)%Q.
Proof.
  intros H1 H2. apply denotes_computed in H1, H2.
  destruct H1 as (a & Ha & E1), H2 as (b & Hb & E2). rewrite Ha in Hb. injection Hb as <-.
  rewrite E1, E2. reflexivity.
Qed.

Lemma literal_reads t q : denotes t q -> exists r, py_float t = Some r /\ reads_as q r.
Proof.
  intro H. destruct (py_float_denotes t q H) as (q' & Hq & E).
  exists (rnd64 q'). split; auto. apply rnd64_reads. auto.
Qed.

Lemma accepted_literals t r :
  py_float t = Some r <->
  special t r \/ exists q, denotes t q /\ exists r', reads_as q r' /\ py_float t = Some r' /\ r' = r.
Proof.
  split.
  - intro H. destruct (py_float_inv t r H) as [S|(q & q' & D & Hq & ->)]; auto.
    right. exists q. split; auto. exists (rnd64 q'). split; auto. apply rnd64_reads. auto.
  - intros [S|(q & D & r' & _ & E & <-)]; auto. apply py_float_special. auto.
Qed.

Lemma literal_iff t :
  (exists r, py_float t = Some r) <-> (exists r, special t r) \/ (exists q, denotes t q).
Proof.
  split.
  - intros (r & H). destruct (py_float_inv t r H) as [S|(q & q' & D & _)]; eauto.
  - intros [(r & S)|(q & D)].
    + exists r. apply py_float_special. auto.
    + destruct (literal_reads t q D) as (r & H & _). eauto.
Qed.

(** Same key: equal doubles. *)
Lemma same_key t1 t2 q1 q2 r1 r2 :
  denotes t1 q1 -> denotes t2 q2 -> py_float t1 = Some r1 -> py_float t2 = Some r2 ->
  (feq r1 r2 = true <-> exists r, reads_as q1 r /\ reads_as q2 r).
Proof.
  intros D1 D2 E1 E2.
  destruct (literal_reads _ _ D1) as (r1' & F1 & R1). rewrite E1 in F1. injection F1 as <-.
  destruct (literal_reads _ _ D2) as (r2' & F2 & R2). rewrite E2 in F2. injection F2 as <-.
  split.
  - intro H. exists r2. split; auto.
    destruct r1 as [v1|n1|], r2 as [v2|n2|]; simpl in H; try discriminate.
    + apply Qeq_bool_iff in H. apply Qeq_eqR in H.
      destruct R1 as [(v & E & N & B)|(? & ? & E & _)]; [|discriminate].
      injection E as <-. left. exists v2. rewrite <- H. auto.
    + apply eqb_prop in H. subst. auto.
  - intros (r & A & B). pose proof (reads_as_unique _ _ _ A R1) as U1.
    pose proof (reads_as_unique _ _ _ B R2) as U2.
    destruct r as [v|n|], r1 as [v1|n1|], r2 as [v2|n2|]; simpl in *; try discriminate.
    + apply Qeq_bool_iff in U1, U2. apply Qeq_bool_iff. rewrite <- U1, <- U2. reflexivity.
    + apply eqb_prop in U1, U2. subst. apply Bool.eqb_reflx.
Qed.
