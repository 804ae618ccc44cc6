(** Printed numbers are read back. *)
From Coq Require Import Ascii String List Bool Arith ZArith QArith Reals Qreals Lia.
From Coq Require Qcanon Qpower.
From Flocq Require Import Core.
From Verif Require Import Base_Prelude Base_Str Base_Num Base_Repr Spec_Num Proofs_Num Proofs_Round.
Import ListNotations.
Open Scope Z_scope.

Lemma digit_chr_digit d : 0 <= d < 10 -> digit (digit_chr d) d.
Proof.
  intro H.
  assert (E : d = 0 \/ d = 1 \/ d = 2 \/ d = 3 \/ d = 4 \/ d = 5 \/ d = 6 \/ d = 7 \/ d = 8 \/ d = 9)
    by lia.
  repeat (destruct E as [->|E]; [constructor|]). subst d. constructor.
Qed.

Lemma spells_snoc s ds c d : spells s ds -> digit c d -> spells (s ++ [c]) (ds ++ [d]).
Proof.
  intros H Hd. induction H; simpl.
  - apply sp_cons; auto. constructor; auto.
  - apply sp_cons; auto.
  - apply sp_under; auto.
Qed.

Lemma value_snoc ds d : value (ds ++ [d]) = 10 * value ds + d.
Proof. rewrite value_app. cbn [length value]. change (Z.of_nat 1) with 1. change (10 ^ 1) with 10.
  change (Z.of_nat 0) with 0. change (10 ^ 0) with 1. ring. Qed.

Lemma dec_rev_spells f : forall n, 0 <= n < 2 ^ Z.of_nat (S f) ->
  exists ds, spells (rev (dec_rev (S f) n)) ds /\ value ds = n.
Proof.
  induction f as [|f IH]; intros n H.
  - change (2 ^ Z.of_nat 1) with 2 in H.
    exists [n mod 10]. cbn [dec_rev]. rewrite (Z.div_small n 10) by lia.
    change (0 =? 0) with true. cbv iota. cbn [rev app].
    split; [constructor; apply digit_chr_digit, Z.mod_pos_bound; lia|].
    cbn [value length]. change (Z.of_nat 0) with 0. change (10 ^ 0) with 1.
    rewrite Z.mod_small by lia. ring.
  - remember (S f) as g. cbn [dec_rev]. subst g.
    pose proof (Z.div_mod n 10 ltac:(lia)) as E.
    pose proof (Z.mod_pos_bound n 10 ltac:(lia)) as Hm.
    destruct (n / 10 =? 0) eqn:E0.
    + apply Z.eqb_eq in E0. exists [n mod 10]. cbn [rev app].
      split; [constructor; apply digit_chr_digit; lia|].
      cbn [value length]. change (Z.of_nat 0) with 0. change (10 ^ 0) with 1. lia.
    + apply Z.eqb_neq in E0.
      destruct (IH (n / 10)) as (ds & Hs & Hv).
      { split; [apply Z.div_pos; lia|].
        rewrite Nat2Z.inj_succ, Z.pow_succ_r in H by lia. lia. }
      exists (ds ++ [n mod 10]). cbn [rev].
      split; [apply spells_snoc; auto; apply digit_chr_digit; lia|].
      rewrite value_snoc, Hv. lia.
Qed.

Lemma dec_spells n : 0 <= n -> exists ds, spells (dec n) ds /\ value ds = n.
Proof.
  intro H. unfold dec. apply dec_rev_spells.
  destruct (Z.eq_dec n 0) as [->|Hn].
  - split; [lia|]. apply Z.pow_pos_nonneg; lia.
  - split; auto. rewrite Nat2Z.inj_succ, Z2Nat.id by apply Z.log2_nonneg.
    apply Z.log2_spec. lia.
Qed.

Lemma decpad_spells k : forall n, 0 <= n ->
  exists ds, spells (rev (decpad_rev (S k) n)) ds /\ value ds = n mod 10 ^ Z.of_nat (S k) /\
             length ds = S k.
Proof.
  induction k as [|k IH]; intros n H.
  - exists [n mod 10]. cbn [decpad_rev rev app].
    split; [constructor; apply digit_chr_digit, Z.mod_pos_bound; lia|].
    cbn [value length]. change (Z.of_nat 0) with 0. change (10 ^ 0) with 1.
    change (10 ^ Z.of_nat 1) with 10. split; [ring|reflexivity].
  - remember (S k) as g. cbn [decpad_rev rev]. subst g.
    destruct (IH (n / 10)) as (ds & Hs & Hv & Hl); [apply Z.div_pos; lia|].
    exists (ds ++ [n mod 10]).
    split; [apply spells_snoc; auto; apply digit_chr_digit, Z.mod_pos_bound; lia|].
    split; [|rewrite app_length, Hl; simpl; lia].
    rewrite value_snoc, Hv.
    rewrite (Nat2Z.inj_succ (S k)), Z.pow_succ_r by lia.
    rewrite Z.rem_mul_r by lia. ring.
Qed.

Lemma fmt_int_denotes n : denotes (fmt_int n) (inject_Z n).
Proof.
  unfold fmt_int. destruct (n <? 0) eqn:E.
  - apply Z.ltb_lt in E. destruct (dec_spells (- n) ltac:(lia)) as (ds & Hs & Hv).
    exists ["-"%char], (dec (- n)), [], (-1), ds, [], 0.
    repeat split; [rewrite app_nil_r; reflexivity|constructor|constructor; auto|constructor|].
    rewrite app_nil_r, Hv. cbn [length]. change (0 - Z.of_nat 0) with 0.
    unfold ten_to. simpl Qpower. rewrite Qmult_1_r. replace (-1 * - n) with n by ring. reflexivity.
  - apply Z.ltb_ge in E. destruct (dec_spells n E) as (ds & Hs & Hv).
    exists [], (dec n), [], 1, ds, [], 0.
    repeat split; [rewrite app_nil_r; reflexivity|constructor|constructor; auto|constructor|].
    rewrite app_nil_r, Hv. cbn [length]. change (0 - Z.of_nat 0) with 0.
    unfold ten_to. simpl Qpower. rewrite Qmult_1_r. replace (1 * n) with n by ring. reflexivity.
Qed.

Lemma zdiv_rne_nonneg n d : 0 <= n -> 0 < d -> 0 <= zdiv_rne n d.
Proof.
  intros Hn Hd. unfold zdiv_rne.
  pose proof (Z.div_pos n d Hn Hd).
  destruct (2 * (n mod d) ?= d); try lia. destruct (Z.even (n / d)); lia.
Qed.

Lemma zdiv_rne_exact a d : 0 < d -> zdiv_rne (a * d) d = a.
Proof.
  intro Hd. unfold zdiv_rne. rewrite Z.div_mul, Z.mod_mul by lia.
  destruct (2 * 0 ?= d) eqn:E; auto.
  - apply Z.compare_eq in E. lia.
  - change (0 > d) in E. lia.
Qed.

(** What ['%.kf' % q] denotes. *)
Lemma fmt_fixed_denotes k q :
  (1 <= k)%nat ->
  let m := zdiv_rne (Z.abs (Qnum q) * 10 ^ Z.of_nat k) (Zpos (Qden q)) in
  denotes (fmt_fixed k q)
    (inject_Z ((if Qnum q <? 0 then -1 else 1) * m) * ten_to (- Z.of_nat k)).
Proof.
  intros Hk m. destruct k as [|k]; [lia|].
  assert (Ht : 0 < 10 ^ Z.of_nat (S k)) by (apply Z.pow_pos_nonneg; lia).
  assert (Hm : 0 <= m) by (apply zdiv_rne_nonneg; lia).
  destruct (dec_spells (m / 10 ^ Z.of_nat (S k))) as (ds & Hs & Hv); [apply Z.div_pos; lia|].
  destruct (decpad_spells k (m mod 10 ^ Z.of_nat (S k))) as (es & Hes & Hev & Hl);
    [apply Z.mod_pos_bound; lia|].
  rewrite Z.mod_mod in Hev by lia.
  assert (Hb : mantissa (dec (m / 10 ^ Z.of_nat (S k)) ++
                 "."%char :: rev (decpad_rev (S k) (m mod 10 ^ Z.of_nat (S k)))) ds es)
    by (constructor; auto).
  assert (Hval : value (ds ++ es) = m).
  { rewrite value_app, Hv, Hev, Hl. rewrite (Z.div_mod m (10 ^ Z.of_nat (S k))) at 3 by lia. ring. }
  unfold fmt_fixed. fold m. destruct (Qnum q <? 0).
  - eexists ["-"%char], _, [], (-1), ds, es, 0.
    repeat split; [|constructor|exact Hb|constructor|].
    + rewrite app_nil_r. reflexivity.
    + rewrite Hval, Hl. reflexivity.
  - eexists [], _, [], 1, ds, es, 0.
    repeat split; [|constructor|exact Hb|constructor|].
    + rewrite app_nil_r. reflexivity.
    + rewrite Hval, Hl. reflexivity.
Qed.

(** ** Reduced fractions *)

Lemma Qred_nat_id n : Qred (n # 1) = n # 1.
Proof.
  apply Qcanon.Qred_identity. simpl. rewrite Z.gcd_1_r. reflexivity.
Qed.

Lemma Qred_Qred q : Qred (Qred q) = Qred q.
Proof. apply Qred_complete, Qred_correct. Qed.

Lemma q_of_me_red m e : Qred (q_of_me m e) = q_of_me m e.
Proof.
  unfold q_of_me. destruct (0 <=? e); [apply Qred_nat_id|apply Qred_Qred].
Qed.

Lemma rnd64_red q v : rnd64 q = FFin v -> Qred v = v.
Proof.
  unfold rnd64. destruct (Qnum q =? 0).
  - intro H. injection H as <-. reflexivity.
  - cbv zeta. match goal with |- (if ?b then _ else _) = _ -> _ => destruct b end; [discriminate|].
    intro H. injection H as <-. apply q_of_me_red.
Qed.

Lemma py_float_red s v : py_float s = Some (FFin v) -> Qred v = v.
Proof.
  unfold py_float. destruct (take_sign s) as (neg & s').
  destruct (_ || _)%bool; [discriminate|]. destruct (str_eqb _ _); [discriminate|].
  destruct (py_decimal s'); [|discriminate]. intro H. injection H as H. eapply rnd64_red, H.
Qed.

Lemma red_eq u v : Qred u = u -> Qred v = v -> (u == v)%Q -> u = v.
Proof. intros Hu Hv E. rewrite <- Hu, <- Hv. apply Qred_complete, E. Qed.

(** The denominator of a binary64 number is a power of two of limited size. *)
Lemma Qred_den_divides n d : (Zpos (Qden (Qred (n # d))) | Zpos d).
Proof.
  unfold Qred. pose proof (Z.ggcd_correct_divisors n (Zpos d)) as H.
  pose proof (Z.ggcd_gcd n (Zpos d)) as Hg.
  destruct (Z.ggcd n (Zpos d)) as (g & (r1 & r2)). simpl in *.
  destruct H as (H1 & H2). 
  assert (0 <= g) by (rewrite Hg; apply Z.gcd_nonneg).
  assert (0 < r2) by (destruct r2; lia).
  rewrite Z2Pos.id by auto. exists g. lia.
Qed.

Lemma rnd64_den q v : rnd64 q = FFin v -> (Zpos (Qden v) | 10 ^ 1074).
Proof.
  assert (G : forall m e, -1074 <= e -> (Zpos (Qden (q_of_me m e)) | 10 ^ 1074)).
  { intros m e He. unfold q_of_me. destruct (0 <=? e) eqn:E.
    - simpl Qden. apply Z.divide_1_l.
    - apply Z.leb_gt in E. eapply Z.divide_trans; [apply Qred_den_divides|].
      rewrite Z2Pos.id by (apply Z.pow_pos_nonneg; lia).
      exists (2 ^ (1074 + e) * 5 ^ 1074).
      replace (2 ^ (1074 + e) * 5 ^ 1074 * 2 ^ (- e)) with ((2 ^ (1074 + e) * 2 ^ (- e)) * 5 ^ 1074) by ring.
      rewrite <- Z.pow_add_r by lia. replace (1074 + e + - e) with 1074 by ring.
      rewrite <- Z.pow_mul_l. reflexivity. }
  unfold rnd64. destruct (Qnum q =? 0).
  - intro H. injection H as <-. apply Z.divide_1_l.
  - cbv zeta. match goal with |- (if ?b then _ else _) = _ -> _ => destruct b end; [discriminate|].
    intro H. injection H as <-. apply G. apply Z.le_max_r.
Qed.

(** ** Reading back *)

Definition binary_number (x : pyfloat) : Prop :=
  match x with FFin q => rnd64 q = FFin q | _ => True end.

Lemma ten_to_neg k : (ten_to (- Z.of_nat k) == 1 # Z.to_pos (10 ^ Z.of_nat k))%Q.
Proof.
  unfold ten_to. rewrite Qpower.Qpower_opp.
  assert (E : (Qpower 10 (Z.of_nat k) == inject_Z (10 ^ Z.of_nat k))%Q).
  { change 10%Q with (inject_Z 10). rewrite <- Qpower.Zpower_Qpower by lia. reflexivity. }
  rewrite E.
  assert (Hp : 0 < 10 ^ Z.of_nat k) by (apply Z.pow_pos_nonneg; lia).
  destruct (10 ^ Z.of_nat k) eqn:Ep; try lia. reflexivity.
Qed.

Lemma exact_text_reads_gen k q : (1 <= k)%nat -> (Zpos (Qden q) | 10 ^ Z.of_nat k) ->
  rnd64 q = FFin q -> py_float (fmt_fixed k q) = Some (FFin q).
Proof.
  intros Hk (c & Hc) Hq.
  pose proof (fmt_fixed_denotes k q Hk) as D. cbv zeta in D.
  assert (Hp : 0 < 10 ^ Z.of_nat k) by (apply Z.pow_pos_nonneg; lia).
  set (P := 10 ^ Z.of_nat k) in *.
  assert (Hm : zdiv_rne (Z.abs (Qnum q) * P) (Zpos (Qden q)) = Z.abs (Qnum q) * c).
  { rewrite Hc, Z.mul_assoc. apply zdiv_rne_exact. lia. }
  rewrite Hm in D.
  assert (Hv : (inject_Z ((if Qnum q <? 0 then -1 else 1) * (Z.abs (Qnum q) * c))
                * ten_to (- Z.of_nat k) == q)%Q).
  { rewrite ten_to_neg. fold P.
    assert (Hs : (if Qnum q <? 0 then -1 else 1) * (Z.abs (Qnum q) * c) = Qnum q * c).
    { destruct (Qnum q <? 0) eqn:En; [apply Z.ltb_lt in En|apply Z.ltb_ge in En].
      - rewrite Z.abs_neq by lia. ring.
      - rewrite Z.abs_eq by lia. ring. }
    rewrite Hs. clearbody P.
    unfold Qeq, Qmult, inject_Z, Qnum, Qden. destruct q as [n d]. simpl in Hc |- *.
    rewrite Z2Pos.id by exact Hp. rewrite Hc. ring. }
  destruct (literal_reads _ _ D) as (r & Hr & Hreads). rewrite Hr. f_equal.
  pose proof (rnd64_reads _ q (Qeq_sym _ _ Hv)) as Hself. rewrite Hq in Hself.
  pose proof (reads_as_unique _ _ _ Hreads Hself) as U.
  destruct r as [v| |]; try discriminate. simpl in U. apply Qeq_bool_eq in U. f_equal.
  apply red_eq; [eapply py_float_red; exact Hr|eapply rnd64_red; exact Hq|exact U].
Qed.

Lemma exact_text_reads q : rnd64 q = FFin q -> py_float (fmt_fixed 1074 q) = Some (FFin q).
Proof.
  intro Hq. apply exact_text_reads_gen; auto; [lia|].
  replace (Z.of_nat 1074) with 1074 by reflexivity. eapply rnd64_den, Hq.
Qed.

Lemma repr_finite_reads q : rnd64 q = FFin q -> py_float (repr_finite q) = Some (FFin q).
Proof.
  intro Hq. unfold repr_finite. destruct (Qnum q =? 0) eqn:E0.
  - unfold rnd64 in Hq. rewrite E0 in Hq. injection Hq as <-. vm_compute. reflexivity.
  - match goal with |- context [find ?f ?l] => destruct (find f l) as [s|] eqn:Ef end.
    + apply find_some in Ef. destruct Ef as (_ & Hb). unfold reads_back in Hb.
      destruct (py_float s) as [[v| |]|] eqn:Es; try discriminate.
      simpl in Hb. apply Qeq_bool_eq in Hb. do 2 f_equal.
      apply red_eq; [eapply py_float_red; exact Es|eapply rnd64_red; exact Hq|exact Hb].
    + apply exact_text_reads, Hq.
Qed.

(** [float(str(x)) == x] for every float. *)
Lemma repr_reads x : binary_number x -> py_float (py_repr x) = Some x.
Proof.
  destruct x as [q|neg|]; simpl; intro H.
  - apply repr_finite_reads, H.
  - destruct neg; reflexivity.
  - reflexivity.
Qed.


(** A number read from text is a binary64 number. *)
Lemma rnd64_idem q v : rnd64 q = FFin v -> rnd64 v = FFin v.
Proof.
  intro H. pose proof (rnd64_finite q v H) as Hv.
  assert (Hlt : (Rabs (Q2R v) < bpow radix2 1024)%R).
  { destruct (rnd64_reads q q (Qeq_refl q)) as [(w & Ew & _ & Hlt)|(neg & x & Ew & _)];
      rewrite H in Ew; [|discriminate]. injection Ew as <-. exact Hlt. }
  assert (Hg : Q2R v = round radix2 fexp64 ZnearestE (Q2R v)).
  { symmetry. apply round_generic; [apply valid_rnd_N|]. rewrite Hv.
    apply generic_format_round; [apply FLT_exp_valid; reflexivity|apply valid_rnd_N]. }
  assert (S : reads_as v (FFin v)) by (left; exists v; repeat split; auto).
  pose proof (reads_as_unique _ _ _ (rnd64_reads v v (Qeq_refl v)) S) as U.
  destruct (rnd64 v) as [w| |] eqn:E; try discriminate.
  simpl in U. apply Qeq_bool_eq in U. f_equal.
  apply red_eq; [eapply rnd64_red; exact E|eapply rnd64_red; exact H|exact U].
Qed.

Lemma rnd64_binary q : binary_number (rnd64 q).
Proof.
  unfold binary_number. destruct (rnd64 q) eqn:E; auto. eapply rnd64_idem, E.
Qed.

Lemma py_float_binary s x : py_float s = Some x -> binary_number x.
Proof.
  unfold py_float. destruct (take_sign s) as (neg & s').
  destruct (_ || _)%bool; [intro H; injection H as <-; exact I|].
  destruct (str_eqb _ _); [intro H; injection H as <-; exact I|].
  destruct (py_decimal s'); [|discriminate]. intro H. injection H as <-. apply rnd64_binary.
Qed.

Lemma fmt_int_reads n : py_float (fmt_int n) = Some (rnd64 (inject_Z n)).
Proof.
  destruct (literal_reads _ _ (fmt_int_denotes n)) as (r & Hr & Hreads). rewrite Hr. f_equal.
  pose proof (rnd64_reads (inject_Z n) (inject_Z n) (Qeq_refl _)) as Hself.
  pose proof (reads_as_unique _ _ _ Hreads Hself) as U.
  destruct r as [v|b|], (rnd64 (inject_Z n)) as [w|b'|] eqn:E; try discriminate.
  - simpl in U. apply Qeq_bool_eq in U. f_equal.
    apply red_eq; [eapply py_float_red; exact Hr|eapply rnd64_red; exact E|exact U].
  - simpl in U. apply Bool.eqb_prop in U. congruence.
Qed.

(** ** Characters of printed numbers *)

Definition num_char (c : ascii) : Prop := In c (lit "0123456789.e+-").

Lemma digit_num c d : digit c d -> num_char c.
Proof. unfold num_char. destruct 1; vm_compute; tauto. Qed.

Lemma digit_chr_num n : num_char (digit_chr (n mod 10)).
Proof. eapply digit_num, digit_chr_digit, Z.mod_pos_bound. lia. Qed.

Lemma dec_rev_num f : forall n, Forall num_char (dec_rev f n).
Proof.
  induction f as [|f IH]; intro n; cbn [dec_rev]; constructor; [apply digit_chr_num|].
  destruct (n / 10 =? 0); auto.
Qed.

Lemma dec_num n : Forall num_char (dec n).
Proof. apply Forall_rev, dec_rev_num. Qed.

Lemma decpad_num k : forall n, Forall num_char (decpad_rev k n).
Proof.
  induction k as [|k IH]; intro n; cbn [decpad_rev]; constructor; auto. apply digit_chr_num.
Qed.

Lemma num_dec (s : str) : forallb (fun c => existsb (chr_eqb c) (lit "0123456789.e+-")) s = true ->
  Forall num_char s.
Proof.
  intro H. apply Forall_forall. intros c Hc. rewrite forallb_forall in H. apply H in Hc.
  apply existsb_exists in Hc. destruct Hc as (d & Hd & E). apply chr_eqb_eq in E. subst d. exact Hd.
Qed.

Lemma fmt_int_num n : Forall num_char (fmt_int n).
Proof.
  unfold fmt_int. destruct (n <? 0); [constructor; [vm_compute; tauto|]|]; apply dec_num.
Qed.

Lemma fmt_fixed_num k q : Forall num_char (fmt_fixed k q).
Proof.
  unfold fmt_fixed.
  match goal with |- context [if _ then _ :: ?b else _] => assert (H : Forall num_char b) end.
  { apply Forall_app. split; [apply dec_num|]. constructor; [vm_compute; tauto|].
    apply Forall_rev, decpad_num. }
  destruct (Qnum q <? 0); auto. constructor; auto. vm_compute; tauto.
Qed.

Lemma layout_num ds e : Forall num_char ds -> Forall num_char (layout ds e).
Proof.
  intro H. unfold layout.
  assert (Hz : forall n, Forall num_char (zeros n)).
  { intro n. unfold zeros. apply Forall_forall. intros c Hc. apply repeat_spec in Hc.
    subst c. vm_compute. tauto. }
  assert (Hsub : forall l, incl l ds -> Forall num_char l).
  { intros l Hl. apply Forall_forall. intros c Hc. rewrite Forall_forall in H. apply H, Hl, Hc. }
  destruct ((-4 <? e) && (e <=? 16)).
  - destruct (e <=? 0); [|destruct (_ <=? e)].
    + apply Forall_app. split; [apply num_dec; reflexivity|]. apply Forall_app. auto.
    + apply Forall_app. split; auto. apply Forall_app. split; auto. apply num_dec. reflexivity.
    + apply Forall_app. split.
      * apply Hsub. intros c Hc. rewrite <- (firstn_skipn (Z.to_nat e) ds). apply in_or_app. auto.
      * constructor; [vm_compute; tauto|]. apply Hsub. intros c Hc.
        rewrite <- (firstn_skipn (Z.to_nat e) ds). apply in_or_app. auto.
  - destruct ds as [|d r]; auto. inversion H as [|? ? Hd Hr]; subst.
    constructor; auto. apply Forall_app. split.
    + destruct (length r =? 0)%nat; auto. constructor; auto. vm_compute; tauto.
    + apply Forall_app. split; [destruct (e - 1 <? 0); apply num_dec; reflexivity|].
      cbv zeta. destruct (length (dec (Z.abs (e - 1))) <? 2)%nat; [|apply dec_num].
      constructor; [vm_compute; tauto|apply dec_num].
Qed.

Lemma candidates_num n d k s : In s (candidates n d k) -> Forall num_char s.
Proof.
  unfold candidates. cbv zeta. intro H. apply in_flat_map in H. destruct H as (m & _ & H).
  destruct (m =? _); [|destruct (_ && _)]; simpl in H; [| |contradiction];
    destruct H as [<-|[]]; apply layout_num, dec_num.
Qed.

Lemma repr_finite_num q : Forall num_char (repr_finite q).
Proof.
  unfold repr_finite. destruct (Qnum q =? 0); [apply num_dec; reflexivity|].
  match goal with |- context [find ?f ?l] => destruct (find f l) as [s|] eqn:Ef end;
    [|apply fmt_fixed_num].
  apply find_some in Ef. destruct Ef as (Hin & _).
  assert (G : forall t, In t (flat_map (candidates (Z.abs (Qnum q)) (Zpos (Qden q))) (seq 1 17)) ->
              Forall num_char t).
  { intros t Ht. apply in_flat_map in Ht. destruct Ht as (k & _ & Ht). eapply candidates_num, Ht. }
  destruct (Qnum q <? 0); auto.
  apply in_map_iff in Hin. destruct Hin as (t & <- & Ht). constructor; auto. vm_compute; tauto.
Qed.

Lemma forallb_Forall_true {A} (f : A -> bool) l : forallb f l = true -> Forall (fun c => f c = true) l.
Proof. intro H. apply Forall_forall. rewrite forallb_forall in H. exact H. Qed.

(** Characters harmless in a list of numbers separated by white space: not a
    control character, not white space, not a comma. *)
Definition word_char (c : ascii) : bool :=
  (32 <? nat_of_ascii c)%nat && negb (is_space c) && negb (chr_eqb c ",").

Lemma num_word s : Forall num_char s -> Forall (fun c => word_char c = true) s.
Proof.
  apply Forall_impl. intros c H. unfold num_char in H.
  assert (G : Forall (fun c => word_char c = true) (lit "0123456789.e+-"))
    by (apply forallb_Forall_true; reflexivity).
  rewrite Forall_forall in G. auto.
Qed.

Lemma repr_word x : Forall (fun c => word_char c = true) (py_repr x).
Proof.
  destruct x as [q|neg|]; simpl.
  - apply num_word, repr_finite_num.
  - apply forallb_Forall_true. destruct neg; reflexivity.
  - apply forallb_Forall_true. reflexivity.
Qed.

Lemma repr_nonnil x : binary_number x -> py_repr x <> [].
Proof.
  intros H E. pose proof (repr_reads x H) as R. rewrite E in R.
  assert (N : py_float [] = None) by (vm_compute; reflexivity). rewrite N in R. discriminate.
Qed.
