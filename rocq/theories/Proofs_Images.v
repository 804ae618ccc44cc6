From Coq Require Import List Bool Arith ZArith QArith Lia Lqa Permutation.
From Verif Require Import Base_Prelude Base_Sum Model_Images Spec_Images.
Import ListNotations.
Open Scope Z_scope.

(** ** Wrap-around arithmetic *)
Lemma wrap64_id z : - 2 ^ 63 <= z < 2 ^ 63 -> wrap64 z = z.
Proof. intro H. unfold wrap64. rewrite Z.mod_small by lia. lia. Qed.

Definition cong (a b : Z) : Prop := (2 ^ 64 | a - b).

Lemma wrap64_cong z : cong (wrap64 z) z.
Proof.
  unfold cong, wrap64. pose proof (Z.div_mod (z + 2 ^ 63) (2 ^ 64) ltac:(lia)) as E.
  exists (- ((z + 2 ^ 63) / 2 ^ 64)). lia.
Qed.

Lemma cong_refl a : cong a a.
Proof. exists 0. lia. Qed.
Lemma cong_sym a b : cong a b -> cong b a.
Proof. intros (k & H). exists (- k). lia. Qed.
Lemma cong_trans a b c : cong a b -> cong b c -> cong a c.
Proof. intros (k & H) (l & G). exists (k + l). lia. Qed.
Lemma cong_add a b c d : cong a b -> cong c d -> cong (a + c) (b + d).
Proof. intros (k & H) (l & G). exists (k + l). lia. Qed.
Lemma cong_sub a b c d : cong a b -> cong c d -> cong (a - c) (b - d).
Proof. intros (k & H) (l & G). exists (k - l). lia. Qed.
Lemma cong_mul a b c d : cong a b -> cong c d -> cong (a * c) (b * d).
Proof.
  intros (k & H) (l & G). exists (k * c + b * l).
  replace (a * c - b * d) with ((a - b) * c + b * (c - d)) by ring. rewrite H, G. ring.
Qed.

Lemma cong_wrap a b : cong a b -> wrap64 a = wrap64 b.
Proof.
  intros (k & H). unfold wrap64. f_equal.
  replace (a + 2 ^ 63) with (b + 2 ^ 63 + k * 2 ^ 64) by lia.
  apply Z.mod_add. lia.
Qed.

Lemma wrap_cong a b : cong a b -> cong (wrap64 a) b.
Proof. intro H. eapply cong_trans; [apply wrap64_cong|auto]. Qed.

Lemma cong_in_range a b : cong a b -> - 2 ^ 63 <= b < 2 ^ 63 -> wrap64 a = b.
Proof. intros H R. rewrite (cong_wrap a b H). apply wrap64_id. auto. Qed.

(** ** The loop *)
Definition wpx (im : image) : nat -> nat -> Z := fun r c => wrap64 (px im r c).

Lemma int_loop h w imgs : forall sum sq d old,
  let '(sum', sq', d', old') := fold_left (int_step h w) imgs (sum, sq, d, old) in
  (forall r c, cong (sum' r c) (sum r c + exact_sum (history imgs r c))) /\
  (forall r c, cong (sq' r c) (sq r c + exact_sq (history imgs r c))) /\
  (d' == d + match old, imgs with
             | _, [] => 0
             | None, im :: _ => img_mean h w (wpx (last imgs im)) - img_mean h w (wpx im)
             | Some o, im :: _ => img_mean h w (wpx (last imgs im)) - img_mean h w o
             end)%Q.
Proof.
  induction imgs as [|im imgs IH]; intros sum sq d old.
  - simpl. repeat split; intros.
    + unfold exact_sum, history. simpl. rewrite Z.add_0_r. apply cong_refl.
    + unfold exact_sq, history. simpl. rewrite Z.add_0_r. apply cong_refl.
    + destruct old; ring.
  - cbn [fold_left]. unfold int_step at 2.
    match goal with |- context [fold_left _ imgs (?s, ?q, ?dd, ?o)] =>
      specialize (IH s q dd o); destruct (fold_left (int_step h w) imgs (s, q, dd, o))
        as [[[sum' sq'] d'] old'] end.
    destruct IH as (H1 & H2 & H3). split; [|split].
    + intros r c. eapply cong_trans; [apply H1|]. unfold exact_sum, history. cbn [map lsumz].
      rewrite Z.add_assoc. apply cong_add; [|apply cong_refl].
      apply wrap_cong. apply cong_add; [apply cong_refl|apply wrap64_cong].
    + intros r c. eapply cong_trans; [apply H2|]. unfold exact_sq, history. cbn [map lsumz].
      rewrite Z.add_assoc. apply cong_add; [|apply cong_refl].
      apply wrap_cong. apply cong_add; [apply cong_refl|].
      apply wrap_cong. apply cong_mul; apply wrap64_cong.
    + rewrite H3. fold (wpx im). destruct imgs as [|im' imgs'].
      * simpl last. destruct old; ring.
      * assert (L : last (im :: im' :: imgs') im = last (im' :: imgs') im').
        { change (last (im' :: imgs') im = last (im' :: imgs') im').
          clear. revert im im'. induction imgs' as [|x l IHl]; intros a b; [reflexivity|].
          change (last (x :: l) a = last (x :: l) b). rewrite (IHl a x), (IHl b x). reflexivity. }
        rewrite L. destruct old; ring.
Qed.

Lemma shape_eqb_eq a b : shape_eqb a b = true <-> a = b.
Proof.
  destruct a as (a1 & a2), b as (b1 & b2). unfold shape_eqb. simpl.
  rewrite andb_true_iff, !Nat.eqb_eq. split; [intros (-> & ->); auto|].
  intro H. injection H. auto.
Qed.

Lemma same_shape_check h w imgs :
  same_shape h w imgs <-> forallb (fun im => shape_eqb (shape im) (h, w)) imgs = true.
Proof.
  unfold same_shape. rewrite forallb_forall, Forall_forall. split; intros H x Hx; specialize (H x Hx).
  - apply shape_eqb_eq. unfold shape. destruct H as (-> & ->). auto.
  - apply shape_eqb_eq in H. unfold shape in H. injection H. auto.
Qed.

Lemma get_int_ok h w imgs :
  imgs <> [] -> same_shape h w imgs ->
  exists r, get_int_imgs imgs = Ok r /\
   ii_L r = length imgs /\ ih (ii_sum r) = h /\ iw (ii_sum r) = w /\
   ih (ii_pvar r) = h /\ iw (ii_pvar r) = w /\
   (forall i j, cong (px (ii_sum r) i j) (exact_sum (history imgs i j))) /\
   (forall i j, px (ii_pvar r) i j =
      wrap64 (Z.of_nat (length imgs) *
              (Z.of_nat (length imgs) * exact_sq (history imgs i j)
               - exact_sum (history imgs i j) * exact_sum (history imgs i j)))) /\
   (forall im, hd_error imgs = Some im ->
     ii_dmean r == img_mean h w (wpx (last imgs im)) - img_mean h w (wpx im))%Q /\
   (forall i j, exists z, px (ii_sum r) i j = wrap64 z).
Proof.
  intros Hn Hs. destruct imgs as [|im imgs]; [contradiction|].
  pose proof Hs as Hs0. inversion Hs as [|? ? (E1 & E2) Hs']; subst.
  unfold get_int_imgs. rewrite (proj1 (same_shape_check _ _ _) Hs0). simpl negb. cbv iota.
  pose proof (int_loop (ih im) (iw im) (im :: imgs) (fun _ _ => 0) (fun _ _ => 0) 0%Q None) as IL.
  destruct (fold_left (int_step (ih im) (iw im)) (im :: imgs)
              (fun _ _ => 0, fun _ _ => 0, 0%Q, None)) as [[[sum sq] d] old] eqn:EF.
  destruct IL as (H1 & H2 & H3).
  eexists. split; [reflexivity|]. cbn [ii_L ii_sum ii_pvar ii_dmean ih iw px].
  repeat split; auto.
  - intros i j. apply cong_wrap. apply cong_mul; [apply cong_refl|].
    apply wrap_cong. apply cong_sub.
    + apply wrap_cong. apply cong_mul; [apply cong_refl|]. apply (H2 i j).
    + apply wrap_cong. apply cong_mul; apply (H1 i j).
  - intros im0 E. injection E as <-. rewrite H3. ring.
  - intros i j.
    assert (G : forall l s q dd o, (forall i j, exists z, s i j = wrap64 z) ->
       let '(s', _, _, _) := fold_left (int_step (ih im) (iw im)) l (s, q, dd, o) in
       forall i j, exists z, s' i j = wrap64 z).
    { clear. induction l as [|x l IH]; intros s q dd o H; cbn [fold_left]; auto.
      unfold int_step at 2. apply IH. intros. eexists. reflexivity. }
    specialize (G (im :: imgs) (fun _ _ => 0) (fun _ _ => 0) 0%Q None).
    rewrite EF in G. apply G. intros. exists 0. reflexivity.
Qed.

Lemma get_int_inv imgs r :
  get_int_imgs imgs = Ok r -> imgs <> [] ->
  exists h w, same_shape h w imgs.
Proof.
  unfold get_int_imgs. destruct imgs as [|im imgs]; [contradiction|]. intros H _.
  destruct (forallb _ _) eqn:E; simpl negb in H; cbv iota in H; [|discriminate].
  apply same_shape_check in E. eauto.
Qed.

(** ** Bounds *)
Lemma history_length imgs i j : length (history imgs i j) = length imgs.
Proof. apply map_length. Qed.

Lemma history_bits b h w imgs i j :
  bits b h w imgs -> (i < h)%nat -> (j < w)%nat ->
  Forall (fun y => 0 <= y < 2 ^ b) (history imgs i j).
Proof.
  intros H Hi Hj. unfold history. apply Forall_map. eapply Forall_impl; [|exact H].
  intros im G. apply G; auto.
Qed.

Lemma sum_bound ys B :
  Forall (fun y => 0 <= y < B) ys ->
  0 <= exact_sum ys <= Z.of_nat (length ys) * (B - 1).
Proof.
  intro H. pose proof (lsumz_bounds ys 0 (B - 1)) as G. unfold exact_sum.
  assert (Forall (fun x => 0 <= x <= B - 1) ys).
  { eapply Forall_impl; [|exact H]. simpl. intros. lia. }
  specialize (G H0). lia.
Qed.

Lemma sq_bound ys B :
  0 < B ->
  Forall (fun y => 0 <= y < B) ys ->
  0 <= exact_sq ys <= Z.of_nat (length ys) * ((B - 1) * (B - 1)).
Proof.
  intros HB H. unfold exact_sq.
  pose proof (lsumz_bounds (map (fun y => y * y) ys) 0 ((B - 1) * (B - 1))) as G.
  rewrite map_length in G.
  assert (Forall (fun x => 0 <= x <= (B - 1) * (B - 1)) (map (fun y => y * y) ys)).
  { apply Forall_map. eapply Forall_impl; [|exact H]. simpl. intros. nia. }
  specialize (G H0). lia.
Qed.

(** Variance identity over Z: 2 * (L*sq - sum^2) is a sum of squares. *)
Lemma lagrange ys :
  Z.of_nat (length ys) * exact_sq ys - exact_sum ys * exact_sum ys >= 0.
Proof.
  unfold exact_sq, exact_sum.
  (* induction on the list with the mixed terms *)
  assert (G : forall ys, Z.of_nat (length ys) * lsumz (map (fun y => y * y) ys)
                         - lsumz ys * lsumz ys >= 0).
  { clear. induction ys as [|y ys IH]; [simpl; lia|].
    cbn [length map lsumz]. rewrite Nat2Z.inj_succ. unfold Z.succ.
    set (n := Z.of_nat (length ys)) in *.
    set (q := lsumz (map (fun y => y * y) ys)) in *. set (s := lsumz ys) in *.
    (* (n+1)(y^2+q) - (y+s)^2 = n q - s^2 + (n y^2 - 2 y s + q) and
       n (n y^2 - 2 y s + q) = (n y - s)^2 + (n q - s^2) *)
    assert (Hn : 0 <= n) by (unfold n; lia).
    assert (K : 0 <= n * (n * (y * y) - 2 * y * s + q)).
    { replace (n * (n * (y * y) - 2 * y * s + q))
        with ((n * y - s) * (n * y - s) + (n * q - s * s)) by ring.
      pose proof (Z.square_nonneg (n * y - s)). lia. }
    assert (M : 0 <= n * (y * y) - 2 * y * s + q).
    { destruct (Z.eq_dec n 0) as [En|En].
      - assert (ys = []) by (destruct ys; auto; unfold n in En; simpl in En; lia).
        subst ys. unfold s, q. simpl. lia.
      - nia. }
    nia. }
  apply G.
Qed.

Lemma sum_sq_bound ys B :
  0 < B -> Forall (fun y => 0 <= y < B) ys ->
  let L := Z.of_nat (length ys) in
  0 <= L * exact_sq ys - exact_sum ys * exact_sum ys <= L * L * (B * B).
Proof.
  intros HB H L. pose proof (sum_bound ys B H). pose proof (sq_bound ys B HB H).
  pose proof (lagrange ys). fold L in H0, H1, H2. split; [lia|]. nia.
Qed.

(** Exactness under the documented bounds. *)
Lemma documented_exact h w imgs :
  documented h w imgs ->
  exists r, get_int_imgs imgs = Ok r /\ ii_L r = length imgs /\
   ih (ii_sum r) = h /\ iw (ii_sum r) = w /\ ih (ii_pvar r) = h /\ iw (ii_pvar r) = w /\
   forall i j, (i < h)%nat -> (j < w)%nat ->
    let ys := history imgs i j in
    px (ii_sum r) i j = exact_sum ys /\
    px (ii_pvar r) i j =
      Z.of_nat (length imgs) *
        (Z.of_nat (length imgs) * exact_sq ys - exact_sum ys * exact_sum ys).
Proof.
  intros (Hn & HL & Hs & Hb).
  destruct (get_int_ok h w imgs Hn Hs) as (r & E & E1 & E2 & E3 & E4 & E5 & H1 & H2 & _ & H4).
  exists r. repeat split; auto.
  - pose proof (history_bits _ _ _ _ i j Hb H H0) as F.
    pose proof (sum_bound _ _ F) as B. rewrite history_length in B.
    destruct (H4 i j) as (z & Ez). specialize (H1 i j). rewrite Ez in *.
    assert (C : cong z (exact_sum (history imgs i j))).
    { eapply cong_trans; [apply cong_sym, wrap64_cong|exact H1]. }
    apply cong_in_range; auto. change (2 ^ 16) with 65536 in B. lia.
  - rewrite H2. apply wrap64_id.
    pose proof (history_bits _ _ _ _ i j Hb H H0) as F.
    pose proof (sum_sq_bound _ (2 ^ 16) ltac:(lia) F) as B. cbv zeta in B.
    rewrite history_length in B. change (2 ^ 16) with 65536 in B.
    assert (0 <= Z.of_nat (length imgs) <= 1000) by lia.
    set (L := Z.of_nat (length imgs)) in *.
    set (X := L * exact_sq (history imgs i j) - _) in *.
    assert (X <= 1000000 * (65536 * 65536)) by nia.
    assert (0 <= L * X) by nia.
    assert (L * X <= 1000 * (1000000 * (65536 * 65536))) by nia. lia.
Qed.

(** ** C11 *)
Lemma qn_S_sub n : (1 <= n)%nat -> (qn (n - 1) == qn n - 1)%Q.
Proof. intro H. destruct n; [lia|]. rewrite qn_S. simpl. rewrite Nat.sub_0_r. ring. Qed.

Lemma sum_dev ys m :
  (lsumq (map (fun y => (inject_Z y - m) * (inject_Z y - m)) ys) ==
   inject_Z (exact_sq ys) - 2 * m * inject_Z (exact_sum ys) + qn (length ys) * (m * m))%Q.
Proof.
  unfold exact_sq, exact_sum. induction ys as [|y ys IH].
  - unfold qn. simpl. ring.
  - cbn [map lsumq lsumz length]. rewrite IH, qn_S, !inject_Z_plus, inject_Z_mult. ring.
Qed.

Lemma unbiased_var_eq ys :
  (2 <= length ys)%nat ->
  (qn (length ys) * qn (length ys) * qn (length ys - 1) * unbiased_var (map inject_Z ys) ==
   qn (length ys) * (qn (length ys) * inject_Z (exact_sq ys)
                     - inject_Z (exact_sum ys) * inject_Z (exact_sum ys)))%Q.
Proof.
  intro H. unfold unbiased_var. rewrite map_map, map_length.
  set (m := mean (map inject_Z ys)).
  rewrite (sum_dev ys m).
  assert (Em : (m == inject_Z (exact_sum ys) / qn (length ys))%Q).
  { unfold m, mean. rewrite lsumq_inject, map_length. reflexivity. }
  rewrite Em.
  assert (N1 : ~ (qn (length ys) == 0)%Q) by (apply qn_neq0; lia).
  assert (N2 : ~ (qn (length ys - 1) == 0)%Q) by (apply qn_neq0; lia).
  field. auto.
Qed.

Lemma pvar_int L sq s :
  (inject_Z (L * (L * sq - s * s)) ==
   inject_Z L * (inject_Z L * inject_Z sq - inject_Z s * inject_Z s))%Q.
Proof.
  unfold Z.sub. rewrite inject_Z_mult, inject_Z_plus, inject_Z_opp, !inject_Z_mult. ring.
Qed.

Lemma pvar_is_variance h w imgs :
  documented h w imgs -> (2 <= length imgs)%nat ->
  exists r, get_int_imgs imgs = Ok r /\
  forall i j, (i < h)%nat -> (j < w)%nat ->
   (inject_Z (px (ii_pvar r) i j) ==
    qn (length imgs) * qn (length imgs) * qn (length imgs - 1)
    * unbiased_var (map inject_Z (history imgs i j)))%Q.
Proof.
  intros D H. destruct (documented_exact h w imgs D) as (r & E & _ & _ & _ & _ & _ & G).
  exists r. split; auto. intros i j Hi Hj. destruct (G i j Hi Hj) as (_ & ->).
  rewrite pvar_int. pose proof (unbiased_var_eq (history imgs i j)) as U.
  rewrite history_length in U. rewrite U by auto. reflexivity.
Qed.

(** Equality case. *)
Lemma lagrange_eq ys :
  Z.of_nat (length ys) * exact_sq ys - exact_sum ys * exact_sum ys = 0 ->
  forall a b, In a ys -> In b ys -> a = b.
Proof.
  intros H.
  destruct ys as [|y0 ys0] eqn:Ey; [intros a b []|]. rewrite <- Ey in *.
  assert (Hl : (0 < length ys)%nat) by (rewrite Ey; simpl; lia).
  set (m := (inject_Z (exact_sum ys) / qn (length ys))%Q).
  assert (N : ~ (qn (length ys) == 0)%Q) by (apply qn_neq0; auto).
  assert (Z0 : (lsumq (map (fun y => (inject_Z y - m) * (inject_Z y - m)) ys) == 0)%Q).
  { rewrite sum_dev. unfold m.
    assert (E : (inject_Z (exact_sq ys) ==
                 inject_Z (exact_sum ys) * inject_Z (exact_sum ys) / qn (length ys))%Q).
    { assert (E0 : (qn (length ys) * inject_Z (exact_sq ys) ==
                    inject_Z (exact_sum ys) * inject_Z (exact_sum ys))%Q).
      { unfold qn. rewrite <- !inject_Z_mult. apply inject_Z_injective. lia. }
      rewrite <- E0. field. auto. }
    rewrite E. field. auto. }
  apply lsumq_zero_inv in Z0.
  2:{ apply Forall_map. apply Forall_forall. intros y _. apply qsq_nonneg. }
  assert (K : forall a, In a ys -> (inject_Z a == m)%Q).
  { intros a Ha. rewrite Forall_map, Forall_forall in Z0. specialize (Z0 a Ha). simpl in Z0.
    apply Qmult_integral in Z0. lra. }
  intros a b Ha Hb. apply inject_Z_injective. rewrite (K a Ha), (K b Hb). reflexivity.
Qed.

Lemma all_equal_zero ys y :
  (forall a, In a ys -> a = y) ->
  Z.of_nat (length ys) * exact_sq ys - exact_sum ys * exact_sum ys = 0.
Proof.
  intro H. unfold exact_sq, exact_sum.
  assert (S1 : lsumz ys = Z.of_nat (length ys) * y).
  { induction ys as [|a l IH]; [reflexivity|]. cbn [lsumz length].
    rewrite IH by (intros; apply H; right; auto). rewrite (H a) by (left; auto). lia. }
  assert (S2 : lsumz (map (fun y => y * y) ys) = Z.of_nat (length ys) * (y * y)).
  { clear S1. induction ys as [|a l IH]; [reflexivity|]. cbn [map lsumz length].
    rewrite IH by (intros; apply H; right; auto). rewrite (H a) by (left; auto). lia. }
  rewrite S1, S2. ring.
Qed.

Lemma pvar_zero_iff h w imgs :
  documented h w imgs ->
  exists r, get_int_imgs imgs = Ok r /\
  forall i j, (i < h)%nat -> (j < w)%nat ->
    0 <= px (ii_pvar r) i j /\
    (px (ii_pvar r) i j = 0 <->
     forall a b, In a imgs -> In b imgs -> px a i j = px b i j).
Proof.
  intros D. destruct (documented_exact h w imgs D) as (r & E & _ & _ & _ & _ & _ & G).
  exists r. split; auto. intros i j Hi Hj. destruct (G i j Hi Hj) as (_ & ->).
  destruct D as (Hn & _). assert (HL : 0 < Z.of_nat (length imgs)) by (destruct imgs; [contradiction|simpl; lia]).
  pose proof (lagrange (history imgs i j)) as B. rewrite history_length in B.
  split; [nia|]. split.
  - intro Z0. assert (E0 : Z.of_nat (length (history imgs i j)) * exact_sq (history imgs i j)
                       - exact_sum (history imgs i j) * exact_sum (history imgs i j) = 0).
    { rewrite history_length. apply Z.mul_eq_0 in Z0. lia. }
    intros a b Ha Hb. apply (lagrange_eq _ E0); unfold history; apply in_map_iff; eauto.
  - intro K. destruct imgs as [|im0 l0] eqn:Ei; [contradiction|]. rewrite <- Ei in *.
    assert (E0 := all_equal_zero (history imgs i j) (px im0 i j)).
    rewrite history_length in E0. rewrite E0; [lia|].
    intros a Ha. unfold history in Ha. apply in_map_iff in Ha. destruct Ha as (im & <- & Hi').
    apply K; auto. rewrite Ei. left. auto.
Qed.

Lemma history_shift k imgs i j :
  history (map (shift k) imgs) i j = map (fun y => y + k) (history imgs i j).
Proof. unfold history. rewrite !map_map. reflexivity. Qed.

Lemma sum_shift k ys : exact_sum (map (fun y => y + k) ys) = exact_sum ys + k * Z.of_nat (length ys).
Proof. unfold exact_sum. induction ys; cbn [map lsumz length]; lia. Qed.

Lemma sq_shift k ys :
  exact_sq (map (fun y => y + k) ys) =
  exact_sq ys + 2 * k * exact_sum ys + k * k * Z.of_nat (length ys).
Proof.
  unfold exact_sq, exact_sum. induction ys as [|y ys IH]; cbn [map lsumz length]; [simpl; ring|].
  rewrite IH. lia.
Qed.

Lemma pvar_shift h w imgs k r r' :
  imgs <> [] -> same_shape h w imgs ->
  get_int_imgs imgs = Ok r -> get_int_imgs (map (shift k) imgs) = Ok r' ->
  forall i j, px (ii_pvar r') i j = px (ii_pvar r) i j.
Proof.
  intros Hn Hs E E' i j.
  assert (Hs' : same_shape h w (map (shift k) imgs)).
  { unfold same_shape in *. apply Forall_map. exact Hs. }
  assert (Hn' : map (shift k) imgs <> []) by (destruct imgs; [contradiction|discriminate]).
  destruct (get_int_ok h w imgs Hn Hs) as (q & Eq & _ & _ & _ & _ & _ & _ & H2 & _).
  destruct (get_int_ok h w _ Hn' Hs') as (q' & Eq' & _ & _ & _ & _ & _ & _ & H2' & _).
  rewrite E in Eq. injection Eq as <-. rewrite E' in Eq'. injection Eq' as <-.
  rewrite H2, H2'. rewrite map_length, history_shift, sum_shift, sq_shift, history_length.
  f_equal. ring.
Qed.

(** ** C12 *)
Lemma exact_sum_perm a b i j : Permutation a b -> exact_sum (history a i j) = exact_sum (history b i j).
Proof. intro H. apply lsumz_perm. apply Permutation_map. auto. Qed.

Lemma exact_sq_perm a b i j : Permutation a b -> exact_sq (history a i j) = exact_sq (history b i j).
Proof. intro H. apply lsumz_perm. apply Permutation_map, Permutation_map. auto. Qed.

Lemma sum_wrapped h w imgs r :
  imgs <> [] -> same_shape h w imgs -> get_int_imgs imgs = Ok r ->
  forall i j, px (ii_sum r) i j = wrap64 (exact_sum (history imgs i j)).
Proof.
  intros Hn Hs E i j.
  destruct (get_int_ok h w imgs Hn Hs) as (q & Eq & _ & _ & _ & _ & _ & H1 & _ & _ & H4).
  rewrite E in Eq. injection Eq as <-. destruct (H4 i j) as (z & Ez). rewrite Ez.
  apply cong_wrap. eapply cong_trans; [apply cong_sym, wrap64_cong|]. rewrite <- Ez. apply H1.
Qed.

Lemma same_shape_perm h w a b : Permutation a b -> same_shape h w a -> same_shape h w b.
Proof. intros P H. unfold same_shape in *. eapply Permutation_Forall; eauto. Qed.

Lemma int_imgs_order imgs imgs' r :
  Permutation imgs imgs' -> get_int_imgs imgs = Ok r ->
  exists r', get_int_imgs imgs' = Ok r' /\ ii_L r' = ii_L r /\
   shape (ii_sum r') = shape (ii_sum r) /\ shape (ii_pvar r') = shape (ii_pvar r) /\
   forall i j, px (ii_sum r') i j = px (ii_sum r) i j /\
               px (ii_pvar r') i j = px (ii_pvar r) i j.
Proof.
  intros P E. destruct imgs as [|im0 l0] eqn:Ei.
  { apply Permutation_nil in P. subst. exists r. rewrite E. repeat split; auto. }
  rewrite <- Ei in *. assert (Hn : imgs <> []) by (rewrite Ei; discriminate).
  destruct (get_int_inv imgs r E Hn) as (h & w & Hs).
  assert (Hn' : imgs' <> []).
  { intros ->. apply Permutation_sym, Permutation_nil in P. contradiction. }
  pose proof (same_shape_perm _ _ _ _ P Hs) as Hs'.
  destruct (get_int_ok h w imgs Hn Hs) as (q & Eq & A1 & A2 & A3 & A4 & A5 & _ & H2 & _).
  destruct (get_int_ok h w imgs' Hn' Hs') as (r' & E' & B1 & B2 & B3 & B4 & B5 & _ & H2' & _).
  rewrite E in Eq. injection Eq as <-. exists r'. unfold shape.
  repeat split; try congruence.
  - rewrite A1, B1. symmetry. apply Permutation_length. auto.
  - rewrite (sum_wrapped h w imgs r), (sum_wrapped h w imgs' r') by auto.
    rewrite (exact_sum_perm _ _ _ _ P). reflexivity.
  - rewrite H2, H2'. rewrite (exact_sum_perm _ _ i j P), (exact_sq_perm _ _ i j P).
    rewrite (Permutation_length P). reflexivity.
Qed.

Lemma img_mean_grey h w im :
  ih im = h -> iw im = w ->
  (forall r c, (r < h)%nat -> (c < w)%nat -> - 2 ^ 63 <= px im r c < 2 ^ 63) ->
  (img_mean h w (wpx im) == grey_mean im)%Q.
Proof.
  intros <- <- H. unfold img_mean, grey_mean, pixel_mean. rewrite sumq2_inject.
  rewrite (sumz2_ext _ _ (wpx im) (px im)); [reflexivity|].
  intros i j Hi Hj. apply wrap64_id. auto.
Qed.

Lemma dmean_telescopes h w first rest r :
  let imgs := first :: rest in
  same_shape h w imgs -> int64_pixels h w imgs ->
  get_int_imgs imgs = Ok r ->
  (ii_dmean r == grey_mean (last imgs first) - grey_mean first)%Q.
Proof.
  intros imgs Hs Hp E.
  destruct (get_int_ok h w imgs ltac:(discriminate) Hs) as (q & Eq & _ & _ & _ & _ & _ & _ & _ & H3 & _).
  rewrite E in Eq. injection Eq as <-. rewrite (H3 first) by reflexivity.
  assert (Hl : In (last imgs first) imgs).
  { destruct (exists_last (l := imgs) ltac:(discriminate)) as (l & x & Ex). rewrite Ex.
    rewrite last_last. apply in_or_app. right. left. auto. }
  unfold same_shape, int64_pixels in *. rewrite Forall_forall in Hs, Hp.
  assert (Hf : In first imgs) by (left; auto).
  rewrite (img_mean_grey h w (last imgs first)); [|apply (Hs _ Hl)|apply (Hs _ Hl)|apply (Hp _ Hl)].
  rewrite (img_mean_grey h w first); [|apply (Hs _ Hf)|apply (Hs _ Hf)|apply (Hp _ Hf)].
  reflexivity.
Qed.
