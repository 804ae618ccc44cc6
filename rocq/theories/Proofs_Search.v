(** The automatic search of settings; bad pixels. *)
From Coq Require Import List Bool Arith ZArith QArith Qabs Lia Lqa.
From Verif Require Import Base_Prelude Base_Num Base_Order Base_Float Base_Sum Spec_Num Model_Images
  Model_Camera Model_Search Spec_Camera Spec_Search Proofs_Round Proofs_Num Proofs_Float Proofs_Camera.
Import ListNotations.
Open Scope Z_scope.

(** ** The loop *)

(** [P]: cameras of the search; [good]: what the body decides. *)
Lemma for_break_spec (P : camera -> Prop) (good : nat -> pyfloat -> bool) body :
  forall xs k c g,
  (forall j x c, nth_error xs j = Some x -> P c -> exists c', body (k + j)%nat x c = (c', Ok (good (k + j)%nat x)) /\ P c') ->
  P c ->
  exists c' g', for_break body xs k c g = (c', Ok g') /\ P c' /\
    ((xs = [] /\ g' = g) \/
     exists j, nth_error xs j = Some g' /\
       (forall i x, (i < j)%nat -> nth_error xs i = Some x -> good (k + i)%nat x = false) /\
       (good (k + j)%nat g' = true \/ S j = length xs)).
Proof.
  induction xs as [|x xs IH]; intros k c g B Pc; cbn [for_break].
  - exists c, g. auto.
  - destruct (B 0%nat x c eq_refl Pc) as (c1 & E & P1). rewrite Nat.add_0_r in E. rewrite E.
    destruct (good k x) eqn:G.
    + exists c1, x. split; auto. split; auto. right. exists 0%nat. rewrite Nat.add_0_r.
      split; auto. split; [intros; lia|auto].
    + destruct (IH (S k) c1 x) as (c' & g' & E' & P' & [(Hx & Hg)|(j & Hj & Hl & Hr)]); auto.
      * intros j y cc Hy Pcc. specialize (B (S j) y cc Hy Pcc). rewrite <- Nat.add_succ_comm in B. exact B.
      * exists c', g'. split; auto. split; auto. right. subst. exists 0%nat. rewrite Nat.add_0_r.
        split; auto. split; [intros; lia|]. right. reflexivity.
      * exists c', g'. split; auto. split; auto. right. exists (S j). split; [exact Hj|]. split.
        -- intros i y L Hy. destruct i as [|i].
           ++ injection Hy as <-. rewrite Nat.add_0_r. exact G.
           ++ rewrite <- Nat.add_succ_comm. apply Hl; [lia|exact Hy].
        -- rewrite <- Nat.add_succ_comm. destruct Hr as [Hr|Hr]; [auto|]. right. simpl. f_equal. exact Hr.
Qed.

(** ** Criteria *)

Lemma wrap64_id' z : - 2 ^ 63 <= z < 2 ^ 63 -> wrap64 z = z.
Proof. intro H. unfold wrap64. rewrite Z.mod_small; lia. Qed.

Lemma values_some z : values (map Some z) = z.
Proof. unfold values. rewrite map_map. apply map_id. Qed.

Lemma zip_sub_small : forall a b, Forall (fun x => 0 <= x < 2 ^ 53) a -> Forall (fun x => 0 <= x < 2 ^ 53) b ->
  zip_sub a b = differences a b.
Proof.
  induction a as [|x a IH]; intros [|y b] Fa Fb; simpl; auto.
  inversion Fa; inversion Fb; subst. rewrite IH by auto. f_equal.
  rewrite !(wrap64_id' _) by (rewrite ?wrap64_id'; lia). reflexivity.
Qed.

Lemma lsumq_inject d : (lsumq (map inject_Z d) == inject_Z (lsumz d))%Q.
Proof. induction d; simpl; [reflexivity|]. rewrite IHd, inject_Z_plus. reflexivity. Qed.

Lemma lsumq_var (m : Q) d :
  (lsumq (map (fun x => (x - m) * (x - m))%Q (map inject_Z d))
   == inject_Z (lsumz (map (fun x => x * x)%Z d)) - 2 * m * inject_Z (lsumz d) + qn (length d) * (m * m))%Q.
Proof.
  induction d as [|x d IH]; cbn [map lsumq lsumz length].
  - unfold qn. change (Z.of_nat 0) with 0. change (inject_Z 0) with 0%Q. ring.
  - rewrite IH, qn_S, !inject_Z_plus, inject_Z_mult. ring.
Qed.

Lemma noisy_spec img1 img2 z1 z2 : img1 = map Some z1 -> img2 = map Some z2 ->
  Forall (fun x => 0 <= x < 2 ^ 53) z1 -> Forall (fun x => 0 <= x < 2 ^ 53) z2 ->
  (noisy img1 img2 = true <-> spread_over_half (differences z1 z2)).
Proof.
  intros -> -> F1 F2. unfold noisy. rewrite !values_some, zip_sub_small by auto.
  set (d := differences z1 z2). unfold spread_over_half. cbv zeta.
  assert (E : match map inject_Z d with [] => false | _ =>
              negb (Qle_bool (lsumq (map (fun x => (x - lsumq (map inject_Z d) / qn (length (map inject_Z d))) * (x - lsumq (map inject_Z d) / qn (length (map inject_Z d))))%Q (map inject_Z d)) / qn (length (map inject_Z d))) (1 # 4)) end = true
              <-> d <> [] /\ negb (Qle_bool (lsumq (map (fun x => (x - lsumq (map inject_Z d) / qn (length (map inject_Z d))) * (x - lsumq (map inject_Z d) / qn (length (map inject_Z d))))%Q (map inject_Z d)) / qn (length (map inject_Z d))) (1 # 4)) = true).
  { destruct d as [|x d']; [simpl; split; [discriminate|intros (H & _); congruence]|].
    split; [intro H; split; [discriminate|exact H]|intros (_ & H); exact H]. }
  rewrite E. clear E. rewrite map_length.
  destruct d as [|x d'].
  { split; [intros (H & _); congruence|]. simpl. lia. }
  assert (N : (0 < length (x :: d'))%nat) by (simpl; lia).
  generalize dependent (x :: d'). clear x d'. intros d N.
  assert (Nn : d <> []) by (intro; subst; simpl in N; lia).
  rewrite negb_true_iff. rewrite <- not_true_iff_false, Qle_bool_iff.
  pose proof (qn_pos _ N) as P. set (n := qn (length d)) in *.
  rewrite lsumq_var. rewrite lsumq_inject. fold n.
  set (S2 := lsumz (map (fun x => x * x) d)). set (S1 := lsumz d).
  assert (EN : (n == inject_Z (Z.of_nat (length d)))%Q) by reflexivity.
  assert (V : ((inject_Z S2 - 2 * (inject_Z S1 / n) * inject_Z S1 + n * (inject_Z S1 / n * (inject_Z S1 / n))) / n
               == (n * inject_Z S2 - inject_Z S1 * inject_Z S1) / (n * n))%Q) by (field; lra).
  rewrite V.
  set (L := Z.of_nat (length d)) in *.
  assert (C : (((n * inject_Z S2 - inject_Z S1 * inject_Z S1) / (n * n) <= 1 # 4)
              <-> 4 * (n * inject_Z S2 - inject_Z S1 * inject_Z S1) <= n * n)%Q).
  { assert (PP : (0 < n * n)%Q) by nra.
    split; intro H.
    - apply (Qmult_le_r _ _ (n * n)) in H; [|exact PP].
      setoid_replace ((n * inject_Z S2 - inject_Z S1 * inject_Z S1) / (n * n) * (n * n))%Q
        with (n * inject_Z S2 - inject_Z S1 * inject_Z S1)%Q in H by (field; lra). lra.
    - apply (Qmult_le_r _ _ (n * n)); [exact PP|].
      setoid_replace ((n * inject_Z S2 - inject_Z S1 * inject_Z S1) / (n * n) * (n * n))%Q
        with (n * inject_Z S2 - inject_Z S1 * inject_Z S1)%Q by (field; lra). lra. }
  rewrite C. rewrite EN.
  assert (Z1 : (4 * (inject_Z L * inject_Z S2 - inject_Z S1 * inject_Z S1) == inject_Z (4 * (L * S2 - S1 * S1)))%Q).
  { unfold Z.sub. rewrite !inject_Z_mult, inject_Z_plus, inject_Z_opp, !inject_Z_mult. reflexivity. }
  rewrite Z1, <- inject_Z_mult, <- Zle_Qle. split; [intros (_ & H); lia|intro H; split; [auto|lia]].
Qed.

Lemma bright_spec c img z : img = map Some z -> Z.of_nat (c_width c * c_height c) < 2 ^ 40 ->
  let pixels := Z.of_nat (c_width c * c_height c) in
  (bright_enough c img = true -> 199 * pixels <= 200 * nonzeros z) /\
  (bright_enough c img = false -> 200 * nonzeros z <= 199 * pixels).
Proof.
  intros -> B. cbv zeta. unfold bright_enough, count_nonzero. rewrite values_some. fold (nonzeros z).
  set (p := Z.of_nat (c_width c * c_height c)) in *. assert (P : 0 <= p) by (unfold p; lia).
  destruct (f_int_exact p) as (v & Ev & V); [rewrite Z.abs_eq by lia; lia|]. rewrite Ev.
  destruct (rnd64 (995 # 1000)) as [c0| |] eqn:Ec; [|vm_compute in Ec; discriminate|vm_compute in Ec; discriminate].
  assert (C0 : (Qabs (c0 - (995 # 1000)) <= 1 # 2 ^ 53)%Q).
  { vm_compute in Ec. injection Ec as <-. vm_compute. discriminate. }
  apply Qabs_Qle_condition in C0. clear Ec.
  cbn [fmul].
  assert (Pq : (0 <= inject_Z p <= 1099511627776 # 1)%Q).
  { split; [change 0%Q with (inject_Z 0); rewrite <- Zle_Qle; auto|].
    change (1099511627776 # 1)%Q with (inject_Z (2 ^ 40)). rewrite <- Zle_Qle. lia. }
  assert (VC : (- (1 # 8192) <= v * c0 - inject_Z p * (995 # 1000) <= 1 # 8192)%Q).
  { rewrite V. generalize dependent (inject_Z p). intros q _ Hq.
    change (1 # 2 ^ 53)%Q with (1 # 9007199254740992)%Q in C0. nra. }
  destruct (rnd64_small (v * c0)) as (r & Er & Ar).
  { change (inject_Z (2 ^ 44)) with (17592186044416 # 1)%Q. apply Qabs_case; intros _; lra. }
  rewrite Er. apply Qabs_Qle_condition in Ar. cbn [flt].
  set (nz := nonzeros z).
  split; intro H.
  - apply qlt_bool in H.
    assert (K : (199 * inject_Z p < 200 * inject_Z nz + inject_Z 1)%Q) by (change (inject_Z 1) with 1%Q; lra).
    change 199%Q with (inject_Z 199) in K. change 200%Q with (inject_Z 200) in K.
    rewrite <- !inject_Z_mult, <- inject_Z_plus in K. rewrite <- Zlt_Qlt in K. lia.
  - apply negb_false_iff, Qle_bool_iff in H.
    assert (K : (200 * inject_Z nz < 199 * inject_Z p + inject_Z 1)%Q) by (change (inject_Z 1) with 1%Q; lra).
    change 199%Q with (inject_Z 199) in K. change 200%Q with (inject_Z 200) in K.
    rewrite <- !inject_Z_mult, <- inject_Z_plus in K. rewrite <- Zlt_Qlt in K. lia.
Qed.

(** ** Images of a good camera *)

Lemma forall_some img : Forall (fun p => exists z, p = Some z /\ 0 <= z < 2 ^ 53) img ->
  exists zs, img = map Some zs /\ Forall (fun x => 0 <= x < 2 ^ 53) zs.
Proof.
  induction 1 as [|p img (z & -> & B) F (zs & -> & Fz)].
  - exists []. auto.
  - exists (z :: zs). auto.
Qed.

Lemma grab_values c d : (c_bits c <= 53)%nat -> good_camera c -> good_draws c d ->
  exists zs, grab c d = Ok (map Some zs) /\ Forall (fun x => 0 <= x < 2 ^ 53) zs.
Proof.
  intros Hb G D. destruct (grab_range c d Hb G D) as (img & E & _ & F).
  destruct (forall_some img) as (zs & -> & Fz); [|eauto].
  eapply Forall_impl; [|exact F]. intros p (z & -> & B & _). exists z. split; auto.
  assert (2 ^ Z.of_nat (c_bits c) <= 2 ^ 53) by (apply Z.pow_le_mono_r; lia). lia.
Qed.

Lemma good_with_K c k : good_camera c -> a_number k -> good_camera (with_K c k).
Proof. intros (H1 & H2 & H3 & H4 & H5) Hk. unfold good_camera. auto. Qed.
Lemma good_with_offset c b : good_camera c -> a_number b -> good_camera (with_offset c b).
Proof. intros (H1 & H2 & H3 & H4 & H5) Hk. unfold good_camera. auto. Qed.

Lemma machine_number x : machine x -> a_number x.
Proof. intros (q & -> & _). exists q. reflexivity. Qed.

(** ** The settings were set before *)

Definition was_set (c : camera) : Prop :=
  (exists v, nearest_value v (c_Ks c) = Ok (c_K c)) /\
  (exists v, nearest_value v (c_blackoffsets c) = Ok (c_blackoffset c)).

Lemma step_was_set c o : was_set c -> was_set (step c o).
Proof.
  intros ((v & Hv) & (w & Hw)). destruct o as [x|x|x|x|x|]; simpl; try (split; [exists v|exists w]; auto; fail).
  - unfold set_K. destruct (nearest_value x (c_Ks c)) as [k|] eqn:E; cbn [bind after].
    + split; [exists x; auto|exists w; auto].
    + split; [exists v|exists w]; auto.
  - unfold set_blackoffset. destruct (nearest_value x (c_blackoffsets c)) as [k|] eqn:E; cbn [bind after].
    + split; [exists v; auto|exists x; auto].
    + split; [exists v|exists w]; auto.
Qed.

Lemma run_was_set ops : forall c, was_set c -> was_set (run c ops).
Proof.
  unfold run. induction ops as [|o ops IH]; intros c H; simpl; auto. apply IH, step_was_set, H.
Qed.

Lemma make_was_set b h w e K Kmin Kmax Ks bo bomin bomax bos u d c :
  make_camera b h w e K Kmin Kmax Ks bo bomin bomax bos u d = Ok c -> was_set c.
Proof.
  unfold make_camera. destruct (nearest_value K _) as [k|] eqn:E1; [|discriminate]. cbn [bind].
  destruct (nearest_value bo _) as [o|] eqn:E2; [|discriminate]. cbn [bind].
  intro H. injection H as <-. split; [exists K|exists bo]; auto.
Qed.

(** ** Both searches *)

(** In an increasing list a request for an element gives this element. *)
Lemma increasing_granted arr a : increasing arr -> Forall machine arr -> In a arr -> nearest_value a arr = Ok a.
Proof.
  intros Inc F I. destruct (nearest_available a arr F I) as (r & H & E). rewrite H. f_equal.
  pose proof (nearest_in _ _ _ H) as Ir. apply In_nth_error in I, Ir. destruct I as (i & Hi), Ir as (j & Hj).
  destruct (Nat.lt_trichotomy i j) as [L|[L|L]].
  - destruct (increasing_nth arr Inc i j _ _ L Hi Hj) as (x & y & -> & -> & B). simpl in E.
    apply Qeq_bool_iff in E. lra.
  - congruence.
  - destruct (increasing_nth arr Inc j i _ _ L Hj Hi) as (x & y & -> & -> & B). simpl in E.
    apply Qeq_bool_iff in E. lra.
Qed.

Lemma with_K_self c : with_K c (c_K c) = c.
Proof. destruct c; reflexivity. Qed.
Lemma with_offset_self c : with_offset c (c_blackoffset c) = c.
Proof. destruct c; reflexivity. Qed.

Lemma gain_found c ds : (c_bits c <= 53)%nat -> good_camera c -> (forall k, good_draws c (ds k)) ->
  was_set c -> increasing (c_Ks c) -> Forall machine (c_Ks c) ->
  exists g, get_emva_gain c ds = (c, Ok g) /\ first_good (c_Ks c) (gain_suffices c ds) g.
Proof.
  intros Hb G D ((v & Hv) & _) Inc F.
  set (images := fun j (k : pyfloat) =>
    match grab (with_K c k) (ds (2 * j)%nat), grab (with_K c k) (ds (2 * j + 1)%nat) with
    | Ok i1, Ok i2 => noisy i1 i2 | _, _ => false end).
  assert (Im : forall j k, nth_error (c_Ks c) j = Some k ->
    exists z1 z2, grab (with_K c k) (ds (2 * j)%nat) = Ok (map Some z1) /\
      grab (with_K c k) (ds (2 * j + 1)%nat) = Ok (map Some z2) /\
      (images j k = true <-> spread_over_half (differences z1 z2))).
  { intros j k Hk. rewrite Forall_forall in F.
    assert (Gk : good_camera (with_K c k)).
    { apply good_with_K; auto. apply machine_number, F. eapply nth_error_In, Hk. }
    destruct (grab_values (with_K c k) (ds (2 * j)%nat) Hb Gk (D _)) as (z1 & E1 & F1).
    destruct (grab_values (with_K c k) (ds (2 * j + 1)%nat) Hb Gk (D _)) as (z2 & E2 & F2).
    exists z1, z2. split; auto. split; auto. unfold images. rewrite E1, E2. apply noisy_spec; auto. }
  unfold get_emva_gain. destruct (c_Ks c) as [|g0 rest] eqn:EK; [discriminate|]. rewrite <- EK in *.
  destruct (for_break_spec (fun c' => exists k, c' = with_K c k) images (gain_body ds) (c_Ks c) 0 c g0)
    as (c' & g' & E & (k & ->) & S).
  - intros j x cc Hx (k & ->). simpl plus. unfold gain_body, set_K. cbn [with_K c_Ks].
    rewrite (increasing_granted (c_Ks c) x Inc F) by (eapply nth_error_In, Hx). cbn [bind].
    fold (with_K c x). exists (with_K c x). split; [|eauto].
    destruct (Im j x Hx) as (z1 & z2 & E1 & E2 & _).
    change (mkCam _ _ _ _ _ _ _ _ _ _) with (with_K c x). rewrite E1. cbn [bind]. rewrite E2. cbn [bind].
    unfold images. rewrite E1, E2. reflexivity.
  - exists (c_K c). symmetry. apply with_K_self.
  - rewrite E. exists g'.
    assert (R : set_K (with_K c k) (c_K c) = Ok c).
    { unfold set_K. cbn [with_K c_Ks]. rewrite (nearest_again _ _ _ F Hv). cbn [bind]. f_equal. transitivity (with_K c (c_K c)); [reflexivity|apply with_K_self]. }
    rewrite R. split; [reflexivity|].
    destruct S as [(Hn & _)|(j & Hj & Hl & Hr)]; [congruence|].
    exists j. split; auto. split.
    + intros i Hi (k1 & z1 & z2 & Ek & E1 & E2 & Sp).
      specialize (Hl i k1 Hi Ek). simpl plus in Hl.
      destruct (Im i k1 Ek) as (y1 & y2 & E1' & E2' & I).
      rewrite E1 in E1'. rewrite E2 in E2'. injection E1' as E1'. injection E2' as E2'.
      assert (Inj : forall a b : list Z, map Some a = map Some b -> a = b).
      { intros a b Hab. rewrite <- (values_some a), Hab. apply values_some. }
      apply Inj in E1', E2'. subst. apply I in Sp. congruence.
    + destruct Hr as [Hr|Hr]; [left|right; auto]. simpl plus in Hr.
      destruct (Im j g' Hj) as (z1 & z2 & E1 & E2 & I). exists g', z1, z2.
      repeat split; auto. apply I, Hr.
Qed.

(** The camera's offset search, with the rounding of [0.995 * pixels]. *)
Lemma offset_found c ds : (c_bits c <= 53)%nat -> good_camera c -> (forall k, good_draws c (ds k)) ->
  Z.of_nat (c_width c * c_height c) < 2 ^ 40 ->
  was_set c -> increasing (c_blackoffsets c) -> Forall machine (c_blackoffsets c) ->
  exists b k, get_emva_blackoffset c ds = (c, Ok b) /\ nth_error (c_blackoffsets c) k = Some b /\
    (forall j, (j < k)%nat -> ~ offset_suffices true c ds j) /\
    (offset_suffices false c ds k \/ S k = length (c_blackoffsets c)).
Proof.
  intros Hb G D Sz (_ & (v & Hv)) Inc F.
  set (images := fun j (b : pyfloat) =>
    match grab (with_offset c b) (ds j) with Ok i => bright_enough c i | _ => false end).
  assert (Im : forall j b, nth_error (c_blackoffsets c) j = Some b ->
    exists z, grab (with_offset c b) (ds j) = Ok (map Some z) /\
      (images j b = true -> 199 * Z.of_nat (c_width c * c_height c) <= 200 * nonzeros z) /\
      (images j b = false -> 200 * nonzeros z <= 199 * Z.of_nat (c_width c * c_height c))).
  { intros j b Hk. rewrite Forall_forall in F.
    assert (Gk : good_camera (with_offset c b)).
    { apply good_with_offset; auto. apply machine_number, F. eapply nth_error_In, Hk. }
    destruct (grab_values (with_offset c b) (ds j) Hb Gk (D _)) as (z & E1 & F1).
    exists z. split; auto. unfold images. rewrite E1. apply bright_spec; auto. }
  unfold get_emva_blackoffset. destruct (c_blackoffsets c) as [|g0 rest] eqn:EK; [discriminate|]. rewrite <- EK in *.
  destruct (for_break_spec (fun c' => exists k, c' = with_offset c k) images (offset_body ds) (c_blackoffsets c) 0 c g0)
    as (c' & g' & E & (k & ->) & S).
  - intros j x cc Hx (k & ->). simpl plus. unfold offset_body, set_blackoffset. cbn [with_offset c_blackoffsets].
    rewrite (increasing_granted (c_blackoffsets c) x Inc F) by (eapply nth_error_In, Hx). cbn [bind].
    exists (with_offset c x). split; [|eauto].
    destruct (Im j x Hx) as (z1 & E1 & _).
    change (mkCam _ _ _ _ _ _ _ _ _ _) with (with_offset c x). rewrite E1. cbn [bind].
    unfold images. rewrite E1. reflexivity.
  - exists (c_blackoffset c). symmetry. apply with_offset_self.
  - rewrite E. 
    assert (R : set_blackoffset (with_offset c k) (c_blackoffset c) = Ok c).
    { unfold set_blackoffset. cbn [with_offset c_blackoffsets]. rewrite (nearest_again _ _ _ F Hv). cbn [bind]. f_equal. transitivity (with_offset c (c_blackoffset c)); [reflexivity|apply with_offset_self]. }
    rewrite R.
    destruct S as [(Hn & _)|(j & Hj & Hl & Hr)]; [congruence|].
    exists g', j. split; auto. split; auto. split.
    + intros i Hi (k1 & z1 & Ek & E1 & Sp). cbv zeta in Sp.
      specialize (Hl i k1 Hi Ek). simpl plus in Hl.
      destruct (Im i k1 Ek) as (y1 & E1' & _ & I). specialize (I Hl).
      rewrite E1 in E1'. injection E1' as E1'.
      assert (Inj : forall a b : list Z, map Some a = map Some b -> a = b).
      { intros a b Hab. rewrite <- (values_some a), Hab. apply values_some. }
      apply Inj in E1'. subst. lia.
    + destruct Hr as [Hr|Hr]; [left|right; auto]. simpl plus in Hr.
      destruct (Im j g' Hj) as (z1 & E1 & I & _). exists g', z1.
      repeat split; auto. 
Qed.
