(** Operation points: number and exposures. *)
From Coq Require Import List Bool Arith ZArith QArith Qabs Lia Lqa.
From Verif Require Import Base_Prelude Base_Num Base_Order Base_Float Model_Camera Model_Points
  Spec_Dataset Proofs_Float Proofs_Camera Proofs_Parser Proofs_Points.
Import ListNotations.
Open Scope nat_scope.

(** ** The loop *)

Lemma dset_new {V} k (v : V) d : Forall (fun kv => feq k (fst kv) = false) d ->
  dset feq k v d = d ++ [(k, v)].
Proof.
  induction 1 as [|(k', v') d H _ IH]; simpl; auto. simpl in H. rewrite H, IH. reflexivity.
Qed.

Lemma dset_length {V} k (v : V) d : length (dset feq k v d) <= S (length d).
Proof. induction d as [|(k', v') d IH]; simpl; auto. destruct (feq k k'); simpl; lia. Qed.

Lemma dset_values {V} k (v : V) d : Forall (fun kv => snd kv = v) d ->
  Forall (fun kv => snd kv = v) (dset feq k v d).
Proof.
  induction 1 as [|(k', v') d H HF IH]; simpl; [repeat constructor|].
  destruct (feq k k'); constructor; auto.
Qed.

Lemma dset_keys_false {V} a k (v : V) d : feq a k = false ->
  Forall (fun kv => feq a (fst kv) = false) d -> Forall (fun kv => feq a (fst kv) = false) (dset feq k v d).
Proof.
  intros A. induction 1 as [|(k', v') d H HF IH]; simpl; [repeat constructor; auto|].
  destruct (feq k k'); constructor; auto.
Qed.

Lemma all_different_map {V} (k : pyfloat) (d : list (pyfloat * V)) :
  Forall (fun b => feq k b = false) (map fst d) <-> Forall (fun kv => feq k (fst kv) = false) d.
Proof. rewrite Forall_map. reflexivity. Qed.

Lemma dset_different {V} k (v : V) d : all_different (map fst d) -> all_different (map fst (dset feq k v d)).
Proof.
  unfold all_different. induction d as [|(k', v') d IH]; intro H; simpl.
  - repeat constructor.
  - inversion H as [|? ? Hk Hd]; subst. destruct (feq k k') eqn:E; [exact H|].
    simpl. constructor; [|apply IH; auto].
    apply all_different_map. apply dset_keys_false; [rewrite feq_sym; exact E|].
    apply all_different_map. exact Hk.
Qed.

Lemma temporal_distinct steps rads : forall exposures n p,
  all_different (map fst (p_temporal p) ++ exposures) ->
  p_temporal (exposure_points steps rads n exposures p)
  = p_temporal p ++ map (fun t => (t, rads)) exposures.
Proof.
  induction exposures as [|t l IH]; intros n p H; simpl; [rewrite app_nil_r; reflexivity|].
  assert (Hn : Forall (fun kv => feq t (fst kv) = false) (p_temporal p)).
  { revert H. unfold all_different. generalize (p_temporal p) as d. induction d as [|(k, v) d IHd]; intro H; [constructor|].
    inversion H as [|? ? Hk Hd]; subst. constructor; [|apply IHd; auto].
    rewrite Forall_app in Hk. destruct Hk as (_ & Hk). inversion Hk; subst. simpl. rewrite feq_sym. auto. }
  rewrite IH; simpl; rewrite dset_new by auto.
  - rewrite <- app_assoc. reflexivity.
  - rewrite map_app, <- app_assoc. exact H.
Qed.

Lemma temporal_shape steps rads : forall exposures n p,
  Forall (fun kv => snd kv = rads) (p_temporal p) -> all_different (map fst (p_temporal p)) ->
  let q := exposure_points steps rads n exposures p in
  Forall (fun kv => snd kv = rads) (p_temporal q) /\ all_different (map fst (p_temporal q)) /\
  length (p_temporal q) <= length (p_temporal p) + length exposures.
Proof.
  induction exposures as [|t l IH]; intros n p V D; simpl; [rewrite Nat.add_0_r; auto|].
  destruct (IH (S n) (mkPoints (if is_point_spatial steps n then dset feq t rads (p_spatial p) else p_spatial p)
                        (dset feq t rads (p_temporal p)))) as (A & B & C).
  - apply dset_values; auto.
  - apply dset_different; auto.
  - split; [exact A|]. split; [exact B|]. eapply Nat.le_trans; [exact C|].
    simpl. pose proof (dset_length t rads (p_temporal p)). lia.
Qed.

(** Every exposure of the list is in the dictionary. *)
Lemma dset_in {V} k (v : V) d a : (In a (map fst d) \/ a = k) ->
  exists b, In b (map fst (dset feq k v d)) /\ (b = a \/ feq a b = true).
Proof.
  induction d as [|(k', v') d IH]; intros [H|H]; simpl in *.
  - destruct H.
  - exists k. auto.
  - destruct (feq k k') eqn:E; simpl.
    + exists a. auto.
    + destruct H as [<-|H]; [exists k'; auto|].
      destruct IH as (b & B1 & B2); auto. exists b. auto.
  - subst. destruct (feq k k') eqn:E; simpl.
    + exists k'. auto.
    + destruct IH as (b & B1 & B2); auto. exists b. auto.
Qed.

Lemma spatial_none steps rads : forall exposures n p, steps / 2 < n -> n + length exposures <= steps ->
  p_spatial (exposure_points steps rads n exposures p) = p_spatial p.
Proof.
  induction exposures as [|t l IH]; intros n p H L; auto. cbn [length] in L.
  cbn [exposure_points]. rewrite IH by lia. cbn [p_spatial]. unfold is_point_spatial.
  destruct (Nat.eqb_spec n (steps / 2)); [lia|].
  destruct (Nat.eqb_spec n (steps + steps / 2)); [lia|]. reflexivity.
Qed.

Lemma spatial_one steps rads : forall exposures n p, n <= steps / 2 -> n + length exposures = steps ->
  0 < steps ->
  exists t, nth_error exposures (steps / 2 - n) = Some t /\
    p_spatial (exposure_points steps rads n exposures p) = dset feq t rads (p_spatial p).
Proof.
  induction exposures as [|t l IH]; intros n p H L P; cbn [length] in L.
  - assert (steps / 2 < steps) by (apply Nat.div_lt; lia). lia.
  - destruct (Nat.eq_dec n (steps / 2)) as [E|E].
    + exists t. rewrite <- E, Nat.sub_diag. split; [reflexivity|].
      cbn [exposure_points]. rewrite spatial_none by lia. cbn [p_spatial]. unfold is_point_spatial.
      rewrite E, Nat.eqb_refl. reflexivity.
    + destruct (IH (S n) (mkPoints (p_spatial p) (dset feq t rads (p_temporal p)))) as (u & U1 & U2); try lia.
      exists u. replace (steps / 2 - n) with (S (steps / 2 - S n)) by lia. split; [exact U1|].
      cbn [p_spatial] in U2. rewrite <- U2. cbn [exposure_points]. unfold is_point_spatial.
      destruct (Nat.eqb_spec n (steps / 2)); [lia|].
      destruct (Nat.eqb_spec n (steps + steps / 2)); [lia|]. reflexivity.
Qed.

Lemma series_shape size lo hi rad steps : 0 < steps ->
  let p := exposure_series size lo hi rad steps in
  let exposures := map (np_round 1) (linspace lo hi steps) in
  (exists t, nth_error exposures (steps / 2) = Some t /\ p_spatial p = [(t, [rad; zeros size])]) /\
  Forall (fun kv => snd kv = [rad; zeros size]) (p_temporal p) /\
  all_different (map fst (p_temporal p)) /\
  length (p_temporal p) <= steps /\
  (all_different exposures -> p_temporal p = map (fun t => (t, [rad; zeros size])) exposures).
Proof.
  intros P p exposures. unfold p, exposure_series. fold exposures.
  assert (Len : length exposures = steps) by (unfold exposures; rewrite map_length; apply linspace_length).
  split; [|split; [|split; [|split]]].
  - destruct (spatial_one steps [rad; zeros size] exposures 0 (mkPoints [] [])) as (t & T1 & T2); try lia.
    rewrite Nat.sub_0_r in T1. exists t. split; auto.
  - apply temporal_shape; constructor.
  - apply (temporal_shape steps [rad; zeros size] exposures 0 (mkPoints [] [])); constructor.
  - rewrite <- Len at 2.
    apply (temporal_shape steps [rad; zeros size] exposures 0 (mkPoints [] [])); constructor.
  - intro D. rewrite temporal_distinct by exact D. reflexivity.
Qed.

(** ** Evenly spaced exposures *)

Open Scope Q_scope.

Lemma set_last_nth {A} (x : A) l : forall i, (S i < length l)%nat -> nth_error (set_last x l) i = nth_error l i.
Proof.
  induction l as [|a l IH]; intros i H; [simpl in H; lia|].
  destruct l as [|b l]; [simpl in H; lia|].
  change (set_last x (a :: b :: l)) with (a :: set_last x (b :: l)).
  destruct i; auto. cbn [nth_error]. apply IH. simpl in *. lia.
Qed.

Lemma set_last_end {A} (x : A) l : l <> [] -> nth_error (set_last x l) (length l - 1) = Some x.
Proof.
  induction l as [|a l IH]; intro H; [congruence|]. destruct l as [|b l]; [reflexivity|].
  change (set_last x (a :: b :: l)) with (a :: set_last x (b :: l)).
  replace (length (a :: b :: l) - 1)%nat with (S (length (b :: l) - 1)) by (simpl; lia).
  cbn [nth_error]. apply IH. discriminate.
Qed.

Lemma nth_map_seq {A} (f : nat -> A) n i : (i < n)%nat -> nth_error (map f (seq 0 n)) i = Some (f i).
Proof.
  intro H. rewrite nth_error_map.
  assert (E : nth_error (seq 0 n) i = Some i).
  { rewrite (nth_error_nth' _ 0%nat) by (rewrite seq_length; auto). rewrite seq_nth by auto. reflexivity. }
  rewrite E. reflexivity.
Qed.

Lemma Qabs_le_iff x y : Qabs x <= y <-> - y <= x /\ x <= y.
Proof.
  split.
  - intro H. pose proof (Qle_Qabs x). pose proof (Qle_Qabs (- x)) as H2. rewrite Qabs_opp in H2. lra.
  - intros (A & B). apply Qabs_case; intros; lra.
Qed.

Notation B38 := (inject_Z (2 ^ 38)).

Lemma spaced_values lo hi n :
  (2 <= n)%nat -> Qabs lo <= B38 -> Qabs hi <= B38 ->
  lo + (1 # 5) * inject_Z (Z.of_nat (n - 1)) <= hi ->
  exists s, (19 # 100) <= s /\
    forall i, (i < n)%nat -> exists v, nth_error (linspace (FFin lo) (FFin hi) n) i = Some (FFin v) /\
      Qabs (v - (inject_Z (Z.of_nat i) * s + lo)) <= 1 # 256 /\ Qabs v <= inject_Z (2 ^ 40) /\
      Qabs (inject_Z (Z.of_nat i) * s - inject_Z (Z.of_nat i) / inject_Z (Z.of_nat (n - 1)) * (hi - lo)) <= 3 # 1000.
Proof.
  intros N Lo Hi Sp. set (m := inject_Z (Z.of_nat (n - 1))) in *.
  assert (M1 : 1 <= m).
  { unfold m. change 1 with (inject_Z 1). rewrite <- Zle_Qle. lia. }
  apply Qabs_le_iff in Lo. apply Qabs_le_iff in Hi.
  assert (E38 : B38 == 274877906944 # 1) by reflexivity.
  rewrite E38 in Lo, Hi.
  assert (M2 : m <= 10 * (274877906944 # 1)) by lra.
  (* the difference *)
  assert (Bd : Qabs (hi + - lo) <= inject_Z (2 ^ 44)).
  { apply Qabs_le_iff. change (inject_Z (2 ^ 44)) with (17592186044416 # 1). lra. }
  destruct (rnd64_small _ Bd) as (d & Ed & Dd). apply Qabs_le_iff in Dd.
  assert (Ef : exists w, f_int (Z.of_nat (n - 1)) = FFin w /\ w == m).
  { apply f_int_exact. assert (C : m < inject_Z (2 ^ 53)).
    { eapply Qle_lt_trans; [exact M2|reflexivity]. }
    unfold m in C. rewrite <- Zlt_Qlt in C. lia. }
  destruct Ef as (w & Ew & Vw).
  assert (Wp : 0 < w) by (rewrite Vw; lra).
  assert (Wn : (Qnum w =? 0)%Z = false).
  { apply Z.eqb_neq. intro Z0. unfold Qlt in Wp. rewrite Z0 in Wp. simpl in Wp. lia. }
  assert (Q1 : (19 # 100) * m <= d) by lra.
  assert (Q2 : d <= 3 * (274877906944 # 1)) by lra.
  assert (Dw : d / w == d / m) by (rewrite Vw; reflexivity).
  assert (Mz : ~ m == 0) by (intro Z0; rewrite Z0 in M1; lra).
  assert (R1 : (198 # 1000) <= d / m).
  { apply Qle_shift_div_l; lra. }
  assert (R2 : d / m <= 3 * (274877906944 # 1)).
  { apply Qle_shift_div_r; [lra|]. apply Qle_trans with (3 * (274877906944 # 1) * 1); [lra|].
    apply Qmult_le_l; [reflexivity|exact M1]. }
  destruct (rnd64_rel (d / w)) as (s & Es & Ds).
  { rewrite Dw. rewrite Qabs_pos; lra. }
  { rewrite Dw. rewrite Qabs_pos by lra. eapply Qle_trans; [exact R2|]. discriminate. }
  rewrite Dw in Ds. rewrite (Qabs_pos (d / m)) in Ds by lra. apply Qabs_le_iff in Ds.
  set (e := d / m) in *.
  assert (Em : e * m == d) by (unfold e; field; exact Mz).
  assert (K53 : 0 <= e * (1 # 2 ^ 53) /\ e * (1 # 2 ^ 53) <= 1 # 1000).
  { change (1 # 2 ^ 53) with (1 # 9007199254740992). lra. }
  assert (S1 : (19 # 100) <= s) by lra.
  (* s * m is close to d *)
  assert (Sm : - (1 # 1000) <= s * m - d /\ s * m - d <= 1 # 1000).
  { assert (X : s * m - d == (s - e) * m) by (rewrite <- Em; ring). rewrite X.
    assert (Y : d * (1 # 2 ^ 53) <= 1 # 1000).
    { change (1 # 2 ^ 53) with (1 # 9007199254740992). lra. }
    assert (Z1 : (s - e) * m <= e * (1 # 2 ^ 53) * m) by (apply Qmult_le_compat_r; lra).
    assert (Z2 : - (e * (1 # 2 ^ 53)) * m <= (s - e) * m) by (apply Qmult_le_compat_r; lra).
    assert (Z3 : e * (1 # 2 ^ 53) * m == d * (1 # 2 ^ 53)) by (rewrite <- Em; ring).
    assert (Z4 : - (e * (1 # 2 ^ 53)) * m == - (d * (1 # 2 ^ 53))) by (rewrite <- Em; ring).
    rewrite Z3 in Z1. rewrite Z4 in Z2. lra. }
  assert (Near : forall i, (i < n)%nat ->
    Qabs (inject_Z (Z.of_nat i) * s - inject_Z (Z.of_nat i) / m * (hi - lo)) <= 3 # 1000).
  { intros i Hi'. set (x := inject_Z (Z.of_nat i)).
    assert (X0 : 0 <= x) by (unfold x; change 0 with (inject_Z 0); rewrite <- Zle_Qle; lia).
    assert (X1 : x <= m) by (unfold x, m; rewrite <- Zle_Qle; lia).
    assert (U0 : 0 <= x / m) by (apply Qle_shift_div_l; lra).
    assert (U1 : x / m <= 1) by (apply Qle_shift_div_r; lra).
    assert (Eq : x * s - x / m * (hi - lo) == x / m * (s * m - (hi - lo))) by (field; exact Mz).
    rewrite Eq. set (u := x / m) in *. set (w' := s * m - (hi - lo)).
    assert (W : - (3 # 1000) <= w' /\ w' <= 3 # 1000) by (unfold w'; lra).
    apply Qabs_le_iff.
    assert (u * w' <= u * (3 # 1000)) by (rewrite !(Qmult_comm u); apply Qmult_le_compat_r; lra).
    assert (u * (- (3 # 1000)) <= u * w') by (rewrite !(Qmult_comm u); apply Qmult_le_compat_r; lra).
    lra. }
  exists s. split; [exact S1|]. intros i Hi'.
  unfold linspace. assert ((n <=? 1)%nat = false) as -> by (apply Nat.leb_gt; lia).
  unfold fsub. cbn [fneg fadd]. rewrite Ed, Ew. cbn [fdiv]. rewrite Wn, Es.
  assert (Fz : feq (FFin s) fzero = false).
  { simpl. destruct (Qeq_bool s 0) eqn:Z0; auto. apply Qeq_bool_eq in Z0. lra. }
  rewrite Fz. rewrite !map_map.
  set (g := fun x => fadd (fmul (f_int (Z.of_nat x)) (FFin s)) (FFin lo)).
  assert (Li : length (map g (seq 0 n)) = n) by (rewrite map_length, seq_length; reflexivity).
  destruct (Nat.eq_dec i (n - 1)) as [->|Ni].
  - assert (SL : nth_error (set_last (FFin hi) (map g (seq 0 n))) (length (map g (seq 0 n)) - 1) = Some (FFin hi))
      by (apply set_last_end; intro Z0; rewrite Z0 in Li; simpl in Li; lia).
    rewrite Li in SL. rewrite SL. exists hi. split; [reflexivity|]. fold m. split.
    + apply Qabs_le_iff. lra.
    + split; [|apply Near; auto]. apply Qabs_le_iff. change (inject_Z (2 ^ 40)) with (1099511627776 # 1). lra.
  - rewrite set_last_nth by lia. rewrite nth_map_seq by auto. unfold g.
    set (x := inject_Z (Z.of_nat i)).
    assert (X0 : 0 <= x) by (unfold x; change 0 with (inject_Z 0); rewrite <- Zle_Qle; lia).
    assert (X1 : x <= m) by (unfold x, m; rewrite <- Zle_Qle; lia).
    destruct (f_int_exact (Z.of_nat i)) as (y & Ey & Vy).
    { assert (C : x < inject_Z (2 ^ 53)).
      { eapply Qle_lt_trans; [exact X1|]. eapply Qle_lt_trans; [exact M2|reflexivity]. }
      unfold x in C. rewrite <- Zlt_Qlt in C. lia. }
    rewrite Ey. cbn [fmul].
    assert (P0 : 0 <= x * s) by (apply Qmult_le_0_compat; lra).
    assert (P1 : x * s <= m * s) by (apply Qmult_le_compat_r; lra).
    assert (P2 : m * s == s * m) by ring. rewrite P2 in P1.
    assert (Vy' : y * s == x * s) by (rewrite Vy; reflexivity).
    destruct (rnd64_small (y * s)) as (a & Ea & Da).
    { rewrite Vy'. apply Qabs_le_iff. change (inject_Z (2 ^ 44)) with (17592186044416 # 1). lra. }
    rewrite Vy' in Da. apply Qabs_le_iff in Da. rewrite Ea. cbn [fadd].
    destruct (rnd64_small (a + lo)) as (b & Eb & Db).
    { apply Qabs_le_iff. change (inject_Z (2 ^ 44)) with (17592186044416 # 1). lra. }
    apply Qabs_le_iff in Db. rewrite Eb. exists b. split; [reflexivity|]. split.
    + apply Qabs_le_iff. lra.
    + split; [|apply Near; auto]. apply Qabs_le_iff. change (inject_Z (2 ^ 40)) with (1099511627776 # 1). lra.
Qed.

(** The [i]-th of [n] evenly spaced numbers. *)
Notation even_point lo hi n i :=
  (lo + inject_Z (Z.of_nat i) / inject_Z (Z.of_nat (n - 1)) * (hi - lo)).

Lemma spaced_exposures lo hi n :
  (2 <= n)%nat -> Qabs lo <= B38 -> Qabs hi <= B38 ->
  lo + (1 # 5) * inject_Z (Z.of_nat (n - 1)) <= hi ->
  (forall i, (i < n)%nat -> exists x,
    nth_error (map (np_round 1) (linspace (FFin lo) (FFin hi) n)) i = Some (FFin x) /\
    as_printed 1 (FFin x) = FFin x /\ Qabs (x - even_point lo hi n i) <= 6 # 100) /\
  forall i j, (i < j < n)%nat -> exists x y,
    nth_error (map (np_round 1) (linspace (FFin lo) (FFin hi) n)) i = Some (FFin x) /\
    nth_error (map (np_round 1) (linspace (FFin lo) (FFin hi) n)) j = Some (FFin y) /\ x < y.
Proof.
  intros N Lo Hi Sp. destruct (spaced_values lo hi n N Lo Hi Sp) as (s & S1 & V).
  assert (T : inject_Z (10 ^ Z.of_nat 1) == 10) by reflexivity.
  assert (Bnd : forall q, Qabs q <= inject_Z (2 ^ 40) -> Qabs (q * inject_Z (10 ^ Z.of_nat 1)) <= inject_Z (2 ^ 44)).
  { intros q Bq. rewrite T. apply Qabs_le_iff in Bq. apply Qabs_le_iff.
    change (inject_Z (2 ^ 40)) with (1099511627776 # 1) in Bq.
    change (inject_Z (2 ^ 44)) with (17592186044416 # 1). lra. }
  assert (C : forall q, Qabs q <= inject_Z (2 ^ 40) ->
    exists z r, np_round 1 (FFin q) = FFin r /\ Qabs (inject_Z z - q * 10) <= (1 # 2) + (1 # 512) /\
      Qabs (r - inject_Z z / 10) <= 1 # 512).
  { intros q Bq. destruct (np_round_spec 1 q) as (z & r & Er & Dz & R); [lia|apply Bnd; auto|].
    rewrite T in Dz. exists z, r. split; auto. split; auto.
    apply Qabs_le_iff in Dz. apply Qabs_le_iff in Bq. change (inject_Z (2 ^ 40)) with (1099511627776 # 1) in Bq.
    destruct (rnd64_small (inject_Z z / 10)) as (r' & Er' & Dr).
    + apply Qabs_le_iff. change (inject_Z (2 ^ 44)) with (17592186044416 # 1). unfold Qdiv.
      change (/ 10) with (1 # 10). lra.
    + assert (rnd64 (inject_Z z / inject_Z (10 ^ Z.of_nat 1)) = rnd64 (inject_Z z / 10)) as X
        by (apply rnd64_Qeq; rewrite T; reflexivity).
      rewrite X, Er' in R. injection R as ->. exact Dr. }
  split.
  - intros i Hi'. destruct (V i Hi') as (v & Ev & Dv & Bv & Nv).
    rewrite nth_error_map, Ev. cbn [option_map].
    destruct (C v Bv) as (z & r & R & D & F). exists r. rewrite R. split; auto. split.
    + apply (rounded_prints 1 v); auto.
    + apply Qabs_le_iff in D, F, Dv, Nv. unfold Qdiv in F. change (/ 10) with (1 # 10) in F.
      apply Qabs_le_iff. lra.
  - intros i j Hij.
    destruct (V i) as (v & Ev & Dv & Bv & _); [lia|]. destruct (V j) as (u & Eu & Du & Bu & _); [lia|].
    rewrite !nth_error_map, Ev, Eu. cbn [option_map].
    destruct (C v Bv) as (z1 & r1 & R1 & D1 & F1). destruct (C u Bu) as (z2 & r2 & R2 & D2 & F2).
    exists r1, r2. rewrite R1, R2. split; auto. split; auto.
    apply Qabs_le_iff in D1, D2, F1, F2, Dv, Du. unfold Qdiv in F1, F2. change (/ 10) with (1 # 10) in F1, F2.
    assert (IJ : inject_Z (Z.of_nat i) * s + s <= inject_Z (Z.of_nat j) * s).
    { assert (X : inject_Z (Z.of_nat i) + 1 <= inject_Z (Z.of_nat j)).
      { change 1 with (inject_Z 1). rewrite <- inject_Z_plus, <- Zle_Qle. lia. }
      assert (Y : (inject_Z (Z.of_nat i) + 1) * s <= inject_Z (Z.of_nat j) * s) by (apply Qmult_le_compat_r; lra).
      lra. }
    assert (Zl : inject_Z z1 < inject_Z z2) by lra.
    rewrite <- Zlt_Qlt in Zl.
    assert (Zs : inject_Z z1 + 1 <= inject_Z z2).
    { change 1 with (inject_Z 1). rewrite <- inject_Z_plus, <- Zle_Qle. lia. }
    lra.
Qed.

Lemma ordpairs_nth {A} (R : A -> A -> Prop) l :
  (forall i j, (i < j < length l)%nat -> exists x y, nth_error l i = Some x /\ nth_error l j = Some y /\ R x y) ->
  ForallOrdPairs R l.
Proof.
  induction l as [|a l IH]; intro H; constructor.
  - apply Forall_forall. intros x Hx. apply In_nth_error in Hx. destruct Hx as (j & Hj).
    destruct (H 0%nat (S j)) as (x' & y' & E1 & E2 & HR).
    + split; [lia|]. simpl. assert (nth_error l j <> None) as G by congruence. apply nth_error_Some in G. lia.
    + cbn [nth_error] in E1, E2. congruence.
  - apply IH. intros i j Hij. destruct (H (S i) (S j)) as (x & y & E); [simpl; lia|]. exists x, y. exact E.
Qed.

Lemma spaced_different lo hi n :
  (2 <= n)%nat -> Qabs lo <= B38 -> Qabs hi <= B38 ->
  lo + (1 # 5) * inject_Z (Z.of_nat (n - 1)) <= hi ->
  all_different (map (np_round 1) (linspace (FFin lo) (FFin hi) n)).
Proof.
  intros N Lo Hi Sp. apply ordpairs_nth. rewrite map_length, linspace_length. intros i j Hij.
  destruct (proj2 (spaced_exposures lo hi n N Lo Hi Sp) i j Hij) as (x & y & E1 & E2 & L).
  exists (FFin x), (FFin y). split; auto. split; auto. simpl.
  destruct (Qeq_bool x y) eqn:Q; auto. apply Qeq_bool_eq in Q. rewrite Q in L. exfalso. apply (Qlt_irrefl y L).
Qed.
