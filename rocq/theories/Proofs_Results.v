(** Proofs for C23-C31. *)
From Coq Require Import List Bool Arith ZArith QArith Lia Lqa.
From Verif Require Import Base_Prelude Base_Sum Base_Xreal Model_Images Model_Data Model_Results Spec_Results.
Import ListNotations.
Open Scope Q_scope.

Local Arguments Qle_bool : simpl never.

Lemma nth_error_at s i : (i < length s)%nat -> nth_error s i = Some (at_ s i).
Proof. intro H. unfold at_. apply nth_error_nth'. auto. Qed.

Lemma Qge_b_iff a b : Qge_b a b = true <-> b <= a.
Proof. unfold Qge_b. apply Qle_bool_iff. Qed.

Lemma Qge_b_false a b : Qge_b a b = false <-> a < b.
Proof.
  split; intro H.
  - apply Qnot_le_lt. intro G. apply Qge_b_iff in G. congruence.
  - destruct (Qge_b a b) eqn:E; auto. apply Qge_b_iff in E. apply Qlt_not_le in H. contradiction.
Qed.

Lemma Qle_bool_false a b : Qle_bool a b = false <-> b < a.
Proof. apply Qge_b_false. Qed.

Lemma goes_on_dec s j : goes_on s j \/ ~ goes_on s j.
Proof.
  unfold goes_on.
  destruct (Qlt_le_dec (at_ s j) (previous s j)) as [H|H]; [|left; auto].
  destruct (Qlt_le_dec (at_ s (neighbour j)) (previous s j)) as [G|G]; [|left; auto].
  right. intros [A|A]; [apply Qlt_not_le in H|apply Qlt_not_le in G]; contradiction.
Qed.

(** The loop, started at k with the value visited before. *)
Lemma sat_loop_spec s : forall k mx mi,
  (k <= length s)%nat ->
  (2 <= length s)%nat \/ Forall (fun x => 0 <= x) s /\ (k = length s -> mx <= 0) ->
  ((0 < k)%nat -> mx = previous s (k - 1)) ->
  exists i, sat_loop s k mx mi = Ok i /\
    ((k = 0%nat /\ i = mi) \/
     (0 < k)%nat /\ (~ goes_on s (k - 1) /\ i = mi \/
     (i < k)%nat /\ (forall j, (i <= j < k)%nat -> goes_on s j) /\
     (i = 0%nat \/ ~ goes_on s (i - 1)))).
Proof.
  induction k as [|k IH]; intros mx mi Hk Hlen Hmx; simpl.
  - exists mi. split; auto.
  - rewrite nth_error_at by lia. simpl.
    assert (Pmx : mx = previous s k).
    { specialize (Hmx ltac:(lia)). replace (S k - 1)%nat with k in Hmx by lia. exact Hmx. }
    assert (Prec : (0 < k)%nat -> at_ s k = previous s (k - 1)).
    { intro. unfold previous. destruct (S (k - 1) =? length s)%nat eqn:E.
      - apply Nat.eqb_eq in E. lia.
      - f_equal. lia. }
    assert (Hlen' : (2 <= length s)%nat \/ Forall (fun x => 0 <= x) s /\ (k = length s -> at_ s k <= 0)).
    { destruct Hlen as [H|[H _]]; [left; auto|right]. split; auto. lia. }
    assert (GO : goes_on s k -> exists i, sat_loop s k (at_ s k) k = Ok i /\
       ((S k = 0%nat /\ i = mi) \/
       (0 < S k)%nat /\ (~ goes_on s (S k - 1) /\ i = mi \/
       (i < S k)%nat /\ (forall j, (i <= j < S k)%nat -> goes_on s j) /\
       (i = 0%nat \/ ~ goes_on s (i - 1))))).
    { intro G. destruct (IH (at_ s k) k ltac:(lia) Hlen' Prec) as (i & E & C).
      exists i. split; auto. right. split; [lia|]. right.
      destruct C as [(K0 & I)|(K0 & [(N & I)|(I & A & B)])].
      - subst. split; [lia|]. split; [|auto]. intros j Hj. replace j with 0%nat by lia. auto.
      - subst i. split; [lia|]. split; [|right; auto].
        intros j Hj. replace j with k by lia. auto.
      - split; [lia|]. split; auto. intros j Hj.
        destruct (Nat.eq_dec j k); [subst; auto|apply A; lia]. }
    destruct (Qge_b (at_ s k) mx) eqn:E1.
    + apply GO. left. apply Qge_b_iff in E1. rewrite <- Pmx. auto.
    + assert (L2 : (2 <= length s)%nat).
      { destruct Hlen as [H|[H H0]]; auto.
        destruct (Nat.eq_dec (S k) (length s)) as [D|D]; [|lia].
        specialize (H0 D). apply Qge_b_false in E1.
        assert (N : 0 <= at_ s k).
        { unfold at_. apply (proj1 (Forall_nth _ s) H). lia. }
        lra. }
      assert (Q : (if (k =? 0)%nat then 1%nat else (k - 1)%nat) = neighbour k) by reflexivity.
      rewrite Q. rewrite nth_error_at by (unfold neighbour; destruct (k =? 0)%nat; lia). simpl.
      destruct (Qge_b (at_ s (neighbour k)) mx) eqn:E2.
      * apply GO. right. apply Qge_b_iff in E2. rewrite <- Pmx. auto.
      * exists mi. split; auto. right. split; [lia|]. left. split; auto.
        assert (SK : (S k - 1)%nat = k) by lia. simpl in SK. rewrite SK.
        intros [A|A]; rewrite <- Pmx in A.
        -- apply Qge_b_iff in A. congruence.
        -- apply Qge_b_iff in A. congruence.
Qed.

Lemma unforced_loop o :
  unforced o \/ o_sat o = Some 0%Z ->
  fst (index_u_ysat o) =
    match sat_loop (r_s2y (o_t o)) (length (r_s2y (o_t o))) 0 0 with
    | Ok i => Ok (Z.of_nat i) | Err e => Err e end.
Proof.
  unfold index_u_ysat, unforced. intros [H|H]; rewrite H; simpl; destruct (sat_loop _ _ _ _); reflexivity.
Qed.

Lemma saturation_index o :
  unforced o ->
  let s := r_s2y (o_t o) in
  (2 <= length s)%nat \/ length s = 1%nat /\ Forall (fun x => 0 <= x) s ->
  exists i, fst (index_u_ysat o) = Ok (Z.of_nat i) /\ (i < length s)%nat /\
    (goes_on s (length s - 1) ->
       (forall j, (i <= j < length s)%nat -> goes_on s j) /\ (i = 0%nat \/ ~ goes_on s (i - 1))) /\
    (~ goes_on s (length s - 1) -> i = 0%nat).
Proof.
  intros U s L.
  assert (NE : (0 < length s)%nat) by (destruct L; lia).
  destruct (sat_loop_spec s (length s) 0 0%nat) as (i & E & C); auto.
  - destruct L as [L|[L H]]; [left; auto|right]. split; auto. intros _. apply Qle_refl.
  - intros _. unfold previous. replace (S (length s - 1)) with (length s) by lia.
    rewrite Nat.eqb_refl. reflexivity.
  - exists i. rewrite unforced_loop by auto. fold s. rewrite E. split; auto.
    destruct C as [(K0 & I)|(K0 & [(N & I)|(I & A & B)])].
    + lia.
    + subst. split; [auto|]. split; [contradiction|auto].
    + split; auto. split; auto. intro N. exfalso. apply N. apply A. lia.
Qed.

Lemma last_goes_on s : s <> [] -> Forall (fun x => 0 <= x) s -> goes_on s (length s - 1).
Proof.
  intros NE H. left. unfold previous. destruct s as [|x s]; [contradiction|].
  assert (Q : (S (length (x :: s) - 1) =? length (x :: s))%nat = true)
    by (apply Nat.eqb_eq; simpl; lia).
  rewrite Q. unfold at_. apply (proj1 (Forall_nth _ (x :: s)) H). simpl. lia.
Qed.

Lemma single_negative o x :
  unforced o -> r_s2y (o_t o) = [x] -> x < 0 -> fst (index_u_ysat o) = Err IndexError.
Proof.
  intros U E H. rewrite unforced_loop by auto. rewrite E. simpl.
  apply Qge_b_false in H. rewrite H. reflexivity.
Qed.

(** ** C24 *)
Lemma peak_found o p :
  unforced o -> peak_at (r_s2y (o_t o)) p -> p <> 1%nat ->
  fst (index_u_ysat o) = Ok (Z.of_nat p).
Proof.
  intros U (Hp & Hn & Hup & Hdown) P1. set (s := r_s2y (o_t o)) in *.
  assert (NE : s <> []) by (intro H; rewrite H in Hp; simpl in Hp; lia).
  destruct (saturation_index o U) as (i & E & I & C & _).
  { fold s. destruct (Nat.eq_dec (length s) 1); [right; auto|left]. lia. }
  rewrite E. do 2 f_equal. fold s in C, I.
  destruct (C (last_goes_on s NE Hn)) as (A & B).
  assert (Go : forall j, (p <= j < length s)%nat -> goes_on s j).
  { intros j Hj. left. unfold previous. destruct (S j =? length s)%nat eqn:Q.
    - unfold at_. apply (proj1 (Forall_nth _ s) Hn). lia.
    - apply Nat.eqb_neq in Q. apply Hdown; lia. }
  assert (Stop : (0 < p)%nat -> ~ goes_on s (p - 1)).
  { intros P0. unfold goes_on, previous, neighbour.
    destruct (S (p - 1) =? length s)%nat eqn:Q; [apply Nat.eqb_eq in Q; lia|].
    destruct (p - 1 =? 0)%nat eqn:Z; [apply Nat.eqb_eq in Z; lia|apply Nat.eqb_neq in Z].
    replace (S (p - 1)) with p by lia.
    intros [G|G].
    - specialize (Hup (p - 1)%nat p ltac:(lia)). lra.
    - specialize (Hup (p - 1 - 1)%nat p ltac:(lia)). lra. }
  destruct (lt_eq_lt_dec i p) as [[L|L]|L]; auto.
  - exfalso. destruct (Nat.eq_dec p 0); [lia|]. apply Stop; [lia|]. apply A. lia.
  - exfalso. destruct B as [B|B]; [lia|]. apply B. apply Go. lia.
Qed.

(** Index 1 is never the answer: from index 1 the loop always goes on to 0. *)
Lemma never_one o :
  unforced o -> fst (index_u_ysat o) <> Ok 1%Z.
Proof.
  intros U H. set (s := r_s2y (o_t o)) in *.
  rewrite unforced_loop in H by auto. fold s in H.
  destruct (le_lt_dec 2 (length s)) as [L|L].
  - destruct (saturation_index o U (or_introl L)) as (i & E & I & C & D). fold s in E, I, C, D.
    rewrite unforced_loop in E by auto. fold s in E. rewrite E in H. injection H as H.
    assert (i = 1%nat) by lia. subst i.
    destruct (goes_on_dec s (length s - 1)) as [G|G]; [|specialize (D G); lia].
    destruct (C G) as (_ & [B|B]); [lia|]. apply B. right. simpl. unfold previous.
    destruct (1 =? length s)%nat eqn:Q; [apply Nat.eqb_eq in Q; lia|]. apply Qle_refl.
  - clearbody s. destruct s as [|x [|y s']]; simpl in L; try lia.
    + discriminate.
    + simpl in H. destruct (Qge_b x 0); discriminate.
Qed.

(** ** C25 *)
Definition stored (o : robj) : robj :=
  mkObj (o_t o) (o_s o) (o_area o) (snd (index_u_ysat o)).

Lemma stored_index o : fst (index_u_ysat (stored o)) = fst (index_u_ysat o).
Proof.
  unfold stored, index_u_ysat. destruct o as [t sp ar sat]; simpl.
  destruct sat as [z|]; simpl.
  - destruct (z =? 0)%Z eqn:Z0; simpl.
    + destruct (sat_loop _ _ _ _) as [i|e] eqn:L; simpl.
      * destruct (Z.of_nat i =? 0)%Z eqn:I; simpl; [rewrite ?L|]; reflexivity.
      * rewrite ?Z0. simpl. rewrite ?L. reflexivity.
    + rewrite ?Z0. reflexivity.
  - destruct (sat_loop _ _ _ _) as [i|e] eqn:L; simpl.
    + destruct (Z.of_nat i =? 0)%Z eqn:I; simpl; [rewrite ?L|]; reflexivity.
    + rewrite ?L. reflexivity.
Qed.

Lemma stored_value o f : value_of f (stored o) = value_of f o.
Proof.
  assert (I := stored_index o).
  assert (S1 : signal (stored o) = signal o) by reflexivity.
  assert (SM : index_sensitivity_max (stored o) = index_sensitivity_max o)
    by (unfold index_sensitivity_max; rewrite I, S1; reflexivity).
  assert (HR : responsivity (stored o) = responsivity o)
    by (unfold responsivity; rewrite SM, S1; reflexivity).
  assert (HK : gain (stored o) = gain o)
    by (unfold gain; rewrite SM, S1; reflexivity).
  assert (HQ : QE (stored o) = QE o) by (unfold QE; rewrite HR, HK; reflexivity).
  assert (HS : sigma_y_dark (stored o) = sigma_y_dark o) by reflexivity.
  assert (HM : u_p_min (stored o) = u_p_min o)
    by (unfold u_p_min; rewrite HQ, HK, HS; reflexivity).
  assert (HEM : u_e_min (stored o) = u_e_min o)
    by (unfold u_e_min; rewrite HQ, HM; reflexivity).
  assert (HPS : u_p_sat (stored o) = u_p_sat o) by (unfold u_p_sat; rewrite I; reflexivity).
  assert (HES : u_e_sat (stored o) = u_e_sat o)
    by (unfold u_e_sat; rewrite HQ, HPS; reflexivity).
  assert (HSN : SNR_max (stored o) = SNR_max o) by (unfold SNR_max; rewrite HES; reflexivity).
  assert (HD : DR (stored o) = DR o) by (unfold DR; rewrite HPS, HM; reflexivity).
  assert (L1 : index_linearity_min (stored o) = index_linearity_min o)
    by (unfold index_linearity_min; rewrite I, S1; reflexivity).
  assert (L2 : index_linearity_max (stored o) = index_linearity_max o)
    by (unfold index_linearity_max; rewrite I, S1; reflexivity).
  assert (HL : linearity (stored o) = linearity o)
    by (unfold linearity; rewrite L1, L2, S1; reflexivity).
  assert (HV : u_I_var_DN (stored o) = u_I_var_DN o)
    by (unfold u_I_var_DN; rewrite HK; reflexivity).
  assert (DS : forall v, dsnu_of (stored o) v = dsnu_of o v)
    by (intro; unfold dsnu_of; rewrite HK; reflexivity).
  destruct f; simpl; try reflexivity; try (f_equal; assumption).
  - unfold inverse_K. rewrite HK. reflexivity.
  - unfold sigma_d. rewrite HK, HS. reflexivity.
  - unfold u_p_min_area. rewrite HM. reflexivity.
  - unfold u_e_min_area. rewrite HEM. reflexivity.
  - unfold u_p_sat_area. rewrite HPS. reflexivity.
  - unfold u_e_sat_area. rewrite HES. reflexivity.
  - unfold SNR_max_dB. rewrite HSN. reflexivity.
  - unfold SNR_max_bit. rewrite HSN. reflexivity.
  - unfold inverse_SNR_max. rewrite HSN. reflexivity.
  - unfold DR_dB. rewrite HD. reflexivity.
  - unfold LE_min. rewrite HL. reflexivity.
  - unfold LE_max. rewrite HL. reflexivity.
  - unfold u_I_var. rewrite HV, HK. reflexivity.
  - unfold u_I_mean. rewrite HK. reflexivity.
  - unfold DSNU1288. rewrite DS. reflexivity.
  - unfold DSNU1288_row. change (s_2_y_row_dark (stored o)) with (s_2_y_row_dark o).
    destruct (s_2_y_row_dark o); simpl; rewrite ?DS; reflexivity.
  - unfold DSNU1288_col. change (s_2_y_col_dark (stored o)) with (s_2_y_col_dark o).
    destruct (s_2_y_col_dark o); simpl; rewrite ?DS; reflexivity.
  - unfold DSNU1288_pixel. change (s_2_y_pixel_dark (stored o)) with (s_2_y_pixel_dark o).
    destruct (s_2_y_pixel_dark o); simpl; rewrite ?DS; reflexivity.
Qed.

Lemma history_irrelevant o l o' :
  accesses o l o' -> Forall (fun fv => snd fv = value_of (fst fv) o) l.
Proof.
  induction 1 as [o|o f v o1 l o2 A H IH]; [constructor|].
  inversion A; subst.
  - constructor; auto.
  - constructor; auto. eapply Forall_impl; [|exact IH].
    intros [g w] E. simpl in *. rewrite E. apply stored_value.
Qed.

Lemma forced_index o z : o_sat o = Some z -> z <> 0%Z -> fst (index_u_ysat o) = Ok z.
Proof.
  intros E N. unfold index_u_ysat. rewrite E.
  apply Z.eqb_neq in N. rewrite N. reflexivity.
Qed.

Lemma forced_index_history o z l o' :
  o_sat o = Some z -> z <> 0%Z -> accesses o l o' ->
  Forall (fun fv => fst fv = F_index_u_ysat -> snd fv = VZ (Ok z)) l.
Proof.
  intros E N A. apply history_irrelevant in A. eapply Forall_impl; [|exact A].
  intros [f v] H Hf. simpl in *. subst. simpl. rewrite (forced_index o z); auto.
Qed.

(** ** Shapes *)
Lemma signal_shaped o n :
  shaped o n -> signal o = Ok (map (sig o) (seq 0 n)).
Proof.
  intros (_ & _ & H1 & _ & H2 & _). unfold signal, np_sub, np_pairs.
  rewrite H1, H2, Nat.eqb_refl. simpl. f_equal.
  unfold sig. revert H1 H2. generalize (r_uy (o_t o)) (r_uydark (o_t o)).
  clear. induction n; intros [|x l] [|y l'] H1 H2; try discriminate; [reflexivity|].
  simpl. f_equal. rewrite (IHn l l') by (simpl in *; lia).
  rewrite <- seq_shift, map_map. reflexivity.
Qed.

Lemma nth_map_seq {A} (f : nat -> A) n i d : (i < n)%nat -> nth i (map f (seq 0 n)) d = f i.
Proof.
  intro H. rewrite nth_indep with (d' := f 0%nat) by (rewrite map_length, seq_length; auto).
  rewrite (map_nth f (seq 0 n) 0%nat). rewrite seq_nth by auto. reflexivity.
Qed.

Lemma py_get_sat (l : list Q) n k z :
  length l = n -> (k < n)%nat -> (z = Z.of_nat k \/ z = Z.of_nat k - Z.of_nat n)%Z ->
  py_get l z = Ok (at_ l k).
Proof.
  intros L K Z. unfold py_get. rewrite L.
  assert (J : (if z <? 0 then z + Z.of_nat n else z)%Z = Z.of_nat k).
  { destruct (z <? 0)%Z eqn:E; [apply Z.ltb_lt in E|apply Z.ltb_ge in E]; lia. }
  rewrite J. destruct (Z.of_nat k <? 0)%Z eqn:E; [apply Z.ltb_lt in E; lia|].
  rewrite Nat2Z.id, nth_error_at by lia. reflexivity.
Qed.

Lemma argwhere_seq f (g : nat -> Q) n :
  argwhere f (map g (seq 0 n)) = filter (fun i => f (g i)) (seq 0 n).
Proof.
  unfold argwhere. rewrite map_length, seq_length.
  assert (H : forall l, map fst (filter (fun p => f (snd p)) (combine l (map g l)))
               = filter (fun i => f (g i)) l).
  { induction l as [|a l IH]; [reflexivity|]. simpl. destruct (f (g a)); simpl; rewrite IH; reflexivity. }
  apply H.
Qed.

Lemma fold_max_spec l : forall x,
  let m := fold_left Nat.max l x in
  (m = x \/ In m l) /\ (x <= m)%nat /\ forall y, In y l -> (y <= m)%nat.
Proof.
  induction l as [|a l IH]; intro x; simpl; [split; [auto|split; [auto|tauto]]|].
  destruct (IH (Nat.max x a)) as (A & B & C). repeat split.
  - destruct A as [A|A]; auto. rewrite A. destruct (Nat.max_dec x a) as [E|E]; rewrite E; auto.
  - lia.
  - intros y [<-|H]; [lia|auto].
Qed.

Lemma fold_min_spec l : forall x,
  let m := fold_left Nat.min l x in
  (m = x \/ In m l) /\ (m <= x)%nat /\ forall y, In y l -> (m <= y)%nat.
Proof.
  induction l as [|a l IH]; intro x; simpl; [split; [auto|split; [auto|tauto]]|].
  destruct (IH (Nat.min x a)) as (A & B & C). repeat split.
  - destruct A as [A|A]; auto. rewrite A. destruct (Nat.min_dec x a) as [E|E]; rewrite E; auto.
  - lia.
  - intros y [<-|H]; [lia|auto].
Qed.

Lemma max_index_iff l m :
  max_index l = Ok m <-> In m l /\ forall j, In j l -> (j <= m)%nat.
Proof.
  destruct l as [|x l]; simpl.
  - split; [discriminate|tauto].
  - destruct (fold_max_spec l x) as (A & B & C).
    set (k := fold_left Nat.max l x) in *. split.
    + intro H. injection H as <-. split; [destruct A; auto|].
      intros j [<-|H]; auto.
    + intros (H1 & H2). f_equal.
      assert (k <= m)%nat by (apply H2; destruct A; auto).
      assert (m <= k)%nat by (destruct H1 as [<-|H1]; auto). lia.
Qed.

Lemma min_index_iff l m :
  min_index l = Ok m <-> In m l /\ forall j, In j l -> (m <= j)%nat.
Proof.
  destruct l as [|x l]; simpl.
  - split; [discriminate|tauto].
  - destruct (fold_min_spec l x) as (A & B & C).
    set (k := fold_left Nat.min l x) in *. split.
    + intro H. injection H as <-. split; [destruct A; auto|].
      intros j [<-|H]; auto.
    + intros (H1 & H2). f_equal.
      assert (m <= k)%nat by (apply H2; destruct A; auto).
      assert (k <= m)%nat by (destruct H1 as [<-|H1]; auto). lia.
Qed.

Lemma max_index_err l e : max_index l = Err e <-> l = [] /\ e = ValueError.
Proof.
  destruct l; simpl; split; try discriminate.
  - intro H. injection H as <-. auto.
  - intros (_ & ->). reflexivity.
  - intros (H & _). discriminate.
Qed.

Lemma min_index_err l e : min_index l = Err e <-> l = [] /\ e = ValueError.
Proof.
  destruct l; simpl; split; try discriminate.
  - intro H. injection H as <-. auto.
  - intros (_ & ->). reflexivity.
  - intros (H & _). discriminate.
Qed.

Lemma filter_nil {A} (f : A -> bool) l : filter f l = [] <-> forall x, In x l -> f x = false.
Proof.
  induction l as [|a l IH]; simpl; [tauto|]. destruct (f a) eqn:E.
  - split; [discriminate|]. intro H. specialize (H a (or_introl eq_refl)). congruence.
  - rewrite IH. split; [intros H x [<-|G]; auto|auto].
Qed.

Section Ranges.
  Variables (o : robj) (n k : nat).
  Hypothesis (SH : shaped o n) (SP : sat_point o n k).

  Lemma sat_value : (Y <- signal o ;; i <- fst (index_u_ysat o) ;; py_get Y i) = Ok (sig o k).
  Proof.
    destruct SP as (K & z & E & Z). rewrite (signal_shaped o n SH), E. simpl.
    rewrite (py_get_sat _ n k z); auto.
    - unfold at_. rewrite nth_map_seq by auto. reflexivity.
    - rewrite map_length, seq_length. reflexivity.
  Qed.

  Lemma index_eval (sel : list nat -> res nat) (test : Q -> Q -> bool) :
    (Y <- signal o ;; i <- fst (index_u_ysat o) ;; y <- py_get Y i ;;
     sel (argwhere (fun v => test v y) Y))
    = sel (filter (fun i => test (sig o i) (sig o k)) (seq 0 n)).
  Proof.
    assert (V := sat_value). destruct SP as (K & z & E & Z).
    rewrite (signal_shaped o n SH), E in *. simpl in *. rewrite V. simpl.
    rewrite argwhere_seq. reflexivity.
  Qed.

  Lemma max_characterised (test : Q -> Q -> bool) (P : nat -> Prop) :
    (forall i, test (sig o i) (sig o k) = true <-> P i) ->
    (forall m, max_index (filter (fun i => test (sig o i) (sig o k)) (seq 0 n)) = Ok m
               <-> largest n P m) /\
    (max_index (filter (fun i => test (sig o i) (sig o k)) (seq 0 n)) = Err ValueError
               <-> forall j, (j < n)%nat -> ~ P j).
  Proof.
    intro T. split.
    - intro m. rewrite max_index_iff. unfold largest. rewrite filter_In, in_seq, T. split.
      + intros ((A & B) & C). split; [lia|]. split; auto. intros j J PJ.
        assert (j <= m)%nat; [|lia]. apply C. apply filter_In. rewrite in_seq, T. split; [lia|auto].
      + intros (A & B & C). split; [split; [lia|auto]|].
        intros j J. apply filter_In in J. rewrite in_seq, T in J. destruct J as (J & PJ).
        destruct (le_lt_dec j m); auto. exfalso. apply (C j); [lia|auto].
    - rewrite max_index_err, filter_nil. split.
      + intros (H & _) j J PJ. apply T in PJ. rewrite H in PJ; [discriminate|].
        apply in_seq. lia.
      + intro H. split; auto. intros x X. apply in_seq in X.
        destruct (test (sig o x) (sig o k)) eqn:E; auto.
        apply T in E. exfalso. apply (H x); [lia|auto].
  Qed.

  Lemma min_characterised (test : Q -> Q -> bool) (P : nat -> Prop) :
    (forall i, test (sig o i) (sig o k) = true <-> P i) ->
    (forall m, min_index (filter (fun i => test (sig o i) (sig o k)) (seq 0 n)) = Ok m
               <-> smallest n P m) /\
    (min_index (filter (fun i => test (sig o i) (sig o k)) (seq 0 n)) = Err ValueError
               <-> forall j, (j < n)%nat -> ~ P j).
  Proof.
    intro T. split.
    - intro m. rewrite min_index_iff. unfold smallest. rewrite filter_In, in_seq, T. split.
      + intros ((A & B) & C). split; [lia|]. split; auto. intros j J PJ.
        assert (m <= j)%nat; [|lia]. apply C. apply filter_In. rewrite in_seq, T. split; [lia|auto].
      + intros (A & B & C). split; [split; [lia|auto]|].
        intros j J. apply filter_In in J. rewrite in_seq, T in J. destruct J as (J & PJ).
        destruct (le_lt_dec m j); auto. exfalso. apply (C j); [lia|auto].
    - rewrite min_index_err, filter_nil. split.
      + intros (H & _) j J PJ. apply T in PJ. rewrite H in PJ; [discriminate|].
        apply in_seq. lia.
      + intro H. split; auto. intros x X. apply in_seq in X.
        destruct (test (sig o x) (sig o k)) eqn:E; auto.
        apply T in E. exfalso. apply (H x); [lia|auto].
  Qed.

  Lemma sensitivity_max_iff :
    (forall m, index_sensitivity_max o = Ok m <->
       largest n (fun i => sig o i <= (7 # 10) * sig o k) m) /\
    (index_sensitivity_max o = Err ValueError <->
       forall j, (j < n)%nat -> ~ sig o j <= (7 # 10) * sig o k).
  Proof.
    unfold index_sensitivity_max.
    rewrite (index_eval max_index (fun v y => Qle_bool v ((7 # 10) * y))).
    apply (max_characterised (fun v y => Qle_bool v ((7 # 10) * y))).
    intro i. apply Qle_bool_iff.
  Qed.

  Lemma linearity_max_iff :
    (forall m, index_linearity_max o = Ok m <->
       largest n (fun i => sig o i <= (95 # 100) * sig o k) m) /\
    (index_linearity_max o = Err ValueError <->
       forall j, (j < n)%nat -> ~ sig o j <= (95 # 100) * sig o k).
  Proof.
    unfold index_linearity_max.
    rewrite (index_eval max_index (fun v y => Qle_bool v ((95 # 100) * y))).
    apply (max_characterised (fun v y => Qle_bool v ((95 # 100) * y))).
    intro i. apply Qle_bool_iff.
  Qed.

  Lemma linearity_min_iff :
    (forall m, index_linearity_min o = Ok m <->
       smallest n (fun i => (5 # 100) * sig o k <= sig o i) m) /\
    (index_linearity_min o = Err ValueError <->
       forall j, (j < n)%nat -> ~ (5 # 100) * sig o k <= sig o j).
  Proof.
    unfold index_linearity_min.
    rewrite (index_eval min_index (fun v y => Qge_b v ((5 # 100) * y))).
    apply (min_characterised (fun v y => Qge_b v ((5 # 100) * y))).
    intro i. apply Qge_b_iff.
  Qed.

  Lemma sensitivity_below_saturation m :
    (forall i j, (i <= j < n)%nat -> sig o i <= sig o j) -> 0 < sig o k ->
    index_sensitivity_max o = Ok m -> (m < k)%nat.
  Proof.
    intros Mono Pos H. apply sensitivity_max_iff in H. destruct H as (A & B & _).
    destruct (le_lt_dec k m) as [L|L]; auto. exfalso.
    specialize (Mono k m ltac:(lia)). lra.
  Qed.
End Ranges.

Lemma u_p_sat_value o n k : shaped o n -> sat_point o n k -> u_p_sat o = Ok (photons o k).
Proof.
  intros (_ & H & _) (K & z & E & Z). unfold u_p_sat. rewrite E. simpl.
  rewrite (py_get_sat _ n k z); auto.
Qed.
