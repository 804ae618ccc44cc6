(** Curves of the temporal plots. *)
From Coq Require Import Ascii String List Bool Arith ZArith QArith Reals Qreals Sorting.Sorted Lia Lra.
From Verif Require Import Base_Prelude Base_Str Base_Num Base_Sum Base_Xreal Model_Images Model_Data Model_Results
  Model_Plot Spec_Results Spec_Plot Proofs_Results Proofs_Fit Proofs_Results2 Proofs_Results3.
Import ListNotations.
Open Scope Q_scope.

Lemma at_list l n : length l = n -> l = map (at_ l) (seq 0 n).
Proof.
  revert n. induction l as [|x l IH]; intros [|n] H; try discriminate; auto.
  simpl in H. cbn [seq map]. f_equal. rewrite <- seq_shift, map_map. apply IH. lia.
Qed.

Lemma xy_seq {A B} (f : nat -> A) (g : nat -> B) l : xy (map f l) (map g l) = Ok (map (fun i => (f i, g i)) l).
Proof.
  unfold xy. rewrite !map_length, Nat.eqb_refl. f_equal. induction l; simpl; congruence.
Qed.

Lemma get_seq {A} (f : nat -> A) n i : (i < n)%nat -> get (map f (seq 0 n)) i = Ok (f i).
Proof.
  intro H. unfold get. rewrite nth_error_map, (nth_error_nth' _ 0%nat) by (rewrite seq_length; auto).
  rewrite seq_nth by auto. reflexivity.
Qed.

Lemma py_get_seq (f : nat -> Q) n k z : (k < n)%nat -> (z = Z.of_nat k \/ z = Z.of_nat k - Z.of_nat n)%Z ->
  py_get (map f (seq 0 n)) z = Ok (f k).
Proof.
  intros K Z. rewrite (py_get_sat _ n k z); auto; [|rewrite map_length, seq_length; auto].
  unfold at_. rewrite nth_map_seq; auto.
Qed.

Section Curves.
  Context (o : robj) (n k : nat) (SH : shaped o n) (SP : sat_point o n k).

  Lemma up_seq : r_up (o_t o) = map (photons o) (seq 0 n).
  Proof. apply at_list. apply SH. Qed.

  Lemma show_sensitivity :
    (forall m, sensitivity_end o n k m ->
       exists r data fit range, responsivity o = Ok r /\ plot_sensitivity o = Ok [data; fit; range] /\
         shows_points data "Data" true (all_points n) (fun i => (photons o i, sig o i)) /\
         shows_points fit "Fit" true (all_points n) (fun i => (photons o i, r * photons o i)) /\
         shows_points range "Fit range" false [0%nat; m] (fun i => (photons o i, sig o i)) /\
         ((exists i, (i <= m)%nat /\ ~ photons o i == 0) -> best_slope (photons o) (sig o) m r)) /\
    ((forall j, (j < n)%nat -> ~ sig o j <= (7 # 10) * sig o k) -> plot_sensitivity o = Err ValueError).
  Proof.
    destruct (sensitivity_max_iff o n k SH SP) as (I1 & I2). split.
    - intros m M. pose proof M as (Mn & _). apply I1 in M.
      destruct (responsivity_fit o n m SH M) as (P & R & _).
      exists (fit_b0 P). unfold plot_sensitivity. rewrite (signal_shaped o n SH), up_seq, R, M. cbn [bind].
      rewrite !xy_seq, map_map. cbn [bind]. rewrite xy_seq. cbn [bind]. unfold index_sensitivity_min.
      rewrite !get_seq by lia. cbn [bind]. do 3 eexists. split; auto. split; [reflexivity|].
      repeat (split; [split; [reflexivity|split; reflexivity]|]).
      intro X. destruct (responsivity_best o n m SH M X) as (r & R' & B). rewrite R in R'. injection R' as ->. auto.
    - intro N. apply I2 in N.
      unfold plot_sensitivity, responsivity. rewrite (signal_shaped o n SH), up_seq, N. cbn [bind].
      rewrite xy_seq. reflexivity.
  Qed.

  Lemma show_ptc :
    (forall m, sensitivity_end o n k m ->
       exists g data fit sat range, gain o = Ok g /\ plot_ptc o = Ok [data; fit; sat; range] /\
         shows_points data "Data" true (all_points n) (fun i => (sig o i, noise o i)) /\
         shows_points fit "Fit" true (all_points n) (fun i => (sig o i, g * sig o i)) /\
         shows_points sat "Saturation" false [k] (fun i => (sig o i, noise o i)) /\
         shows_points range "Fit range" false [0%nat; m] (fun i => (sig o i, noise o i)) /\
         ((exists i, (i <= m)%nat /\ ~ sig o i == 0) -> best_slope (sig o) (noise o) m g)) /\
    ((forall j, (j < n)%nat -> ~ sig o j <= (7 # 10) * sig o k) -> plot_ptc o = Err ValueError).
  Proof.
    destruct (sensitivity_max_iff o n k SH SP) as (I1 & I2). destruct SP as (Kn & z & Z & ZK). split.
    - intros m M. pose proof M as (Mn & _). apply I1 in M.
      destruct (gain_fit o n m SH M) as (P & R & _).
      exists (fit_b0 P). unfold plot_ptc. rewrite (signal_shaped o n SH), (noise_shaped o n SH), R, M, Z. cbn [bind].
      rewrite !xy_seq, map_map. cbn [bind]. rewrite xy_seq. cbn [bind]. unfold index_sensitivity_min.
      rewrite !(py_get_seq _ n k z) by auto. cbn [bind].
      rewrite !get_seq by lia. cbn [bind]. do 4 eexists. split; auto. split; [reflexivity|].
      repeat (split; [split; [reflexivity|split; reflexivity]|]).
      intro X. destruct (gain_best o n m SH M X) as (r & R' & B). rewrite R in R'. injection R' as ->. auto.
    - intro N. apply I2 in N.
      unfold plot_ptc, gain. rewrite (signal_shaped o n SH), (noise_shaped o n SH), N. cbn [bind].
      rewrite xy_seq. reflexivity.
  Qed.

  Lemma range_indices lo hi : linear_range o n k lo hi ->
    index_linearity_min o = Ok lo /\ index_linearity_max o = Ok hi /\ (lo < n)%nat /\ (hi < n)%nat.
  Proof.
    intros (L & H). pose proof L as (Ln & _). pose proof H as (Hn & _).
    apply (proj1 (linearity_min_iff o n k SH SP)) in L. apply (proj1 (linearity_max_iff o n k SH SP)) in H. auto.
  Qed.

  Lemma show_linearity lo hi : linear_range o n k lo hi ->
    (forall i, in_range lo hi i -> ~ sig o i == 0) ->
    (exists i j, in_range lo hi i /\ in_range lo hi j /\ ~ photons o i == photons o j) ->
    exists a b data fit range, best_relative_line (photons o) (sig o) lo hi a b /\
      plot_linearity o = Ok [data; fit; range] /\
      shows_points data "Data" true (all_points n) (fun i => (photons o i, Some (sig o i))) /\
      shows_points fit "Fit" true (all_points n) (fun i => (photons o i, Some (a * photons o i + b))) /\
      shows_points range "Fit range" false [lo; hi] (fun i => (photons o i, Some (sig o i))).
  Proof.
    intros LR NZ D. destruct (range_indices lo hi LR) as (E1 & E2 & Ln & Hn).
    destruct (linearity_fit o n lo hi SH E1 E2 NZ D) as (l & a & b & EL & EF & B & _).
    exists a, b. unfold plot_linearity. rewrite (signal_shaped o n SH), up_seq, EL, E1, E2. cbn [bind].
    rewrite !map_map, !xy_seq. cbn [bind]. rewrite EF. cbn [bind]. rewrite !get_seq by lia. cbn [bind].
    do 3 eexists. split; [exact B|]. split; [reflexivity|].
    repeat split; reflexivity.
  Qed.

  Lemma show_deviation lo hi : linear_range o n k lo hi ->
    (forall i, in_range lo hi i -> ~ sig o i == 0) ->
    (exists i j, in_range lo hi i /\ in_range lo hi j /\ ~ photons o i == photons o j) ->
    exists a b data range, best_relative_line (photons o) (sig o) lo hi a b /\
      plot_deviation o = Ok [data; range] /\
      ((forall i, in_range lo hi i -> ~ a * photons o i + b == 0) ->
       shows_points data "Data" true (range_points lo hi) (fun i => (photons o i, Some (rel_dev o a b i))) /\
       shows_points range "Fit range" false [lo; hi] (fun i => (photons o i, Some (rel_dev o a b i))) /\
       exists mn mx, LE_min o = Ok (Some mn) /\ LE_max o = Ok (Some mx) /\
         (forall x y, In (x, Some y) (k_points data) -> mn <= y <= mx) /\
         (exists x, In (x, Some mn) (k_points data)) /\ (exists x, In (x, Some mx) (k_points data))).
  Proof.
    intros LR NZ D. destruct (range_indices lo hi LR) as (E1 & E2 & Ln & Hn).
    destruct (linearity_fit o n lo hi SH E1 E2 NZ D) as (l & a & b & EL & EF & B & ED & X).
    assert (LH : (lo <= hi)%nat) by (destruct D as (i & _ & Hi & _); unfold in_range in Hi; lia).
    set (dv := fun i => deviation (a, b) (photons o i) (sig o i)) in *.
    exists a, b. unfold plot_deviation. rewrite E1, E2, EL, up_seq. cbn [bind]. rewrite ED.
    rewrite !slice_map, slice_seq by lia. replace (hi + 1 - lo)%nat with (S (hi - lo)) by lia.
    rewrite xy_seq. cbn [bind].
    assert (F : forall {A} (f : nat -> A), py_get (map f (seq lo (S (hi - lo)))) 0 = Ok (f lo)) by reflexivity.
    assert (G : forall {A} (f : nat -> A), py_get (map f (seq lo (S (hi - lo)))) (-1) = Ok (f hi)).
    { intros A f. unfold py_get. rewrite map_length, seq_length.
      change (-1 <? 0)%Z with true. cbv iota. destruct (Z.ltb_spec (-1 + Z.of_nat (S (hi - lo))) 0); [lia|].
      replace (Z.to_nat (-1 + Z.of_nat (S (hi - lo)))) with (hi - lo)%nat by lia.
      rewrite nth_error_map, (nth_error_nth' _ 0%nat) by (rewrite seq_length; lia).
      rewrite seq_nth by lia. replace (lo + (hi - lo))%nat with hi by lia. reflexivity. }
    rewrite !F, !G. cbn [bind]. do 2 eexists. split; [exact B|]. split; [reflexivity|].
    intro NL. assert (DV : forall i, in_range lo hi i -> dv i = Some (rel_dev o a b i)).
    { intros i I. unfold dv, deviation, qdiv_o. cbn [fst snd].
      rewrite (proj2 (Qeq_bool_false (a * photons o i + b) 0)) by (apply NL; auto). reflexivity. }
    split; [|split].
    - split; [reflexivity|]. split; [reflexivity|]. cbn [k_points]. unfold range_points.
      replace (S hi - lo)%nat with (S (hi - lo)) by lia. apply map_ext_in. intros i I. apply in_seq in I.
      rewrite DV; auto. unfold in_range. lia.
    - split; [reflexivity|]. split; [reflexivity|]. cbn [k_points map].
      rewrite !DV by (unfold in_range; lia). reflexivity.
    - destruct (X NL) as (mn & mx & M1 & M2 & R1 & (i1 & I1 & R2) & (i2 & I2 & R3)). exists mn, mx.
      split; [unfold LE_min; rewrite EL; cbn [bind]; rewrite M1; auto|].
      split; [unfold LE_max; rewrite EL; cbn [bind]; rewrite M2; auto|]. cbn [k_points].
      assert (IN : forall i, in_range lo hi i -> In (photons o i, Some (rel_dev o a b i))
                 (map (fun i => (photons o i, dv i)) (seq lo (S (hi - lo))))).
      { intros i I. apply in_map_iff. exists i. rewrite DV by auto. split; auto. apply in_seq. unfold in_range in I. lia. }
      split; [|split].
      + intros x y H. apply in_map_iff in H. destruct H as (i & H & I). apply in_seq in I.
        assert (IR : in_range lo hi i) by (unfold in_range; lia). rewrite DV in H by auto. injection H as <- <-. auto.
      + exists (photons o i1). rewrite R2. auto.
      + exists (photons o i2). rewrite R3. auto.
  Qed.

  Lemma no_linear_range lo hi : linear_range o n k lo hi -> (hi < lo)%nat ->
    plot_linearity o = Err ValueError /\ plot_deviation o = Err ValueError.
  Proof.
    intros LR HL. destruct (range_indices lo hi LR) as (E1 & E2 & Ln & Hn).
    assert (EL : linearity o = Err ValueError).
    { unfold linearity. rewrite (signal_shaped o n SH), up_seq, E1, E2. cbn [bind].
      rewrite np_pairs_eq by (unfold slice; rewrite !firstn_length, !skipn_length, !map_length; auto). cbn [bind].
      rewrite np_pairs_eq by (rewrite !map_length; auto). cbn [bind].
      unfold slice. replace (hi + 1 - lo)%nat with 0%nat by lia. reflexivity. }
    unfold plot_linearity, plot_deviation. rewrite (signal_shaped o n SH), up_seq, EL, E1, E2. cbn [bind].
    rewrite map_map, xy_seq. auto.
  Qed.
End Curves.
