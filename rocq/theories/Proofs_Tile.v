(** Tiling. *)
From Coq Require Import List Bool Arith Lia.
From Verif Require Import Base_Prelude Model_Tile.
Import ListNotations.

Lemma concat_repeat_length {A} (l : list A) k : length (concat (repeat l k)) = k * length l.
Proof. induction k; simpl; auto. rewrite app_length, IHk. reflexivity. Qed.

Lemma concat_repeat_nth {A} (l : list A) k : forall i, i < k * length l ->
  nth_error (concat (repeat l k)) i = nth_error l (i mod length l).
Proof.
  induction k as [|k IH]; intros i H; [simpl in H; lia|]. cbn [repeat concat].
  destruct (Nat.lt_ge_cases i (length l)) as [L|L].
  - rewrite nth_error_app1 by auto. rewrite Nat.mod_small by auto. reflexivity.
  - rewrite nth_error_app2 by auto. rewrite IH by (simpl in H; lia). f_equal.
    assert (N : length l <> 0) by (intro E; rewrite E in H; lia).
    replace i with ((i - length l) + 1 * length l) at 2 by lia. rewrite Nat.mod_add by auto. reflexivity.
Qed.

Lemma nth_firstn {A} n : forall (l : list A) i, i < n -> nth_error (firstn n l) i = nth_error l i.
Proof. induction n as [|n IH]; intros [|x l] [|i] H; simpl; auto; try lia. apply IH. lia. Qed.

Lemma nth_map {A B} (f : A -> B) l : forall i, nth_error (map f l) i = option_map f (nth_error l i).
Proof. induction l; intros [|i]; simpl; auto. Qed.

Lemma rep_enough size n r : repetitions size n = Ok r -> size < r * n /\ n <> 0.
Proof.
  unfold repetitions. destruct (n =? 0) eqn:E; [discriminate|]. apply Nat.eqb_neq in E.
  intro H. injection H as <-. split; auto.
  pose proof (Nat.div_mod size n E). pose proof (Nat.mod_upper_bound size n E). nia.
Qed.

(** Entry of an array of rows. *)
Definition entry {A} (rows : list (list A)) (i j : nat) : option A :=
  match nth_error rows i with Some r => nth_error r j | None => None end.

Lemma tile_slice {A} (rows : list (list A)) c v h height width :
  Forall (fun r => length r = c) rows -> height <= v * length rows -> width <= h * c ->
  let t := map (firstn width) (firstn height (tile rows v h)) in
  length t = height /\ Forall (fun r => length r = width) t /\
  forall i j, i < height -> j < width -> entry t i j = entry rows (i mod length rows) (j mod c).
Proof.
  intros F Hh Hw. cbv zeta. unfold tile. set (R := map (fun r => concat (repeat r h)) rows).
  assert (LR : length R = length rows) by apply map_length.
  assert (FR : forall r, In r R -> length r = h * c).
  { intros r I. unfold R in I. apply in_map_iff in I. destruct I as (x & <- & I).
    rewrite Forall_forall in F. rewrite concat_repeat_length, (F x I). reflexivity. }
  split; [|split].
  - rewrite map_length, firstn_length, concat_repeat_length, LR. lia.
  - apply Forall_forall. intros r I. apply in_map_iff in I. destruct I as (x & <- & I).
    rewrite firstn_length.
    assert (I2 : In x (concat (repeat R v))).
    { rewrite <- (firstn_skipn height). apply in_or_app. auto. }
    apply in_concat in I2. destruct I2 as (y & Iy & Ix). apply repeat_spec in Iy. subst y.
    rewrite (FR x Ix). lia.
  - intros i j Hi Hj. unfold entry. rewrite nth_map, nth_firstn by auto.
    rewrite concat_repeat_nth by (rewrite LR; lia). unfold R. rewrite nth_map, map_length.
    destruct (nth_error rows (i mod length rows)) as [r|] eqn:E; [|reflexivity]. cbn [option_map].
    rewrite nth_firstn by auto.
    assert (Lr : length r = c) by (rewrite Forall_forall in F; apply F; eapply nth_error_In, E).
    rewrite concat_repeat_nth by (rewrite Lr; lia). rewrite Lr. reflexivity.
Qed.

Lemma get_tile_2d {A} c (rows : list (list A)) height width :
  Forall (fun r => length r = c) rows -> rows <> [] -> c <> 0 -> height <> 1 ->
  exists t, get_tile (Arr2 c rows) height width = Ok (Arr2 width t) /\
  length t = height /\ Forall (fun r => length r = width) t /\
  forall i j, i < height -> j < width -> entry t i j = entry rows (i mod length rows) (j mod c).
Proof.
  intros F N C H1. unfold get_tile.
  destruct (repetitions height (length rows)) as [h_r|] eqn:E1.
  - destruct (repetitions width c) as [w_r|] eqn:E2.
    + cbn [bind]. apply rep_enough in E1. apply rep_enough in E2.
      destruct (height =? 1) eqn:E; [apply Nat.eqb_eq in E; contradiction|].
      eexists. split; [reflexivity|]. apply tile_slice; auto; lia.
    + exfalso. unfold repetitions in E2. destruct (c =? 0) eqn:Z; [|discriminate].
      apply Nat.eqb_eq in Z. contradiction.
  - exfalso. unfold repetitions in E1. destruct (length rows =? 0) eqn:Z; [|discriminate].
    apply Nat.eqb_eq in Z. destruct rows; [congruence|discriminate].
Qed.

Lemma get_tile_row {A} c (rows : list (list A)) width :
  Forall (fun r => length r = c) rows -> rows <> [] -> c <> 0 ->
  exists t, get_tile (Arr2 c rows) 1 width = Ok (Arr1 t) /\ length t = width /\
  forall j, j < width -> nth_error t j = entry rows 0 (j mod c).
Proof.
  intros F N C. unfold get_tile.
  destruct (repetitions 1 (length rows)) as [h_r|] eqn:E1.
  - destruct (repetitions width c) as [w_r|] eqn:E2.
    + cbn [bind]. apply rep_enough in E1. apply rep_enough in E2.
      destruct (tile_slice rows c h_r w_r 1 width F ltac:(lia) ltac:(lia)) as (L & Fw & En).
      change (1 =? 1) with true. cbn iota.
      destruct (map (firstn width) (firstn 1 (tile rows h_r w_r))) as [|t ts] eqn:T; [discriminate|].
      exists t. split; [reflexivity|]. inversion Fw; subst. split; auto.
      intros j Hj. specialize (En 0 j ltac:(lia) Hj). unfold entry in En at 1. cbn [nth_error] in En.
      rewrite En. f_equal. apply Nat.mod_0_l. lia.
    + exfalso. unfold repetitions in E2. destruct (c =? 0) eqn:Z; [|discriminate].
      apply Nat.eqb_eq in Z. contradiction.
  - exfalso. unfold repetitions in E1. destruct (length rows =? 0) eqn:Z; [|discriminate].
    apply Nat.eqb_eq in Z. destruct rows; [congruence|discriminate].
Qed.

Lemma get_tile_1d {A} (l : list A) height width : l <> [] -> height <> 1 ->
  exists t, get_tile (Arr1 l) height width = Ok (Arr2 width t) /\
  length t = height /\ Forall (fun r => length r = width) t /\
  forall i j, i < height -> j < width -> entry t i j = nth_error l (j mod length l).
Proof.
  intros N H1. unfold get_tile.
  destruct (repetitions width (length l)) as [w_r|] eqn:E2.
  - cbn [bind]. apply rep_enough in E2.
    destruct (height =? 1) eqn:E; [apply Nat.eqb_eq in E; contradiction|].
    eexists. split; [reflexivity|].
    destruct (tile_slice [l] (length l) height w_r height width) as (L & F & En).
    + repeat constructor.
    + simpl. lia.
    + lia.
    + split; [exact L|]. split; [exact F|]. intros i j Hi Hj. rewrite En by auto. simpl length.
      rewrite Nat.mod_1_r. reflexivity.
  - exfalso. unfold repetitions in E2. destruct (length l =? 0) eqn:Z; [|discriminate].
    apply Nat.eqb_eq in Z. destruct l; [congruence|discriminate].
Qed.

Lemma get_tile_1d_row {A} (l : list A) width : l <> [] ->
  exists t, get_tile (Arr1 l) 1 width = Ok (Arr1 t) /\ length t = width /\
  forall j, j < width -> nth_error t j = nth_error l (j mod length l).
Proof.
  intros N. unfold get_tile.
  destruct (repetitions width (length l)) as [w_r|] eqn:E2.
  - cbn [bind]. apply rep_enough in E2.
    destruct (tile_slice [l] (length l) 1 w_r 1 width) as (L & F & En).
    + repeat constructor.
    + simpl. lia.
    + lia.
    + change (1 =? 1) with true. cbn iota.
      destruct (map (firstn width) (firstn 1 (tile [l] 1 w_r))) as [|t ts] eqn:T; [discriminate|].
      exists t. split; [reflexivity|]. inversion F; subst. split; auto.
      intros j Hj. specialize (En 0 j ltac:(lia) Hj). unfold entry in En. cbn [nth_error length] in En.
      rewrite Nat.mod_1_r in En. exact En.
  - exfalso. unfold repetitions in E2. destruct (length l =? 0) eqn:Z; [|discriminate].
    apply Nat.eqb_eq in Z. destruct l; [congruence|discriminate].
Qed.

(** ** Bayer filters *)

Lemma bayer_shape {A} (a b c d : A) width height :
  let t := bayer_tile a b c d width height in
  length t = 2 * (height / 2) /\ Forall (fun r => length r = 2 * (width / 2)) t /\
  forall i j, i < 2 * (height / 2) -> j < 2 * (width / 2) ->
    entry t i j = entry [[a; b]; [c; d]] (i mod 2) (j mod 2).
Proof.
  cbv zeta. unfold bayer_tile. set (v := height / 2). set (h := width / 2).
  destruct (tile_slice [[a; b]; [c; d]] 2 v h (2 * v) (2 * h)) as (L & F & E).
  - repeat constructor.
  - simpl. lia.
  - lia.
  - assert (Eq : map (firstn (2 * h)) (firstn (2 * v) (tile [[a; b]; [c; d]] v h)) = tile [[a; b]; [c; d]] v h).
    { rewrite firstn_all2.
      - transitivity (map (fun r : list A => r) (tile [[a; b]; [c; d]] v h)); [|apply map_id].
        apply map_ext_in. intros r I. apply firstn_all2. unfold tile in I.
        apply in_concat in I. destruct I as (y & Iy & Ix). apply repeat_spec in Iy. subst y.
        apply in_map_iff in Ix. destruct Ix as (x & <- & Ix). rewrite concat_repeat_length.
        assert (length x = 2) by (destruct Ix as [<-|[<-|[]]]; reflexivity). lia.
      - unfold tile. rewrite concat_repeat_length. simpl. lia. }
    rewrite Eq in *. auto.
Qed.

Lemma even_div n : Nat.even n = true -> 2 * (n / 2) = n.
Proof.
  intro H. apply Nat.even_spec in H. destruct H as (k & ->).
  rewrite (Nat.mul_comm 2 k), Nat.div_mul by lia. lia.
Qed.

Lemma bayer_even {A} (a b c d : A) width height :
  Nat.even width = true -> Nat.even height = true ->
  let t := bayer_tile a b c d width height in
  length t = height /\ Forall (fun r => length r = width) t /\
  forall i j, i < height -> j < width ->
    entry t i j = Some (if Nat.even i then if Nat.even j then a else b else if Nat.even j then c else d).
Proof.
  intros Hw Hh. destruct (bayer_shape a b c d width height) as (L & F & E).
  rewrite (even_div _ Hw) in F, E. rewrite (even_div _ Hh) in L, E.
  cbv zeta. split; auto. split; auto. intros i j Hi Hj. rewrite E by auto.
  assert (M : forall k, k mod 2 = if Nat.even k then 0 else 1).
  { intro k. pose proof (Nat.mod_upper_bound k 2 ltac:(lia)) as U.
    pose proof (Nat.div_mod k 2 ltac:(lia)) as D. destruct (Nat.even k) eqn:Ev.
    - apply even_div in Ev. lia.
    - destruct (k mod 2) as [|[|m]] eqn:Q; try lia.
      assert (Nat.even k = true); [|congruence]. apply Nat.even_spec. exists (k / 2). lia. }
  rewrite !M. destruct (Nat.even i), (Nat.even j); reflexivity.
Qed.

Lemma bayer_odd : exists width height, length (bayer_tile 1 2 3 4 width height) <> height /\
  ~ Forall (fun r => length r = width) (bayer_tile 1 2 3 4 width height).
Proof.
  exists 3, 3. split; [vm_compute; discriminate|]. intro H. inversion H as [|x l E]. discriminate.
Qed.
