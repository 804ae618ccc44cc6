(** C123: a sensor whose rows, columns, pixels and images toss coins. *)
From Coq Require Import List Bool Arith ZArith QArith Qreals Reals Lia Lra.
From Verif Require Import Base_Prelude Base_Num Base_Sum Base_SumR Model_Images Model_Loader Model_Data Model_Results
  Spec_Images Spec_Data Spec_Results Spec_Chance Spec_Linear Spec_Any Spec_Components
  Proofs_Chance Proofs_Chance2 Proofs_Linear Proofs_Any Proofs_Any2 Proofs_Any4 Proofs_Near4 Proofs_Components.
Import ListNotations.
Open Scope R_scope.

(** Coin l of site i: plus or minus one. *)
Definition sign (l : nat) (q : bool * bool) : R := if toss l q then 1 else -1.
Lemma sign_mean l : mean4 (sign l) = 0.
Proof. unfold mean4, mean2, sign. destruct l; cbn [toss fst snd]; field. Qed.
Lemma sign_pair n i l i' l' : (i < n)%nat -> (i' < n)%nat -> (l < 2)%nat -> (l' < 2)%nat ->
  row_mean n (fun o => sign l (o i) * sign l' (o i')) = same i i' (same l l' 1).
Proof.
  intros Hi Hi' Hl Hl'. unfold same. destruct (Nat.eqb_spec i i') as [<-|N].
  - rewrite (row_one n i (fun q => sign l q * sign l' q) Hi). unfold mean4, mean2, sign.
    destruct l as [|[|l]]; destruct l' as [|[|l']]; try lia; cbn [toss fst snd Nat.eqb]; field.
  - rewrite (row_two n i i' (sign l) (sign l') Hi Hi' N), !sign_mean. ring.
Qed.

Lemma row_sum n k (X : nat -> (nat -> bool * bool) -> R) :
  row_mean n (fun o => sumR k (fun a => X a o)) = sumR k (fun a => row_mean n (X a)).
Proof. exact (exp_sumI (row n) k X (fun _ _ => I)). Qed.

Section Sensor.
Variables (h w : nat) (b ar ac ap an : Z).
Definition sites : nat := (h + w + (h * w + h * w))%nat.
Definition site (r c a : nat) : nat :=
  match a with
  | O => r
  | 1%nat => (h + c)%nat
  | 2%nat => (h + w + (r * w + c))%nat
  | _ => (h + w + (h * w + (r * w + c)))%nat
  end.
Definition face (l a : nat) : nat := match a with 3%nat => l | _ => 0%nat end.
Definition amp (a : nat) : Z := match a with O => ar | 1%nat => ac | 2%nat => ap | _ => an end.
Definition zsign (l : nat) (q : bool * bool) : Z := if toss l q then 1%Z else (-1)%Z.
Definition coin_value (l r c : nat) (o : nat -> bool * bool) : Z :=
  (b + (ar * zsign 0 (o (site r c 0)) + ac * zsign 0 (o (site r c 1)) + ap * zsign 0 (o (site r c 2))
        + an * zsign l (o (site r c 3))))%Z.
Definition coin_image (l : nat) (o : nat -> bool * bool) : image := mkImg h w (fun r c => coin_value l r c o).
Definition coin_stack (o : nat -> bool * bool) : list image := [coin_image 0 o; coin_image 1 o].

Lemma grey_coin l r c o : (l < 2)%nat -> grey l r c (coin_stack o) =
  IZR b + sumR 4 (fun a => IZR (amp a) * sign (face l a) (o (site r c a))).
Proof.
  intros Hl. assert (Z : forall l q, IZR (zsign l q) = sign l q) by (intros k q; unfold zsign, sign; destruct (toss k q); reflexivity).
  unfold grey, coin_stack. destruct l as [|[|l]]; [| |lia]; cbn [nth px coin_image]; unfold coin_value;
    rewrite !plus_IZR, !mult_IZR, !Z; cbn [sumR amp face]; ring.
Qed.

Lemma flat_lt r c : (r < h)%nat -> (c < w)%nat -> (r * w + c < h * w)%nat.
Proof. intros. nia. Qed.
Lemma flat_eq r c r' c' : (c < w)%nat -> (c' < w)%nat -> (r * w + c = r' * w + c')%nat -> r = r' /\ c = c'.
Proof.
  intros Hc Hc' E. assert (r = r').
  { apply (f_equal (fun k => k / w)%nat) in E. rewrite !Nat.div_add_l, !(Nat.div_small c), !(Nat.div_small c') in E by lia. lia. }
  subst. lia.
Qed.
Lemma site_lt r c a : (r < h)%nat -> (c < w)%nat -> (site r c a < sites)%nat.
Proof.
  intros Hr Hc. assert (F := flat_lt r c Hr Hc). unfold sites.
  destruct a as [|[|[|a]]]; cbn [site]; lia.
Qed.
Lemma face_lt l a : (l < 2)%nat -> (face l a < 2)%nat.
Proof. intros. destruct a as [|[|[|[|a]]]]; cbn [face]; lia. Qed.

Lemma coin_mean l r c : (l < 2)%nat -> (r < h)%nat -> (c < w)%nat ->
  row_mean sites (fun o => grey l r c (coin_stack o)) = IZR b.
Proof.
  intros Hl Hr Hc. rewrite (row_ext _ _ _ (fun o => grey_coin l r c o Hl)).
  rewrite row_plus, row_const.
  assert (E : row_mean sites (fun o => sumR 4 (fun a => IZR (amp a) * sign (face l a) (o (site r c a)))) = 0); [|rewrite E; ring].
  rewrite (row_sum sites 4 (fun a o => IZR (amp a) * sign (face l a) (o (site r c a)))).
  rewrite (sumR_ext 4 _ (fun _ => 0)); [apply sumR_0|]. intros a _.
  rewrite row_scale, row_one, sign_mean by (apply site_lt; assumption). ring.
Qed.

Lemma coin_covar l r c l' r' c' : (l < 2)%nat -> (r < h)%nat -> (c < w)%nat -> (l' < 2)%nat -> (r' < h)%nat -> (c' < w)%nat ->
  covar (row sites) (fun o => grey l r c (coin_stack o)) (fun o => grey l' r' c' (coin_stack o)) =
  same r r' (IZR (ar * ar)) + same c c' (IZR (ac * ac)) +
  same r r' (same c c' (IZR (ap * ap) + same l l' (IZR (an * an)))).
Proof.
  intros Hl Hr Hc Hl' Hr' Hc'. unfold covar. cbn [expect row]. rewrite !coin_mean by assumption.
  rewrite (row_ext _ _ (fun o => sumR 4 (fun a => sumR 4 (fun a' =>
    (IZR (amp a) * IZR (amp a')) * (sign (face l a) (o (site r c a)) * sign (face l' a') (o (site r' c' a'))))))).
  2:{ intros o. rewrite !grey_coin by assumption.
      replace (IZR b + sumR 4 (fun a => IZR (amp a) * sign (face l a) (o (site r c a))) - IZR b)
        with (sumR 4 (fun a => IZR (amp a) * sign (face l a) (o (site r c a)))) by ring.
      replace (IZR b + sumR 4 (fun a => IZR (amp a) * sign (face l' a) (o (site r' c' a))) - IZR b)
        with (sumR 4 (fun a => IZR (amp a) * sign (face l' a) (o (site r' c' a)))) by ring.
      rewrite sumR_mult. apply sumR_ext. intros a _. apply sumR_ext. intros a' _. ring. }
  rewrite (row_sum sites 4 (fun a o => sumR 4 (fun a' =>
    (IZR (amp a) * IZR (amp a')) * (sign (face l a) (o (site r c a)) * sign (face l' a') (o (site r' c' a')))))).
  rewrite (sumR_ext 4 _ (fun a => sumR 4 (fun a' =>
    (IZR (amp a) * IZR (amp a')) * same (site r c a) (site r' c' a') (same (face l a) (face l' a') 1)))).
  2:{ intros a _. rewrite (row_sum sites 4 (fun a' o =>
        (IZR (amp a) * IZR (amp a')) * (sign (face l a) (o (site r c a)) * sign (face l' a') (o (site r' c' a'))))).
      apply sumR_ext. intros a' _. rewrite row_scale. f_equal.
      apply sign_pair; try (apply site_lt; assumption); apply face_lt; assumption. }
  assert (F := flat_lt r c Hr Hc). assert (F' := flat_lt r' c' Hr' Hc').
  rewrite !mult_IZR. cbn [sumR amp site face].
  assert (K : forall i j x, i <> j -> same i j x = 0)
    by (intros i j x N; unfold same; destruct (Nat.eqb_spec i j); [contradiction|reflexivity]).
  set (k := (r * w + c)%nat) in *. set (k' := (r' * w + c')%nat) in *.
  assert (KK : forall x, same k k' x = same r r' (same c c' x)).
  { intros x. destruct (Nat.eq_dec k k') as [E|E].
    - destruct (flat_eq r c r' c' Hc Hc' E) as (<- & <-). rewrite E, !same_refl. reflexivity.
    - rewrite (K k k') by assumption. unfold same.
      destruct (Nat.eqb_spec r r') as [<-|]; [|reflexivity]. destruct (Nat.eqb_spec c c') as [<-|]; [|reflexivity].
      contradiction E; reflexivity. }
  assert (SH : forall q i j x, same (q + i) (q + j) x = same i j x).
  { intros q i j x. unfold same. destruct (Nat.eqb_spec i j) as [->|N]; [rewrite Nat.eqb_refl; reflexivity|].
    destruct (Nat.eqb_spec (q + i) (q + j)); [lia|reflexivity]. }
  rewrite !SH, !KK.
  repeat match goal with |- context [same ?i ?j ?x] => rewrite (K i j x) by (clear - Hr Hc Hr' Hc' F F'; lia) end.
  rewrite !same_refl. unfold same. destruct (r =? r')%nat, (c =? c')%nat, (l =? l')%nat; ring.
Qed.

Lemma coin_layered : layered_series (row sites) coin_stack 2 h w (fun _ _ => IZR b)
  (IZR (ar * ar)) (IZR (ac * ac)) (IZR (ap * ap)) (fun _ _ _ => IZR (an * an)).
Proof.
  constructor; try (intros; exact I); try reflexivity.
  - intros l r c Hl Hr Hc. apply coin_mean; assumption.
  - intros. apply coin_covar; assumption.
Qed.
End Sensor.

Lemma zsign_cases l q : zsign l q = 1%Z \/ zsign l q = (-1)%Z.
Proof. unfold zsign. destruct (toss l q); auto. Qed.
Lemma coin_documented h w b ar ac ap an o :
  (b + (ar + ac + ap + an) < 65536)%Z ->
  (0 <= ar)%Z -> (0 <= ac)%Z -> (0 <= ap)%Z -> (0 <= an)%Z -> (ar + ac + ap + an <= b)%Z ->
  documented h w (coin_stack h w b ar ac ap an o).
Proof.
  intros HB H1 H2 H3 H4 H5.
  split; [discriminate|]. split; [simpl; lia|]. split.
  - repeat (apply Forall_cons || apply Forall_nil); split; reflexivity.
  - change (2 ^ 16)%Z with 65536%Z in *.
    repeat (apply Forall_cons || apply Forall_nil); intros r c Hr Hc; cbn [px coin_image]; unfold coin_value;
      destruct (zsign_cases 0 (o (site h w r c 0))) as [-> | ->]; destruct (zsign_cases 0 (o (site h w r c 1))) as [-> | ->];
      destruct (zsign_cases 0 (o (site h w r c 2))) as [-> | ->];
      match goal with |- context [zsign ?l ?q] => destruct (zsign_cases l q) as [-> | ->] end; lia.
Qed.

(** The data of a series. *)
Definition stack_data (h w : nat) (s : list image) : sdata :=
  match get_int_imgs s with
  | Ok r => match get_spatial_data h w r with Ok d => d | Err _ => mkS (mkImg 0 0 (fun _ _ => 0%Z)) 0 0 0 None None 0 None None end
  | Err _ => mkS (mkImg 0 0 (fun _ _ => 0%Z)) 0 0 0 None None 0 None None
  end.
Lemma stack_data_of h w s : documented h w s -> (2 <= length s)%nat -> (2 <= h * w)%nat ->
  spatial_data_of h w s (stack_data h w s).
Proof.
  intros DOC L2 HW. destruct (Proofs_Data2.spatial_statistics h w s DOC L2 HW) as (r & d & Er & Ed & _).
  unfold stack_data, spatial_data_of. rewrite Er, Ed. exists r. auto.
Qed.
Definition coin_obj (h w : nat) (s : list image) : robj :=
  mkObj (mkRT [] [] [] [] [] []) (mkSpatial (FFin 1) (FFin 10) (stack_data h w s) (stack_data h w s)) None None.
