(** C91, C92: expected values of the measured variances. *)
From Coq Require Import List Bool Arith ZArith QArith Reals Qreals Lia.
From Verif Require Import Base_Prelude Base_Num Base_Sum Base_Xreal Model_Images Model_Loader Model_Data Model_Results
  Spec_Images Spec_Data Spec_Results Spec_Chance Proofs_Chance2 Proofs_Chance3.
Import ListNotations.
Open Scope Q_scope.

(** ** C91: the temporal variance of a pair, whatever the drift between the images *)
Theorem C91_temporal :
  forall P h w mu s2 drift (T : list image -> tdata),
  noisy P 2 h w mu s2 drift -> (0 < h * w)%nat ->
  (forall s, possible P s -> forall A B, s = [A; B] -> pair_ok h w A B) ->
  (forall s, possible P s -> temporal_data_of s (T s)) ->
  expected P (fun s => td_mean (h * w) (T s)) == pixel_mean h w mu + mean_n 2 drift /\
  expected P (fun s => td_s2 (h * w) (T s)) == (1 - 1 / qn (h * w)) * pixel_mean h w s2.
Proof.
  exact (fun P h w mu s2 drift T NY HW OK HT =>
    temporal_expected P 2 h w mu s2 drift NY T eq_refl OK HT HW).
Qed.
Print Assumptions C91_temporal.

(** ** C92: the spatial figures of a stack *)
Theorem C92_unbiased :
  forall P L h w mu s2 drift O d,
  noisy P L h w mu s2 drift -> (2 <= L)%nat -> (2 <= h * w)%nat ->
  (forall s, possible P s -> documented h w s) ->
  (forall l, (l < L)%nat -> drift l == d) ->
  ((forall s, possible P s -> spatial_data_of h w s (sp_bright (o_s (O s)))) ->
   expected P (fun s => number (sigma_2_y_stack (O s))) == pixel_mean h w s2 /\
   expected P (fun s => number (s_2_y (O s))) == spatial_variance h w mu) /\
  ((forall s, possible P s -> spatial_data_of h w s (sp_dark (o_s (O s)))) ->
   expected P (fun s => number (sigma_2_y_stack_dark (O s))) == pixel_mean h w s2 /\
   expected P (fun s => number (s_2_y_dark (O s))) == spatial_variance h w mu).
Proof.
  exact (fun P L h w mu s2 drift O d NY L2 HW DOC D =>
    conj (steady_expected P L h w mu s2 drift NY L2 HW DOC O d D)
         (steady_expected_dark P L h w mu s2 drift NY L2 HW DOC O d D)).
Qed.
Print Assumptions C92_unbiased.

Theorem C92_bright :
  forall P L h w mu s2 drift,
  noisy P L h w mu s2 drift -> (2 <= L)%nat -> (2 <= h * w)%nat ->
  (forall s, possible P s -> documented h w s) ->
  forall O, (forall s, possible P s -> spatial_data_of h w s (sp_bright (o_s (O s)))) ->
  expected P (fun s => sd_avg_mean (sp_bright (o_s (O s)))) == pixel_mean h w mu + mean_n L drift /\
  expected P (fun s => number (sigma_2_y_stack (O s))) == pixel_mean h w s2 + var_n L drift /\
  expected P (fun s => number (s_2_y (O s))) == spatial_variance h w mu - var_n L drift / qn L /\
  expected P (fun s => number (s_2_y_cav (O s))) == pop_var w (col_mean h mu)
    - pixel_mean h w s2 / (qn L * qn (h * w)) - var_n L drift / (qn L * qn h) /\
  expected P (fun s => number (s_2_y_rav (O s))) == pop_var h (row_mean w mu)
    - pixel_mean h w s2 / (qn L * qn (h * w)) - var_n L drift / (qn L * qn w) /\
  (~ (h = 2%nat /\ w = 2%nat) ->
   decomposition h w
    (expected P (fun s => number (s_2_y (O s)))) (expected P (fun s => number (s_2_y_cav (O s))))
    (expected P (fun s => number (s_2_y_rav (O s)))) (expected P (fun s => number_r (s_2_y_row (O s))))
    (expected P (fun s => number_r (s_2_y_col (O s)))) (expected P (fun s => number_r (s_2_y_pixel (O s))))).
Proof. exact bright_expected. Qed.
Print Assumptions C92_bright.

Theorem C92_dark :
  forall P L h w mu s2 drift,
  noisy P L h w mu s2 drift -> (2 <= L)%nat -> (2 <= h * w)%nat ->
  (forall s, possible P s -> documented h w s) ->
  forall O, (forall s, possible P s -> spatial_data_of h w s (sp_dark (o_s (O s)))) ->
  expected P (fun s => sd_avg_mean (sp_dark (o_s (O s)))) == pixel_mean h w mu + mean_n L drift /\
  expected P (fun s => number (sigma_2_y_stack_dark (O s))) == pixel_mean h w s2 + var_n L drift /\
  expected P (fun s => number (s_2_y_dark (O s))) == spatial_variance h w mu - var_n L drift / qn L /\
  expected P (fun s => number (s_2_y_cav_dark (O s))) == pop_var w (col_mean h mu)
    - pixel_mean h w s2 / (qn L * qn (h * w)) - var_n L drift / (qn L * qn h) /\
  expected P (fun s => number (s_2_y_rav_dark (O s))) == pop_var h (row_mean w mu)
    - pixel_mean h w s2 / (qn L * qn (h * w)) - var_n L drift / (qn L * qn w) /\
  (~ (h = 2%nat /\ w = 2%nat) ->
   decomposition h w
    (expected P (fun s => number (s_2_y_dark (O s)))) (expected P (fun s => number (s_2_y_cav_dark (O s))))
    (expected P (fun s => number (s_2_y_rav_dark (O s)))) (expected P (fun s => number_r (s_2_y_row_dark (O s))))
    (expected P (fun s => number_r (s_2_y_col_dark (O s)))) (expected P (fun s => number_r (s_2_y_pixel_dark (O s))))).
Proof. exact dark_expected. Qed.
Print Assumptions C92_dark.

(** Two images of two pixels: every pixel is 10 or 12 (first column), 15 or 17 (second
    column) by the toss of a coin, the second image is 4 brighter. *)
Definition toss (k : nat) (base : Z) : Z := (base + if Nat.odd k then 2 else 0)%Z.
Definition coin_image (k : nat) (gain : Z) : image :=
  mkImg 1 2 (fun _ c => match c with O => toss k 10 + gain | _ => toss (k / 2) 15 + gain end)%Z.
Definition coin_series (gain : Z) (k : nat) : list image := [coin_image k 0; coin_image (k / 4) gain].
Definition coins (gain : Z) : law := map (fun k => (1 # 16, coin_series gain k)) (seq 0 16).
Definition coin_mu (r c : nat) : Q := match c with O => 11 | _ => 16 end.
Definition coin_drift (gain : Q) (l : nat) : Q := match l with O => 0 | _ => gain end.

Ltac split_index i := destruct i as [|[|i]]; try lia.
Example coins_noisy : noisy (coins 4) 2 1 2 coin_mu (fun _ _ => 1) (coin_drift 4).
Proof.
  constructor.
  - split; [|vm_compute; reflexivity].
    unfold coins. apply Forall_forall. intros (p, s) Hin. apply in_map_iff in Hin.
    destruct Hin as (k & E & _). inversion E. discriminate.
  - intros s (p & Hin). apply in_map_iff in Hin. destruct Hin as (k & E & _). inversion E. reflexivity.
  - intros l r c Hl Hr Hc. split_index l; split_index r; split_index c; vm_compute; reflexivity.
  - intros l r c Hl Hr Hc. split_index l; split_index r; split_index c; vm_compute; reflexivity.
  - intros l r c l' r' c' Hl Hr Hc Hl' Hr' Hc' N.
    split_index l; split_index r; split_index c; split_index l'; split_index r'; split_index c';
      try (exfalso; apply N; reflexivity); vm_compute; reflexivity.
Qed.

Example coins_documented : forall s, possible (coins 4) s -> documented 1 2 s.
Proof.
  intros s (p & Hin). apply in_map_iff in Hin. destruct Hin as (k & E & _). inversion E. subst s.
  split; [discriminate|]. split; [simpl; lia|]. split.
  - repeat (apply Forall_cons || apply Forall_nil); split; reflexivity.
  - repeat (apply Forall_cons || apply Forall_nil); intros r c Hr Hc; cbn [coin_image px]; unfold toss;
      (destruct c as [|c]; [|]); destruct (Nat.odd _); lia.
Qed.
Example C91_case :
  (0 < 1 * 2)%nat /\
  (forall s, possible (coins 4) s -> forall A B, s = [A; B] -> pair_ok 1 2 A B) /\
  exists T, (forall s, possible (coins 4) s -> temporal_data_of s (T s)) /\
    expected (coins 4) (fun s => td_s2 2 (T s)) == 1 # 2.
Proof.
  split; [lia|]. split.
  - intros s Hs A B ->. destruct (coins_documented _ Hs) as (_ & _ & Sh & Bi).
    inversion Sh as [|x l (A1 & A2) Sh']. inversion Sh' as [|y l' (B1 & B2) _].
    unfold pair_ok. split; [lia|]. split; [vm_compute; discriminate|]. auto.
  - exists (fun s => match get_int_imgs s with Ok r => temporal_summary r | Err _ => mkT  0 0 0 end).
    split; [|vm_compute; reflexivity].
    intros s (p & Hin). apply in_map_iff in Hin. destruct Hin as (k & E & _). inversion E. subst s.
    unfold temporal_data_of. destruct (get_int_imgs (coin_series 4 k)) as [r|e] eqn:G; [|discriminate G].
    exists r. split; reflexivity.
Qed.

Example coins_data s : possible (coins 4) s -> has_data s = true.
Proof.
  assert (A : forallb (fun e => has_data (snd e)) (coins 4) = true) by (vm_compute; reflexivity).
  rewrite forallb_forall in A. intros (p & Hin). exact (A _ Hin).
Qed.
Definition coin_obj (s : list image) : robj :=
  mkObj (mkRT [] [] [] [] [] []) (mkSpatial (FFin 1) (FFin 10) (data_of s) (data_of s)) None None.
Example C92_case :
  (forall s, possible (coins 4) s -> spatial_data_of 1 2 s (sp_bright (o_s (coin_obj s)))) /\
  (forall s, possible (coins 4) s -> spatial_data_of 1 2 s (sp_dark (o_s (coin_obj s)))) /\
  expected (coins 4) (fun s => number (s_2_y (coin_obj s))) == (25 # 2) - 4.
Proof.
  assert (H : forall s, possible (coins 4) s -> spatial_data_of 1 2 s (data_of s)).
  { intros s Hs. apply data_of_spec. exact (coins_data s Hs). }
  split; [exact H|]. split; [exact H|]. vm_compute. reflexivity.
Qed.

(** A drift of the light inside the stack is counted as temporal noise and subtracted from the
    spatial variance: a uniform sensor without noise gets a negative variance and no DSNU. *)
Theorem C92_drift_refuted :
  exists s d o, documented 1 2 s /\ (2 <= length s)%nat /\
    (forall a r c r' c', In a s -> (r < 1)%nat -> (c < 2)%nat -> (r' < 1)%nat -> (c' < 2)%nat ->
       px a r c = px a r' c') /\
    spatial_data_of 1 2 s d /\ sp_dark (o_s o) = d /\
    exists v, s_2_y_dark o = Some v /\ v < 0 /\ DSNU1288_DN o = Ok XNan.
Proof. exact drift_spoils. Qed.
Print Assumptions C92_drift_refuted.
