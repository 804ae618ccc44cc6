(** C97, C98: expected values for every probability law, and of simulated images. *)
From Coq Require Import List Bool Arith ZArith QArith Qreals Reals.
From Verif Require Import Base_Prelude Base_Num Base_Sum Base_Xreal Model_Images Model_Loader Model_Data Model_Results
  Spec_Images Spec_Data Spec_Results Spec_Chance Spec_Linear Spec_Any Proofs_Chance2 Proofs_Chance3 Proofs_Any3 Proofs_Any4.
Import ListNotations.
Open Scope R_scope.

(** ** C97: random images on any probability space *)
Theorem C97_temporal :
  forall W (C : chance W) S h w mu drift s2 (T : W -> tdata),
  random_series C S 2 h w mu drift s2 -> (0 < h * w)%nat ->
  (forall o A B, S o = [A; B] -> pair_ok h w A B) ->
  (forall o, temporal_data_of (S o) (T o)) ->
  averages C (fun o => Q2R (td_mean (h * w) (T o))) (pixel_meanR h w mu + averageR 2 drift) /\
  averages C (fun o => Q2R (td_s2 (h * w) (T o)))
    ((1 - 1 / INR (h * w)) * pixel_meanR h w (fun r c => (s2 0%nat r c + s2 1%nat r c) / 2)).
Proof. exact temporal_any_obj. Qed.
Print Assumptions C97_temporal.

Theorem C97_spatial :
  forall W (C : chance W) S L h w mu drift s2 (O : W -> robj),
  random_series C S L h w mu drift s2 -> (2 <= L)%nat -> (2 <= h * w)%nat ->
  (forall o, documented h w (S o)) ->
  ((forall o, spatial_data_of h w (S o) (sp_bright (o_s (O o)))) ->
   averages C (fun o => Q2R (sd_avg_mean (sp_bright (o_s (O o))))) (pixel_meanR h w mu + averageR L drift) /\
   averages C (fun o => Q2R (number (sigma_2_y_stack (O o))))
     (pixel_meanR h w (fun r c => averageR L (fun l => s2 l r c)) + varianceR L drift) /\
   averages C (fun o => Q2R (number (s_2_y (O o)))) (spatial_varianceR h w mu - varianceR L drift / INR L)) /\
  ((forall o, spatial_data_of h w (S o) (sp_dark (o_s (O o)))) ->
   averages C (fun o => Q2R (sd_avg_mean (sp_dark (o_s (O o))))) (pixel_meanR h w mu + averageR L drift) /\
   averages C (fun o => Q2R (number (sigma_2_y_stack_dark (O o))))
     (pixel_meanR h w (fun r c => averageR L (fun l => s2 l r c)) + varianceR L drift) /\
   averages C (fun o => Q2R (number (s_2_y_dark (O o)))) (spatial_varianceR h w mu - varianceR L drift / INR L)).
Proof. exact spatial_any_obj. Qed.
Print Assumptions C97_spatial.

(** ** C98: images of the simulated camera *)
Theorem C98_temporal :
  forall W (C : chance W) s S L h w, simulated C s S L h w ->
  forall T : W -> tdata, L = 2%nat -> (0 < h * w)%nat ->
  (forall o A B, S o = [A; B] -> pair_ok h w A B) ->
  (forall o, temporal_data_of (S o) (T o)) ->
  averages C (fun o => Q2R (td_mean (h * w) (T o))) (pixel_meanR h w (model_mean s)) /\
  exists q, 0 <= q <= 1 / 4 /\ averages C (fun o => Q2R (td_s2 (h * w) (T o)))
    ((1 - 1 / INR (h * w)) * (pixel_meanR h w (model_noise s) + q)).
Proof. exact @sim_temporal. Qed.
Print Assumptions C98_temporal.

(** Photon transfer between a bright and a dark pair: the measured variance grows by the gain
    times the growth of the measured mean. *)
Theorem C98_transfer :
  forall W W' (C : chance W) (C' : chance W') a b S S' h w (T : W -> tdata) (T' : W' -> tdata),
  simulated C a S 2 h w -> simulated C' b S' 2 h w -> same_but_light a b -> (0 < h * w)%nat ->
  (forall o A B, S o = [A; B] -> pair_ok h w A B) -> (forall o A B, S' o = [A; B] -> pair_ok h w A B) ->
  (forall o, temporal_data_of (S o) (T o)) -> (forall o, temporal_data_of (S' o) (T' o)) ->
  forall m v m' v',
  averages C (fun o => Q2R (td_mean (h * w) (T o))) m -> averages C (fun o => Q2R (td_s2 (h * w) (T o))) v ->
  averages C' (fun o => Q2R (td_mean (h * w) (T' o))) m' -> averages C' (fun o => Q2R (td_s2 (h * w) (T' o))) v' ->
  m - m' = st_K a * pixel_meanR h w (fun r c => st_light a r c - st_light b r c) /\
  Rabs ((v - v') - (1 - 1 / INR (h * w)) * st_K a * (m - m')) <= (1 - 1 / INR (h * w)) / 4.
Proof. exact sim_transfer. Qed.
Print Assumptions C98_transfer.

Theorem C98_spatial :
  forall W (C : chance W) s S L h w (O : W -> robj),
  simulated C s S L h w -> (2 <= L)%nat -> (2 <= h * w)%nat -> (forall o, documented h w (S o)) ->
  ((forall o, spatial_data_of h w (S o) (sp_bright (o_s (O o)))) ->
   averages C (fun o => Q2R (sd_avg_mean (sp_bright (o_s (O o))))) (pixel_meanR h w (model_mean s)) /\
   (exists q, 0 <= q <= 1 / 4 /\
     averages C (fun o => Q2R (number (sigma_2_y_stack (O o)))) (pixel_meanR h w (model_noise s) + q)) /\
   averages C (fun o => Q2R (number (s_2_y (O o))))
     (st_K s * st_K s * spatial_varianceR h w (fun r c => st_light s r c + st_dsnu s r c))) /\
  ((forall o, spatial_data_of h w (S o) (sp_dark (o_s (O o)))) ->
   averages C (fun o => Q2R (sd_avg_mean (sp_dark (o_s (O o))))) (pixel_meanR h w (model_mean s)) /\
   (exists q, 0 <= q <= 1 / 4 /\
     averages C (fun o => Q2R (number (sigma_2_y_stack_dark (O o)))) (pixel_meanR h w (model_noise s) + q)) /\
   averages C (fun o => Q2R (number (s_2_y_dark (O o))))
     (st_K s * st_K s * spatial_varianceR h w (fun r c => st_light s r c + st_dsnu s r c))).
Proof. exact sim_spatial_obj. Qed.
Print Assumptions C98_spatial.

(** Sixteen equally probable pairs of images of two pixels: 9 +- 2 and 15 +- 2 grey values; the
    second image is 6 brighter (C97) or not (C98). *)
Definition pair_data (s : list image) : tdata :=
  match get_int_imgs s with Ok r => temporal_summary r | Err _ => mkT 0 0 0 end.
Definition stack_obj (s : list image) : robj :=
  mkObj (mkRT [] [] [] [] [] []) (mkSpatial (FFin 1) (FFin 10) (data_of s) (data_of s)) None None.
Example C97_case :
  random_series four_coins drift_pair 2 1 2
    (fun _ c => match c with O => 9 | _ => 15 end) (fun l => match l with O => 0 | _ => 6 end) (fun _ _ _ => 4) /\
  (forall o A B, drift_pair o = [A; B] -> pair_ok 1 2 A B) /\
  (forall o, temporal_data_of (drift_pair o) (pair_data (drift_pair o))) /\
  (forall o, documented 1 2 (drift_pair o)) /\
  (forall o, spatial_data_of 1 2 (drift_pair o) (sp_bright (o_s (stack_obj (drift_pair o))))) /\
  (forall o, spatial_data_of 1 2 (drift_pair o) (sp_dark (o_s (stack_obj (drift_pair o))))).
Proof.
  assert (H : forall o, spatial_data_of 1 2 (drift_pair o) (data_of (drift_pair o))).
  { intros o. apply data_of_spec. destruct o as [[[[] []] []] []]; vm_compute; reflexivity. }
  split; [exact drift_random|].
  split; [intros o A B E; apply pair_of_documented; rewrite <- E; apply drift_pair_documented|].
  split; [intros o; unfold temporal_data_of, pair_data;
    destruct (get_int_imgs (drift_pair o)) as [r|e] eqn:G; [exists r; split; reflexivity|discriminate G]|].
  split; [exact drift_pair_documented|]. split; exact H.
Qed.
Example C98_case :
  simulated four_coins (small_camera 1) coin_pair 2 1 2 /\
  simulated four_coins (small_camera 0) dark_pair 2 1 2 /\
  same_but_light (small_camera 1) (small_camera 0) /\
  (forall o A B, coin_pair o = [A; B] -> pair_ok 1 2 A B) /\
  (forall o A B, dark_pair o = [A; B] -> pair_ok 1 2 A B) /\
  (forall o, temporal_data_of (coin_pair o) (pair_data (coin_pair o))) /\
  (forall o, temporal_data_of (dark_pair o) (pair_data (dark_pair o))) /\
  (forall o, documented 1 2 (coin_pair o)) /\
  (forall o, spatial_data_of 1 2 (coin_pair o) (sp_bright (o_s (stack_obj (coin_pair o))))) /\
  (forall o, spatial_data_of 1 2 (coin_pair o) (sp_dark (o_s (stack_obj (coin_pair o))))).
Proof.
  assert (H : forall o, spatial_data_of 1 2 (coin_pair o) (data_of (coin_pair o))).
  { intros o. apply data_of_spec. destruct o as [[[[] []] []] []]; vm_compute; reflexivity. }
  split; [exact bright_simulated|]. split; [exact dark_simulated|].
  split; [repeat split|].
  split; [intros o A B E; apply pair_of_documented; rewrite <- E; apply coin_pair_documented|].
  split; [intros o A B E; apply pair_of_documented; rewrite <- E; apply dark_pair_documented|].
  split; [intros o; unfold temporal_data_of, pair_data;
    destruct (get_int_imgs (coin_pair o)) as [r|e] eqn:G; [exists r; split; reflexivity|discriminate G]|].
  split; [intros o; unfold temporal_data_of, pair_data;
    destruct (get_int_imgs (dark_pair o)) as [r|e] eqn:G; [exists r; split; reflexivity|discriminate G]|].
  split; [exact coin_pair_documented|]. split; exact H.
Qed.
