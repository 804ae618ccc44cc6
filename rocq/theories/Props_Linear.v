(** C94: the simulated camera obeys the linear camera model. *)
From Coq Require Import ZArith Reals.
From Verif Require Import Base_Prelude Base_Xreal Model_Camera Model_Optics Model_Digit
  Spec_Digit Spec_Linear Spec_Optics Spec_Optics2 Proofs_Optics2 Proofs_Linear.
Open Scope R_scope.

(** Mean: offset plus gain times the electrons from heat, light, electronics and DSNU. *)
Theorem C94_mean :
  forall W (C : chance W) t l n ud ue mu s2, deliveries C t l n ud ue mu s2 ->
  forall bits K offset u_esat dsnu, unclipped (IZR (img_max bits)) K offset u_esat dsnu t l n ->
  mean_is C (fun w u => IZR (grab_value bits K offset u_esat dsnu (t w) (l w) (n w) u))
    (offset + K * (ud + ue + dsnu + mu)).
Proof. exact @linear_mean. Qed.
Print Assumptions C94_mean.

(** Variance: gain squared times shot noise and electronics noise; the quantisation adds at
    most 1/4. *)
Theorem C94_variance :
  forall W (C : chance W) t l n ud ue mu s2, deliveries C t l n ud ue mu s2 ->
  forall bits K offset u_esat dsnu, unclipped (IZR (img_max bits)) K offset u_esat dsnu t l n ->
  forall v, variance_is C (fun w u => IZR (grab_value bits K offset u_esat dsnu (t w) (l w) (n w) u)) v ->
  K * K * (ud + ue + s2) <= v <= K * K * (ud + ue + s2) + 1 / 4.
Proof. exact @linear_variance. Qed.
Print Assumptions C94_variance.

(** There is such a variance where the quantisation noise has an expected value. *)
Theorem C94_variance_exists :
  forall W (C : chance W) t l n ud ue mu s2, deliveries C t l n ud ue mu s2 ->
  forall bits K offset u_esat dsnu, unclipped (IZR (img_max bits)) K offset u_esat dsnu t l n ->
  integrable C (fun w => let y := K * (IZR (t w) + IZR (l w) + dsnu + n w) + offset in frac y * (1 - frac y)) ->
  exists v, variance_is C (fun w u => IZR (grab_value bits K offset u_esat dsnu (t w) (l w) (n w) u)) v.
Proof. exact @linear_variance_exists. Qed.
Print Assumptions C94_variance_exists.

(** Photon transfer: between a bright and a dark exposure of the same length the variance
    grows by the gain times the growth of the mean, up to the quantisation. *)
Theorem C94_transfer :
  forall W W' (C : chance W) (C' : chance W') t l n t' l' n' ud ue mu s2 bits K offset u_esat dsnu,
  deliveries C t l n ud ue mu s2 -> deliveries C' t' l' n' ud 0 mu s2 ->
  unclipped (IZR (img_max bits)) K offset u_esat dsnu t l n ->
  unclipped (IZR (img_max bits)) K offset u_esat dsnu t' l' n' ->
  let bright := fun w u => IZR (grab_value bits K offset u_esat dsnu (t w) (l w) (n w) u) in
  let dark := fun w u => IZR (grab_value bits K offset u_esat dsnu (t' w) (l' w) (n' w) u) in
  forall m m' v v', mean_is C bright m -> mean_is C' dark m' ->
  variance_is C bright v -> variance_is C' dark v' -> Rabs ((v - v') - K * (m - m')) <= 1 / 4.
Proof. exact @photon_transfer. Qed.
Print Assumptions C94_transfer.

(** Responsivity: the growth of the mean is the gain times photons times efficiency, summed
    over the wavelengths, times the response of the pixel. *)
Theorem C94_response :
  forall W W' (C : chance W) (C' : chance W') t l n t' l' n' ud ue mu s2 bits K offset u_esat dsnu o r f i j,
  (forall k, (k < o_n o)%nat -> o_wave o k <> 0) ->
  u_e o (fun i j k => XR (r i j k)) f i j = XR ue ->
  deliveries C t l n ud ue mu s2 -> deliveries C' t' l' n' ud 0 mu s2 ->
  unclipped (IZR (img_max bits)) K offset u_esat dsnu t l n ->
  unclipped (IZR (img_max bits)) K offset u_esat dsnu t' l' n' ->
  forall m m',
  mean_is C (fun w u => IZR (grab_value bits K offset u_esat dsnu (t w) (l w) (n w) u)) m ->
  mean_is C' (fun w u => IZR (grab_value bits K offset u_esat dsnu (t' w) (l' w) (n' w) u)) m' ->
  m - m' = K * electrons o (fun i j k =>
    photons_on (irradiance (r i j k) (or_default f (o_f_number o)) (o_wave o k / 10 ^ 9))
      (o_pixel_area o / 10 ^ 12) (o_exposure o / 10 ^ 9) (o_wave o k / 10 ^ 9)) i j.
Proof. exact @light_response. Qed.
Print Assumptions C94_response.

(** Eight equally probable outcomes: 1 thermal and 9 light electrons on average. *)
Example C94_case : deliveries coins coin_t coin_l coin_n 1 9 1 (1 / 4) /\
  unclipped (IZR (img_max 8)) (1 / 3) 5 100 (1 / 10) coin_t coin_l coin_n.
Proof. split; [exact coin_deliveries|exact coin_unclipped]. Qed.
Example C94_dark_case : deliveries coins coin_t (fun _ => 0%Z) coin_n 1 0 1 (1 / 4) /\
  unclipped (IZR (img_max 8)) (1 / 3) 5 100 (1 / 10) coin_t (fun _ => 0%Z) coin_n.
Proof. split; [exact coin_dark_deliveries|exact coin_dark_unclipped]. Qed.
