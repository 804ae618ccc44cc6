(** Properties C47, C48: the simulated camera's images and settings. *)
From Coq Require Import List Bool Arith ZArith QArith Qabs.
From Verif Require Import Base_Prelude Base_Num Base_Order Base_Float Spec_Num Model_Camera Spec_Camera
  Proofs_Float Proofs_Camera Proofs_Camera2.
Import ListNotations.
Open Scope Z_scope.

(** C47: whatever the generator draws, every pixel is a number of the bit depth
    and of the type of the image, and the image has the size of the camera. *)
Theorem C47_bit_depth c d : (c_bits c <= 53)%nat -> good_camera c -> good_draws c d ->
  exists img, grab c d = Ok img /\ length img = (c_height c * c_width c)%nat /\
  Forall (fun p => exists z, p = Some z /\ 0 <= z <= 2 ^ Z.of_nat (c_bits c) - 1 /\
                             z < 2 ^ img_type (c_bits c)) img.
Proof. exact (grab_range c d). Qed.
Print Assumptions C47_bit_depth.

(** No pixel exceeds the full well level by more than the rounding, none is below
    the black offset unless it is saturated. *)
Theorem C47_full_well c d k s b : (c_bits c <= 53)%nat -> good_camera c -> good_draws c d ->
  c_K c = FFin k -> c_u_esat c = FFin s -> c_blackoffset c = FFin b ->
  (0 <= k)%Q -> (0 <= s)%Q -> (0 <= b)%Q -> (k * s + b <= inject_Z (2 ^ 43))%Q ->
  exists img, grab c d = Ok img /\
  Forall (fun p => exists z, p = Some z /\
    (inject_Z z <= k * s + b + 1 + (1 # 100))%Q /\
    ((b - 1 - (1 # 100) <= inject_Z z)%Q \/ z = 2 ^ Z.of_nat (c_bits c) - 1)) img.
Proof. exact (grab_full_well c d k s b). Qed.
Print Assumptions C47_full_well.

Example C47_case : good_camera demo_cam /\ good_draws demo_cam demo_draws /\
  grab demo_cam demo_draws = Ok [Some 5; Some 205].
Proof. exact demo_camera_good. Qed.

(** Beyond 53 bits the clipping point is rounded up ... *)
Theorem C47_deep_refuted : exists c d z, c_bits c = 54%nat /\ good_camera c /\ good_draws c d /\
  grab c d = Ok [Some z] /\ 2 ^ Z.of_nat (c_bits c) - 1 < z.
Proof. exact deep_overflow. Qed.
Print Assumptions C47_deep_refuted.

(** ... and with 64 bits out of the type. *)
Theorem C47_64_refuted : exists c d, c_bits c = 64%nat /\ good_camera c /\ good_draws c d /\
  grab c d = Ok [None].
Proof. exact deep_unspecified. Qed.
Print Assumptions C47_64_refuted.

(** C48: after any use of the camera gain and offset are available ones. *)
Theorem C48_available b h w e K Kmin Kmax Ks bo bomin bomax bos u d c ops :
  make_camera b h w e K Kmin Kmax Ks bo bomin bomax bos u d = Ok c ->
  In (c_K (run c ops)) (c_Ks c) /\ In (c_blackoffset (run c ops)) (c_blackoffsets c).
Proof. exact (camera_runs b h w e K Kmin Kmax Ks bo bomin bomax bos u d c ops). Qed.
Print Assumptions C48_available.

(** The available settings: as many as requested, from the smallest to the largest
    requested. *)
Theorem C48_range b h w e K Kmin Kmax Ks bo bomin bomax bos u d c :
  make_camera b h w e K Kmin Kmax Ks bo bomin (Some bomax) bos u d = Ok c ->
  machine_float Kmin -> machine_float Kmax -> machine_float bomin -> machine_float bomax ->
  feq bomax fzero = false -> (2 <= Ks)%nat -> (2 <= bos)%nat ->
  length (c_Ks c) = Ks /\ last (c_Ks c) FNan = Kmax /\
  (exists x, hd_error (c_Ks c) = Some x /\ feq x Kmin = true) /\
  length (c_blackoffsets c) = bos /\ last (c_blackoffsets c) FNan = bomax /\
  (exists x, hd_error (c_blackoffsets c) = Some x /\ feq x bomin = true).
Proof. exact (settings_range b h w e K Kmin Kmax Ks bo bomin bomax bos u d c). Qed.
Print Assumptions C48_range.

Example C48_range_case :
  exists c, gain_cam = Ok c /\ c_Ks c = [FFin 1; FFin 9; FFin 17] /\ c_K c = FFin 9.
Proof. exact gain_cam_ok. Qed.

(** Any request is accepted. *)
Theorem C48_accepted c v :
  (c_Ks c <> [] -> exists c', set_K c v = Ok c') /\
  (c_blackoffsets c <> [] -> exists c', set_blackoffset c v = Ok c').
Proof. exact (conj (set_K_total c v) (set_bo_total c v)). Qed.
Print Assumptions C48_accepted.

(** No available setting is nearer to the request, up to the rounding of a
    subtraction. *)
Theorem C48_nearest c v : machine_float v ->
  (forall c' a, Forall machine_float (c_Ks c) -> set_K c v = Ok c' -> In a (c_Ks c) ->
     nearer (1 + (1 # 2 ^ 51)) v (c_K c') a) /\
  (forall c' a, Forall machine_float (c_blackoffsets c) -> set_blackoffset c v = Ok c' ->
     In a (c_blackoffsets c) -> nearer (1 + (1 # 2 ^ 51)) v (c_blackoffset c') a).
Proof. exact (set_near c v). Qed.
Print Assumptions C48_nearest.

(** An available setting is set as requested. *)
Theorem C48_granted c v :
  (Forall machine_float (c_Ks c) -> In v (c_Ks c) ->
     exists c', set_K c v = Ok c' /\ feq (c_K c') v = true) /\
  (Forall machine_float (c_blackoffsets c) -> In v (c_blackoffsets c) ->
     exists c', set_blackoffset c v = Ok c' /\ feq (c_blackoffset c') v = true).
Proof. exact (set_available c v). Qed.
Print Assumptions C48_granted.

(** Setting what was set changes nothing. *)
Theorem C48_idempotent c v c' :
  (Forall machine_float (c_Ks c) -> set_K c v = Ok c' -> set_K c' (c_K c') = Ok c') /\
  (Forall machine_float (c_blackoffsets c) -> set_blackoffset c v = Ok c' ->
     set_blackoffset c' (c_blackoffset c') = Ok c').
Proof. exact (conj (set_K_again c v c') (set_bo_again c v c')). Qed.
Print Assumptions C48_idempotent.

(** Where the differences need no rounding: exactly the nearest value, the smaller
    one of two, growing with the request. *)
Theorem C48_exact v arr r a : machine_float v -> Forall machine_float arr ->
  Forall (fun a => exact_difference a v) arr ->
  nearest_value v arr = Ok r -> In a arr -> nearer 1 v r a.
Proof. exact (nearest_exact v arr r a). Qed.
Print Assumptions C48_exact.

Theorem C48_tie v arr r a : machine_float v -> Forall machine_float arr ->
  Forall (fun a => exact_difference a v) arr -> increasing arr ->
  nearest_value v arr = Ok r -> In a arr -> nearer 1 v a r -> at_most r a.
Proof. exact (nearest_tie v arr r a). Qed.
Print Assumptions C48_tie.

Theorem C48_monotone v w arr r t : machine_float v -> machine_float w -> Forall machine_float arr ->
  Forall (fun a => exact_difference a v) arr -> Forall (fun a => exact_difference a w) arr ->
  increasing arr -> at_most v w ->
  nearest_value v arr = Ok r -> nearest_value w arr = Ok t -> at_most r t.
Proof. exact (nearest_mono v w arr r t). Qed.
Print Assumptions C48_monotone.

Example C48_exact_case : Forall machine_float gains /\ increasing gains /\ machine_float (fi 5) /\
  Forall (fun a => exact_difference a (fi 5)) gains /\ nearest_value (fi 5) gains = Ok (fi 1).
Proof.
  exact (conj gains_machine (conj gains_increasing (conj (fi_machine 5 eq_refl)
          (conj (gains_exact 5 eq_refl) tie_case)))).
Qed.

(** A request so large that all differences are rounded to the same number gives
    the first setting, not the nearest. *)
Theorem C48_far_refuted : exists Ks v r a, increasing Ks /\ Forall machine_float Ks /\ machine_float v /\
  nearest_value v Ks = Ok r /\ In a Ks /\ ~ nearer 1 v r a.
Proof. exact far_request. Qed.
Print Assumptions C48_far_refuted.

Theorem C48_monotone_refuted : exists Ks v w r t, increasing Ks /\ Forall machine_float Ks /\
  machine_float v /\ machine_float w /\ below v w /\
  nearest_value v Ks = Ok r /\ nearest_value w Ks = Ok t /\ below t r.
Proof. exact far_not_monotone. Qed.
Print Assumptions C48_monotone_refuted.
