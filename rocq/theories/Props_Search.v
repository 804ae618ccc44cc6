(** Properties C52, C56: automatic settings, bad pixels. *)
From Coq Require Import List Bool Arith ZArith QArith.
From Verif Require Import Base_Prelude Base_Num Base_Order Base_Float Model_Camera Model_Search
  Spec_Camera Spec_Search Proofs_Search Proofs_Camera2 Proofs_Search2.
Import ListNotations.
Open Scope nat_scope.

(** C52: the gain search leaves the camera as it was and returns the first gain
    with enough noise, or the last. *)
Theorem C52_gain b h w e K Kmin Kmax Ks bo bomin bomax bos u d c0 ops c ds :
  make_camera b h w e K Kmin Kmax Ks bo bomin bomax bos u d = Ok c0 -> c = run c0 ops ->
  b <= 53 -> good_camera c -> (forall k, good_draws c (ds k)) ->
  increasing (c_Ks c) -> Forall machine_float (c_Ks c) ->
  exists g, get_emva_gain c ds = (c, Ok g) /\ first_good (c_Ks c) (gain_suffices c ds) g.
Proof. exact (gain_restored b h w e K Kmin Kmax Ks bo bomin bomax bos u d c0 ops c ds). Qed.
Print Assumptions C52_gain.

(** So does the offset search (below 2^40 pixels; exactly 0.5 % zeros may count
    either way). *)
Theorem C52_offset b h w e K Kmin Kmax Ks bo bomin bomax bos u d c0 ops c ds :
  make_camera b h w e K Kmin Kmax Ks bo bomin bomax bos u d = Ok c0 -> c = run c0 ops ->
  b <= 53 -> good_camera c -> (forall k, good_draws c (ds k)) ->
  (Z.of_nat (c_width c * c_height c) < 2 ^ 40)%Z ->
  increasing (c_blackoffsets c) -> Forall machine_float (c_blackoffsets c) ->
  exists g k, get_emva_blackoffset c ds = (c, Ok g) /\ nth_error (c_blackoffsets c) k = Some g /\
    (forall j, j < k -> ~ offset_suffices true c ds j) /\
    (offset_suffices false c ds k \/ S k = length (c_blackoffsets c)).
Proof. exact (offset_restored b h w e K Kmin Kmax Ks bo bomin bomax bos u d c0 ops c ds). Qed.
Print Assumptions C52_offset.

Example C52_case : good_camera search_camera /\ increasing (c_Ks search_camera) /\
  Forall machine_float (c_Ks search_camera) /\
  increasing (c_blackoffsets search_camera) /\ Forall machine_float (c_blackoffsets search_camera) /\
  get_emva_gain search_camera search_draws = (search_camera, Ok (FFin 2)) /\
  get_emva_blackoffset search_camera search_draws = (search_camera, Ok (FFin 1)).
Proof. exact search_case. Qed.

(** A failing image leaves the camera at the gain that was tried. *)
Theorem C52_failure_refuted : exists c ds c', search_cam = Ok c /\
  get_emva_gain c ds = (c', Err ValueError) /\ feq (c_K c') (c_K c) = false.
Proof. exact search_failure. Qed.
Print Assumptions C52_failure_refuted.

(** C56: exactly the drawn pixels are set to the bad value, all others and all
    other settings stay; their number is the requested one if no pixel was drawn
    twice, and never larger. *)
Theorem C56_marks c ps v : c_width c <> 0 -> length (c_dsnu c) = c_height c * c_width c ->
  Forall (fun i => i < c_height c * c_width c) ps ->
  exists c', bad_pixel c (Ok ps) v = Ok c' /\
    c' = set_dsnu c (c_dsnu c') /\ length (c_dsnu c') = length (c_dsnu c) /\
    (forall j, In j ps -> nth_error (c_dsnu c') j = Some (fmul v (c_u_esat c))) /\
    (forall j, ~ In j ps -> nth_error (c_dsnu c') j = nth_error (c_dsnu c) j) /\
    hits (c_height c * c_width c) ps <= length ps /\
    (NoDup ps -> hits (c_height c * c_width c) ps = length ps).
Proof. exact (bad_pixel_marks c ps v). Qed.
Print Assumptions C56_marks.

Example C56_case : c_width demo_cam <> 0 /\ length (c_dsnu demo_cam) = c_height demo_cam * c_width demo_cam /\
  Forall (fun i => i < c_height demo_cam * c_width demo_cam) [1; 0].
Proof. split; [discriminate|]. split; [reflexivity|]. repeat constructor. Qed.

(** A pixel drawn twice: fewer bad pixels than requested. *)
Theorem C56_count_refuted : exists c ps c',
  length (c_dsnu c) = c_height c * c_width c /\ length ps = 2 /\
  Forall (fun i => i < c_height c * c_width c) ps /\
  bad_pixel c (Ok ps) (fi 1) = Ok c' /\
  length (filter (fun x => feq x (c_u_esat c)) (c_dsnu c')) = 1.
Proof. exact bad_pixel_twice. Qed.
Print Assumptions C56_count_refuted.
