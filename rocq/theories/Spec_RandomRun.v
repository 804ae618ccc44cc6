(** A generated data set with random deliveries to the camera, and light that is only known
    approximately. *)
From Coq Require Import List Arith ZArith QArith Qreals Reals Sorting.Sorted.
From Verif Require Import Base_Prelude Base_Str Base_Num Base_Order Base_Float Base_SumR Model_Parser Model_Images
  Model_Data Model_Results Model_Path Model_Camera Model_Points Model_Dataset Model_Generated Spec_Parser Spec_Camera Spec_Dataset Spec_Data
  Spec_Results Spec_Generated Spec_Emva Spec_Chance Spec_Linear Spec_Any Spec_Near.
Import ListNotations.
Open Scope R_scope.

(** The image the camera takes with the deliveries d. *)
Definition picture (c : camera) (d : draws) : image :=
  image_of (c_height c) (c_width c) (match grab c d with Ok px => px | Err _ => [] end).
Definition pair_at (c : camera) (d : nat -> draws) (n : nat) : list image := [picture c (d n); picture c (d (S n))].

(** Number of the first image of the shot s. *)
Definition first_image (L : nat) (p : points) (s : shot) (n : nat) : Prop :=
  exists before after, shots p = before ++ s :: after /\ n = list_sum (map (images_in L) before).

(** The bright temporal shots by listed exposure, then photons, each with the dark shot of its
    exposure. *)
Definition shot_lt (li : light) (a b : shot) : Prop :=
  flt (listed_exposure a) (listed_exposure b) = true \/
  (listed_exposure a = listed_exposure b /\ flt (listed_photons li a) (listed_photons li b) = true).
Definition in_order (li : light) (p : points) (bs : list (shot * shot)) : Prop :=
  StronglySorted (shot_lt li) (map fst bs) /\
  (forall s, In s (map fst bs) <-> In s (shots p) /\ s_kind s = Temporal /\ ~ dark_shot li s) /\
  (forall b d, In (b, d) bs -> In d (shots p) /\ s_kind d = Temporal /\ dark_shot li d /\ s_exposure d = s_exposure b).

(** Photons under which shot i is listed. *)
Definition listed_light (li : light) (bs : list (shot * shot)) (i : nat) : R :=
  match nth_error bs i with Some (b, _) => Q2R (Spec_Emva.number (listed_photons li b)) | None => 0 end.

(** Exposure times under which the points are listed. *)
Definition listed_times (bs : list (shot * shot)) : list Q :=
  map (fun bd => Spec_Emva.number (listed_exposure (fst bd))) bs.

(** The deliveries are random: the pair of the bright shot of point i has the true mean and
    variance [tr_mean T i] and [tr_var T i], that of its dark shot the dark ones; a pair without
    noise is the same image twice. *)
Record random_run {W} (C : chance W) (c : camera) (ds : W -> nat -> draws) (L : nat) (p : points)
    (bs : list (shot * shot)) (T : truth) (V M : R) : Prop := {
  rr_bright : forall i b d n, nth_error bs i = Some (b, d) -> first_image L p b n ->
    true_pair C (fun o => pair_at c (ds o) n) (c_height c) (c_width c) V M (tr_mean T i) (tr_var T i);
  rr_dark : forall i b d n, nth_error bs i = Some (b, d) -> first_image L p d n ->
    true_pair C (fun o => pair_at c (ds o) n) (c_height c) (c_width c) V M (tr_dark_mean T i) (tr_dark_var T i);
  rr_clipped : forall i b d n o, nth_error bs i = Some (b, d) -> first_image L p b n -> tr_var T i = 0 ->
    forall r q, (r < c_height c)%nat -> (q < c_width c)%nat ->
    px (picture c (ds o n)) r q = px (picture c (ds o (S n))) r q
}.

(** A sensor of quantum efficiency eta and gain K; the stated light x gives its signal up to s,
    the noise deviates from the shot noise by at most q. *)
Record near_law (T : truth) (x : nat -> R) (p : nat) (eta K q s : R) : Prop := {
  na_eta : 0 < eta;
  na_gain : 0 < K;
  na_signal : forall i, (i <= p)%nat -> Rabs (tr_mean T i - tr_dark_mean T i - K * (eta * x i)) <= s;
  na_noise : forall i, (i <= p)%nat ->
    Rabs ((tr_var T i - tr_dark_var T i) - K * (tr_mean T i - tr_dark_mean T i)) <= q;
  na_order : forall i, (i <= p)%nat -> x 0%nat <= x i
}.

(** Whatever the deliveries, the run of the generator writes the events [es o] and returns the
    descriptor [file]; its shots are listed differently and make a complete set. *)
Record usable_run {W} (li : light) (c : camera) (ds : W -> nat -> draws) (version format outdir : str) (L : nat)
    (p : points) (es : W -> list event) (file : str) : Prop := {
  ur_format : extension format;
  ur_version : is_word version;
  ur_images : (3 <= L <= 1000)%nat;
  ur_outdir : Model_Path.ends_with_sep outdir = false;
  ur_camera : Spec_Camera.good_camera c;
  ur_draws : forall o n, Spec_Camera.good_draws c (ds o n);
  ur_bits : (c_bits c <= 16)%nat;
  ur_size : (2 <= c_height c * c_width c)%nat /\ (Z.of_nat (c_height c * c_width c) <= 2 ^ 29)%Z;
  ur_run : forall o, run_test li c (ds o) version format outdir L p = (es o, Ok file);
  ur_different : ForallOrdPairs (fun s s' => ~ listed_alike li s s') (shots p);
  ur_complete : complete_points li p
}.

(** Every true variance of a bright pair is 0 or above e.  That of a dark pair is above e, or the
    pair always shows the same image twice. *)
Definition noise_resolved {W} (c : camera) (ds : W -> nat -> draws) (L : nat) (p : points)
    (bs : list (shot * shot)) (T : truth) (e : R) : Prop :=
  forall i b d n, nth_error bs i = Some (b, d) -> first_image L p d n ->
  (tr_var T i = 0 \/ e < tr_var T i) /\
  (e < tr_dark_var T i \/
   forall o r j, (r < c_height c)%nat -> (j < c_width c)%nat ->
   px (picture c (ds o n)) r j = px (picture c (ds o (S n))) r j).

(** The L images from number n on. *)
Definition series_at (c : camera) (d : nat -> draws) (L n : nat) : list image :=
  map (fun i => picture c (d i)) (seq n L).

(** The bright and the dark spatial shot, and the numbers of their first images. *)
Definition spatial_shots (li : light) (L : nat) (p : points) (nb nd : nat) : Prop :=
  exists b d, In b (shots p) /\ In d (shots p) /\ s_kind b = Spatial /\ s_kind d = Spatial /\
    ~ dark_shot li b /\ dark_shot li d /\ first_image L p b nb /\ first_image L p d nd.
