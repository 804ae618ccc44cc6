(** What the property C119 speaks about: a whole evaluation in binary64 numbers. *)
From Coq Require Import List Bool Arith ZArith QArith Qabs Qreals Reals.
From Verif Require Import Base_Prelude Base_Num Base_Sum Model_Parser Model_Images Model_Loader Model_Data Model_Results Model_Rounded
  Model_RoundedSpatial Model_RoundedEmva Spec_Parser Spec_Images Spec_Data Spec_Results Spec_Near Spec_Emva Spec_Whole Spec_Rounded Spec_RoundedSpatial.
Import ListNotations.
Open Scope Q_scope.

(** Every pixel of every image has b bits, b at most 16. *)
Definition files_bits (fs : fsys) (es : list entry) (h w : nat) (b : Z) : Prop :=
  (0 <= b <= 16)%Z /\
  forall e f im r c, In e es -> In f (e_files e) -> fs f = Some im -> (r < h)%nat -> (c < w)%nat ->
  (0 <= px im r c < 2 ^ b)%Z.

(** Every sum adds all its terms once; chains of additions in the spatial series have at most n links. *)
Definition sound_additions (ad : additions) (n h w : nat) : Prop :=
  sound_order (ad_mean ad) /\ sound_orders n h w (ad_dark ad) /\ sound_orders n h w (ad_bright ad).

(** Two lists of numbers, at most e apart. *)
Definition apart_by (e : Q) (a b : list Q) : Prop := Forall2 (fun x y => Qabs (x - y) <= e) a b.

(** The figures of a series in the two objects. *)
Definition series_near (b : Z) (n : nat) (f s : sdata) : Prop :=
  sd_sum f = sd_sum s /\ sd_L f = sd_L s /\ sd_M f = sd_M s /\ sd_N f = sd_N s /\
  Qabs (sd_avg_mean f - sd_avg_mean s) <= mean_bound b n /\
  same_opt (fun x y => Qabs (x - y) <= spatial_bound b n) (sd_var_mean f) (sd_var_mean s) /\
  same_opt (fun x y => Qabs (x - y) <= spatial_bound b n) (sd_avg_var f) (sd_avg_var s) /\
  same_opt (fun x y => Qabs (x - y) <= spatial_bound b n) (sd_avg_var_cav f) (sd_avg_var_cav s) /\
  same_opt (fun x y => Qabs (x - y) <= spatial_bound b n) (sd_avg_var_rav f) (sd_avg_var_rav s).

(** The object y of computed numbers is near the object x of exact ones. *)
Record object_near (b : Z) (n : nat) (y x : robj) : Prop := {
  on_times : r_texp (o_t y) = r_texp (o_t x);
  on_photons : r_up (o_t y) = r_up (o_t x);
  on_mean : apart_by (variance_error b) (r_uy (o_t y)) (r_uy (o_t x));
  on_var : apart_by (variance_error b) (r_s2y (o_t y)) (r_s2y (o_t x));
  on_dark_mean : apart_by (variance_error b) (r_uydark (o_t y)) (r_uydark (o_t x));
  on_dark_var : apart_by (variance_error b) (r_s2ydark (o_t y)) (r_s2ydark (o_t x));
  on_dark : series_near b n (sp_dark (o_s y)) (sp_dark (o_s x));
  on_bright : series_near b n (sp_bright (o_s y)) (sp_bright (o_s x));
  on_spatial : sp_texp (o_s y) = sp_texp (o_s x) /\ sp_up (o_s y) = sp_up (o_s x);
  on_area : o_area y = o_area x;
  on_forced : o_sat y = o_sat x
}.

(** A temporal pair without any variance shows the same image twice. *)
Definition quiet_pairs_equal (fs : fsys) (es : list entry) (h w : nat) : Prop :=
  forall e A B, In e es -> temporal_entry e -> images fs (e_files e) [A; B] -> pair_variance h w A B == 0 ->
  forall r c, (r < h)%nat -> (c < w)%nat -> px A r c = px B r c.

(** Variances that are exactly 0 are computed as 0. *)
Definition zeros_kept (y x : robj) : Prop :=
  Forall2 (fun v q => q == 0 -> v == 0) (r_s2y (o_t y)) (r_s2y (o_t x)).

(** Every true variance of a bright pair is 0 or above e.  That of a dark pair is above e, or the
    pair always shows the same image twice. *)
Definition noise_seen {W} (fs : W -> fsys) (ps : list (entry * entry)) (h w : nat) (T : truth) (e : R) : Prop :=
  forall i b d, nth_error ps i = Some (b, d) ->
  (tr_var T i = 0 \/ e < tr_var T i)%R /\
  ((e < tr_dark_var T i)%R \/
   forall o x y, contents (fs o) d = [x; y] -> forall r c, (r < h)%nat -> (c < w)%nat -> px x r c = px y r c).
