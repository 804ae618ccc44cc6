(** What a whole measurement means, in terms of descriptor entries and pixels. *)
From Coq Require Import Ascii String List Bool Arith ZArith QArith Permutation Sorting.Sorted.
From Verif Require Import Base_Prelude Base_Str Base_Num Base_Order Base_Sum Base_Xreal Model_Path
  Model_Parser Model_Images Model_Loader Model_Data Model_Results
  Spec_Parser Spec_Images Spec_Data Spec_Results.
Import ListNotations.
Open Scope Q_scope.

(** ** Same results *)
Definition same_res {A} (R : A -> A -> Prop) (a b : res A) : Prop :=
  match a, b with
  | Ok x, Ok y => R x y
  | Err e, Err e' => e = e'
  | _, _ => False
  end.
Definition same_opt {A} (R : A -> A -> Prop) (a b : option A) : Prop :=
  match a, b with
  | Some x, Some y => R x y
  | None, None => True
  | _, _ => False
  end.
Definition same_pair (a b : Q * Q) : Prop := fst a == fst b /\ snd a == snd b.
Definition same_lin (a b : lin) : Prop :=
  same_opt same_pair (lin_fit a) (lin_fit b) /\
  Forall2 (same_opt Qeq) (lin_dev a) (lin_dev b) /\
  same_opt Qeq (lin_min a) (lin_min b) /\ same_opt Qeq (lin_max a) (lin_max b).

(** Two figures are the same: the same number, or the same exception. *)
Definition same_value (a b : fvalue) : Prop :=
  match a, b with
  | VZ x, VZ y => x = y
  | VN x, VN y => x = y
  | VQ x, VQ y => same_res Qeq x y
  | VX x, VX y => x = y
  | VOX x, VOX y => x = y
  | VOQ x, VOQ y => same_res (same_opt Qeq) x y
  | VL x, VL y => same_res same_lin x y
  | _, _ => False
  end.

(** ** Measurements *)
Definition finite (x : pyfloat) : Prop := exists q, x = FFin q.
Definition number (x : pyfloat) : Q := match x with FFin q => q | _ => 0 end.

Definition dark_entry (e : entry) : Prop := is_dark (e_photons e).
Definition temporal_entry (e : entry) : Prop := e_kind e = Temporal.
Definition spatial_entry (e : entry) : Prop := e_kind e = Spatial.

(** A readable grey-scale image of the given size with at most 16 bits. *)
Definition good_image (h w : nat) (im : image) : Prop :=
  ih im = h /\ iw im = w /\
  forall r c, (r < h)%nat -> (c < w)%nat -> (0 <= px im r c < 2 ^ 16)%Z.

(** The images behind a list of files. *)
Definition images (fs : fsys) (files : list str) (ims : list image) : Prop :=
  Forall2 (fun f im => fs f = Some im) files ims.

(** A complete measurement: finite numbers, no negative photon count, at most 1000
    images per entry, all images readable and of one size; each temporal exposure has a
    dark and a bright pair, and either there is only one or each has only one bright
    pair; one dark and one bright spatial series at one exposure. *)
Record complete_set (fs : fsys) (h w : nat) (es : list entry) : Prop := {
  cs_size : (2 <= h * w)%nat /\ (Z.of_nat (h * w) <= 2 ^ 29)%Z;
  cs_finite : forall e, In e es -> finite (e_exposure e) /\ finite (e_photons e);
  cs_nonneg : forall e, In e es -> 0 <= number (e_photons e);
  cs_files : forall e, In e es -> (length (e_files e) <= 1000)%nat /\
    exists ims, images fs (e_files e) ims /\ Forall (good_image h w) ims;
  cs_dark : forall e, In e es -> temporal_entry e ->
    exists d, In d es /\ temporal_entry d /\ dark_entry d /\ e_exposure d = e_exposure e;
  cs_bright : forall e, In e es -> temporal_entry e ->
    exists b, In b es /\ temporal_entry b /\ ~ dark_entry b /\ e_exposure b = e_exposure e;
  cs_aligned :
    (forall e e', In e es -> In e' es -> temporal_entry e -> temporal_entry e' ->
       e_exposure e = e_exposure e') \/
    (forall e e', In e es -> In e' es -> temporal_entry e -> temporal_entry e' ->
       ~ dark_entry e -> ~ dark_entry e' -> e_exposure e = e_exposure e' -> e = e');
  cs_spatial : exists d b, In d es /\ In b es /\ spatial_entry d /\ spatial_entry b /\
    dark_entry d /\ ~ dark_entry b /\ e_exposure d = e_exposure b /\
    forall e, In e es -> spatial_entry e -> e = d \/ e = b
}.

(** One bright pair with the dark pair of its exposure. *)
Record row := mkRow {
  w_bright : entry; w_b1 : image; w_b2 : image;
  w_dark : entry; w_d1 : image; w_d2 : image
}.

Definition row_ok (fs : fsys) (es : list entry) (r : row) : Prop :=
  images fs (e_files (w_bright r)) [w_b1 r; w_b2 r] /\
  In (w_dark r) es /\ temporal_entry (w_dark r) /\ dark_entry (w_dark r) /\
  e_exposure (w_dark r) = e_exposure (w_bright r) /\
  images fs (e_files (w_dark r)) [w_d1 r; w_d2 r].

(** By exposure, then by photons. *)
Definition row_lt (a b : row) : Prop :=
  flt (e_exposure (w_bright a)) (e_exposure (w_bright b)) = true \/
  (e_exposure (w_bright a) = e_exposure (w_bright b) /\
   flt (e_photons (w_bright a)) (e_photons (w_bright b)) = true).

(** The rows are the bright temporal entries, each once, sorted. *)
Definition rows_of (fs : fsys) (es : list entry) (rows : list row) : Prop :=
  Forall (row_ok fs es) rows /\ StronglySorted row_lt rows /\ NoDup (map w_bright rows) /\
  forall e, In e (map w_bright rows) <-> In e es /\ temporal_entry e /\ ~ dark_entry e.

(** The figures of a row. *)
Section Figures.
Context (h w : nat) (rows : list row).
Definition w_exposure (r : row) : Q := number (e_exposure (w_bright r)).
Definition w_photons (r : row) : Q := number (e_photons (w_bright r)).
Definition w_mean (r : row) : Q := stack_mean h w [w_b1 r; w_b2 r].
Definition w_var (r : row) : Q := pair_variance h w (w_b1 r) (w_b2 r).
Definition w_dark_mean (r : row) : Q := stack_mean h w [w_d1 r; w_d2 r].
Definition w_dark_var (r : row) : Q := pair_variance h w (w_d1 r) (w_d2 r).

(** Figures of point [i]. *)
Definition at_row (f : row -> Q) (i : nat) : Q :=
  match nth_error rows i with Some r => f r | None => 0 end.
Definition m_photons : nat -> Q := at_row w_photons.
Definition m_signal : nat -> Q := at_row (fun r => w_mean r - w_dark_mean r).
Definition m_noise : nat -> Q := at_row (fun r => w_var r - w_dark_var r).
Definition m_variances : list Q := map w_var rows.
End Figures.

(** Statistics of a spatial series. *)
Definition series_stats (h w : nat) (imgs : list image) (s : sdata) : Prop :=
  sd_L s = length imgs /\ sd_M s = h /\ sd_N s = w /\
  sd_avg_mean s == stack_mean h w imgs /\
  exists var_mean avg_var cav rav,
    sd_var_mean s = Some var_mean /\ sd_avg_var s = Some avg_var /\
    sd_avg_var_cav s = Some cav /\ sd_avg_var_rav s = Some rav /\
    var_mean == pixel_mean h w (fun r c => unbiased_var (map inject_Z (history imgs r c))) /\
    avg_var == sumq2 h w (fun r c =>
       (avg_pixel imgs r c - stack_mean h w imgs) * (avg_pixel imgs r c - stack_mean h w imgs))
       / qn (h * w - 1) /\
    cav == pop_var w (col_mean h (avg_pixel imgs)) - var_mean / (qn (length imgs) * qn h) /\
    rav == pop_var h (row_mean w (avg_pixel imgs)) - var_mean / (qn (length imgs) * qn w).

(** Two descriptors listing the same measurement: same entries up to their order, with
    the files of an entry in any order. *)
Definition same_entry (a b : entry) : Prop :=
  e_kind a = e_kind b /\ e_exposure a = e_exposure b /\ e_photons a = e_photons b /\
  Permutation (e_files a) (e_files b).
Definition same_measurement (es es' : list entry) : Prop :=
  exists mid, Permutation es mid /\ Forall2 same_entry mid es'.

(** The exposures are visited in any order. *)
Definition any_order (visit : exposure_dict -> exposure_dict) : Prop :=
  forall m, Permutation m (visit m).

(** The descriptor [t] lists the entries [es]. *)
Definition lists (fname t : str) (es : list entry) : Prop :=
  exists toks, text_content t toks /\ well_formed (base_dir fname None) toks /\
    Forall2 (block_denotes (base_dir fname None)) (blocks toks) es.
