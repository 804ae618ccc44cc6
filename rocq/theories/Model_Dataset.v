(** The data set generator: src/emva1288/camera/dataset_generator.py.
    Definitions only.

    A run is the list of its effects on the disk, in order; the n-th image uses
    the n-th deliveries [ds n] of the random generator. *)
From Coq Require Import Ascii String List Bool Arith ZArith QArith.
From Verif Require Import Base_Prelude Base_Str Base_Num Base_Order Base_Float Model_Path
  Model_Parser Model_Camera Model_Points Model_Search.
Import ListNotations.
Open Scope nat_scope.

Inductive event : Type :=
| EWrite (text : str)                                 (* appended to the descriptor *)
| ESave (path : str) (img : list (option Z)).         (* an image file *)

(** What a run did and how it ended. *)
Definition outcome (A : Type) : Type := (list event * res A)%type.
Definition then_ {A B} (m : outcome A) (f : A -> outcome B) : outcome B :=
  match m with
  | (es, Ok a) => let '(es', r) := f a in (es ++ es', r)
  | (es, Err e) => (es, Err e)
  end.
Definition write (s : str) : outcome unit := ([EWrite s], Ok tt).

(** A [for] loop that passes on a number. *)
Fixpoint for_each {A} (body : A -> nat -> outcome nat) (l : list A) (n : nat) : outcome nat :=
  match l with
  | [] => ([], Ok n)
  | a :: l' => then_ (body a n) (for_each body l')
  end.

(** ['%.kf' % x] *)
Definition fmt_float (k : nat) (x : pyfloat) : str :=
  match x with
  | FFin q => fmt_fixed k q
  | FInf false => lit "inf"
  | FInf true => lit "-inf"
  | FNan => lit "nan"
  end.

(** What the camera computes for a radiance: [np.mean(radiance)] and, for an
    exposure, the mean over the pixels of the photons summed over the wavelengths. *)
Record light := mkLight
  { l_mean : radiance -> pyfloat;
    l_photons : pyfloat -> radiance -> pyfloat }.

(** dataset_generator.py:156-164 [_get_descriptor_line] *)
Definition descriptor_line (li : light) (exposure : pyfloat) (r : radiance) : str :=
  if feq (l_mean li r) fzero
  then lit "d " ++ fmt_float 1 exposure
  else lit "b " ++ fmt_float 1 exposure ++ lit " "
       ++ fmt_float 3 (np_round 3 (l_photons li exposure r)).

(** dataset_generator.py:216-217 *)
Definition image_name (n : nat) (format : str) : str :=
  lit "image" ++ fmt_int (Z.of_nat n) ++ lit "." ++ format.

(** dataset_generator.py:227-241 [save_image]: pixels are converted to uint8 or
    uint32; the encoding into the file is left to PIL. *)
Definition stored (bits : nat) (img : list (option Z)) : list (option Z) :=
  map (option_map (fun v => v mod 2 ^ (if (bits <=? 8)%nat then 8 else 32))%Z) img.
Definition save_path (outdir name : str) : str := path_join outdir [lit "images"; name].
Definition save_image (c : camera) (outdir : str) (img : list (option Z)) (name : str) : outcome unit :=
  ([ESave (save_path outdir name) (stored (c_bits c) img)], Ok tt).

Definition NLS : str := [NL].

(** dataset_generator.py:212-223: one image. *)
Definition one_image (c : camera) (ds : nat -> draws) (format outdir : str) (_ : nat) (n : nat)
  : outcome nat :=
  match grab c (ds n) with
  | Err e => ([], Err e)
  | Ok img =>
      let name := image_name n format in
      then_ (write (lit "i images\" ++ name ++ NLS)) (fun _ =>
      then_ (save_image c outdir img name) (fun _ => ([], Ok (S n))))
  end.

(** dataset_generator.py:207-223: one radiance. *)
Definition one_radiance (li : light) (c : camera) (ds : nat -> draws) (format outdir : str) (L : nat)
    (texp : pyfloat) (r : radiance) (n : nat) : outcome nat :=
  then_ (write (descriptor_line li texp r ++ NLS)) (fun _ =>
  for_each (one_image c ds format outdir) (seq 0 L) n).

(** dataset_generator.py:203-223: one exposure. *)
Definition one_exposure (li : light) (c : camera) (ds : nat -> draws) (format outdir : str) (L : nat)
    (tr : pyfloat * list radiance) (n : nat) : outcome nat :=
  let '(texp, radiances) := tr in
  let c := set_exposure c texp in
  for_each (one_radiance li c ds format outdir L texp) radiances n.

Definition points_of (k : kind) (p : points) : points_dict :=
  match k with Temporal => p_temporal p | Spatial => p_spatial p end.

(** dataset_generator.py:198-223: one kind. *)
Definition one_kind (li : light) (c : camera) (ds : nat -> draws) (format outdir : str) (L : nat)
    (p : points) (k : kind) (n : nat) : outcome nat :=
  let L := match k with Spatial => L | Temporal => 2 end in
  for_each (one_exposure li c ds format outdir L) (points_of k p) n.

(** dataset_generator.py:184-225 [run_test] *)
Definition descriptor_path (outdir : str) : str :=
  path_join outdir [lit "EMVA1288descriptor.txt"].
Definition run_test (li : light) (c : camera) (ds : nat -> draws) (version format outdir : str)
    (L : nat) (p : points) : outcome str :=
  then_ (write (lit "v " ++ version ++ NLS)) (fun _ =>
  then_ (write (lit "n " ++ fmt_int (Z.of_nat (c_bits c)) ++ lit " "
                ++ fmt_int (Z.of_nat (c_width c)) ++ lit " "
                ++ fmt_int (Z.of_nat (c_height c)) ++ NLS)) (fun _ =>
  then_ (for_each (one_kind li c ds format outdir L p) [Temporal; Spatial] 0) (fun _ =>
  ([], Ok (descriptor_path outdir))))).

(** The text written to the descriptor. *)
Definition written (es : list event) : str :=
  concat (map (fun e => match e with EWrite s => s | ESave _ _ => [] end) es).

(** The image files, in the order they were saved. *)
Definition saved (es : list event) : list str :=
  concat (map (fun e => match e with EWrite _ => [] | ESave p _ => [p] end) es).

(** dataset_generator.py:53-134 [DatasetGenerator.__init__] for a constructed
    camera [c]; [has_offset], [has_K]: whether these were given, [mkdir]: result of
    making the directory; [ds1], [ds2], [ds]: the random generator during the two
    searches and the test. *)
Definition dataset (env : cam_env) (li : light) (c : camera) (has_offset has_K : bool)
    (ds1 ds2 ds : nat -> draws) (mkdir : res unit) (version format outdir : str) (L steps : nat)
    (rmin rmax : option radiance) (fixed : option pyfloat) : outcome str :=
  let c := set_exposure c (e_min env) in
  match (if has_offset then Ok c
         else let '(c, r) := get_emva_blackoffset c ds1 in b <- r ;; set_blackoffset c b) with
  | Err e => ([], Err e)
  | Ok c =>
      match (if has_K then Ok c
             else let '(c, r) := get_emva_gain c ds2 in k <- r ;; set_K c k) with
      | Err e => ([], Err e)
      | Ok c =>
          let '(c, r) := make_points env c (mkArgs None None fixed rmin rmax None None steps) in
          match r with
          | Err e => ([], Err e)
          | Ok p =>
              match mkdir with
              | Err e => ([], Err e)
              | Ok _ => run_test li c ds version format outdir L p
              end
          end
      end
  end.
