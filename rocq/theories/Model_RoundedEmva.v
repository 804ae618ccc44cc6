(** Model of src/emva1288/process/__init__.py (class Emva1288) with the binary64 roundings of
    the loader and of the data: [Model_Emva] has the same functions over exact numbers.  The
    orders in which NumPy adds are parameters, as in [Model_Rounded]. *)
From Coq Require Import Ascii String List Bool Arith ZArith QArith.
From Verif Require Import Base_Prelude Base_Str Base_Num Base_Sum Model_Path Model_Parser
  Model_Images Model_Loader Model_Data Model_Results Model_Emva Model_Rounded Model_RoundedSpatial.
Import ListNotations.
Open Scope nat_scope.

(** loader.py:107-124 _get_imgs_data; [build] makes the entry from the images. *)
Definition get_imgs_data_f {D} (build : list image -> res D) (fs : fsys) (path : str)
    (shapes : list (nat * nat)) (fnames : list str) : res (D * list (nat * nat)) :=
  ' (ims, s) <- load_imgs fs path shapes fnames ;;
  d <- build ims ;;
  Ok (d, s).

(** loader.py:94-99. *)
Fixpoint load_points_f {D} (build : list image -> res D) (fs : fsys) (path : str)
    (shapes : list (nat * nat)) (items : list (pyfloat * list str))
  : res (dict pyfloat D * list (nat * nat)) :=
  match items with
  | [] => Ok ([], shapes)
  | (p, fnames) :: rest =>
      ' (d, s) <- get_imgs_data_f build fs path shapes fnames ;;
      ' (ds, s') <- load_points_f build fs path s rest ;;
      Ok ((p, d) :: ds, s')
  end.

(** loader.py:78-99. *)
Fixpoint load_exposures_f {D} (build : list image -> res D) (fs : fsys) (path : str)
    (shapes : list (nat * nat)) (items : list (pyfloat * photon_dict))
  : res (dict pyfloat (dict pyfloat D) * list (nat * nat)) :=
  match items with
  | [] => Ok ([], shapes)
  | (e, inner) :: rest =>
      let counts := map fst inner in
      if negb (existsb (feq fzero) counts) then Err ValueError
      else if length counts <? 2 then Err ValueError
      else ' (ds, s) <- load_points_f build fs path shapes inner ;;
           ' (es, s') <- load_exposures_f build fs path s rest ;;
           Ok ((e, ds) :: es, s')
  end.

(** The additions NumPy makes: in the mean of an image, and in the two spatial series. *)
Record additions := mkAdditions {
  ad_mean : image -> stree;
  ad_dark : sum_orders;
  ad_bright : sum_orders
}.

(** self.data of the loader. *)
Record floaded := mkFLoaded {
  fl_temporal : dict pyfloat (dict pyfloat ftdata);
  fl_spatial : dict pyfloat (dict pyfloat int_imgs);
  fl_height : nat;
  fl_width : nat
}.

(** loader.py:70-105 _load_data. *)
Definition load_data_f (ad : additions) (fs : fsys) (path : str)
    (order_t order_s : list (pyfloat * photon_dict)) : res floaded :=
  ' (t, s1) <- load_exposures_f (temporal_entry (ad_mean ad)) fs path [] order_t ;;
  ' (s, s2) <- load_exposures_f get_int_imgs fs path s1 order_s ;;
  match s2 with
  | [] => Err KeyError
  | sh :: _ => Ok (mkFLoaded t s (fst sh) (snd sh))
  end.

(** data.py:28-56 with pixels=None. *)
Definition make_data_f (ad : additions) (l : floaded) : res (ftemporal * fspatial) :=
  t <- get_temporal_f (fl_width l * fl_height l) (fl_temporal l) ;;
  s <- get_spatial_f (ad_dark ad) (ad_bright ad) (fl_height l) (fl_width l) (fl_spatial l) ;;
  Ok (t, s).

(** The numbers of a series; [None] when one of them is infinite or NaN. *)
Definition series_numbers (f : fsdata) : option sdata :=
  match q_of (fs_var_mean f), q_of (fs_avg_var f), q_of (fs_avg_mean f), q_of (fs_avg_var_cav f), q_of (fs_avg_var_rav f) with
  | Some vm, Some v, Some m, Some cav, Some rav =>
      Some (mkS (fs_sum f) (fs_L f) (fs_M f) (fs_N f) (Some vm) (Some v) m (Some cav) (Some rav))
  | _, _, _, _, _ => None
  end.

(** process/__init__.py:20 and results.py:29-70: the object over the computed numbers.  [None]:
    some number is infinite or NaN. *)
Definition results_object_f (d : ftemporal * fspatial) : option robj :=
  let (t, s) := d in
  match all_some (map q_of (ftp_texp t)), all_some (map q_of (ftp_up t)), all_some (map q_of (ftp_uy t)),
        all_some (map q_of (ftp_s2y t)), all_some (map q_of (ftp_uydark t)), all_some (map q_of (ftp_s2ydark t)),
        series_numbers (fsp_dark s), series_numbers (fsp_bright s) with
  | Some texp, Some up, Some uy, Some s2y, Some uydark, Some s2ydark, Some sd, Some sb =>
      Some (mkObj (mkRT texp up uy s2y uydark s2ydark) (mkSpatial (fsp_texp s) (fsp_up s) sd sb) None None)
  | _, _, _, _, _, _, _, _ => None
  end.

(** process/__init__.py:16-20 Emva1288.__init__. *)
Definition emva_f (ad : additions) (fs : fsys) (visit_t visit_s : exposure_dict -> exposure_dict)
    (fname : str) (content : option str) : res (option robj) :=
  d <- parse_file fname None content ;;
  l <- load_data_f ad fs [] (visit_t (Model_Parser.d_temporal d)) (visit_s (Model_Parser.d_spatial d)) ;;
  x <- make_data_f ad l ;;
  Ok (results_object_f x).
