(** Model of src/emva1288/process/__init__.py (class Emva1288): the descriptor is
    parsed, its images loaded, summed up and handed to Results1288.

    Simplifications: logging dropped.  The two sets of exposures that the loader
    visits are visited in the order given by [visit_t] and [visit_s]. *)
From Coq Require Import Ascii String List Bool Arith ZArith QArith.
From Verif Require Import Base_Prelude Base_Str Base_Num Base_Sum Model_Path Model_Parser
  Model_Images Model_Loader Model_Data Model_Results.
Import ListNotations.

(** process/__init__.py:17-19: the data.  LoadImageData is called with its default
    path '' (loader.py:25), Data1288 with pixels=None (data.py:28). *)
Definition emva_data (fs : fsys) (visit_t visit_s : exposure_dict -> exposure_dict)
    (fname : str) (content : option str) : res data1288 :=
  d <- parse_file fname None content ;;
  l <- load_data fs [] (visit_t (Model_Parser.d_temporal d)) (visit_s (Model_Parser.d_spatial d)) ;;
  make_data None l.

(** A finite number. *)
Definition q_of (x : pyfloat) : option Q := match x with FFin q => Some q | _ => None end.

(** process/__init__.py:20 and results.py:29-70: the object, with pixel_area and
    index_u_ysat None.  [None]: some exposure time or photon count is infinite or
    NaN, which the model of Results1288 does not cover. *)
Definition results_object (d : data1288) : option robj :=
  let t := d_temporal d in
  match all_some (map q_of (tp_texp t)), all_some (map q_of (tp_up t)) with
  | Some texp, Some up =>
      Some (mkObj (mkRT texp up (tp_uy t) (tp_s2y t) (tp_uydark t) (tp_s2ydark t))
                  (d_spatial d) None None)
  | _, _ => None
  end.

(** process/__init__.py:16-20 Emva1288.__init__. *)
Definition emva (fs : fsys) (visit_t visit_s : exposure_dict -> exposure_dict)
    (fname : str) (content : option str) : res (option robj) :=
  d <- emva_data fs visit_t visit_s fname content ;; Ok (results_object d).
