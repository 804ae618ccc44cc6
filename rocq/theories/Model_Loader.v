(** Model of src/emva1288/process/loader.py (class LoadImageData).

    Simplifications: logging is dropped; the image reader [fload] is the default
    one, given as a function from file names to 2-D images, [None] standing for a
    file that does not exist or is not a readable image (both are an IOError, PIL's
    UnidentifiedImageError being one).  The keys of a dictionary are pairwise
    different, so filling self.data[kind][exposure][photons] in visiting order is
    building a list of items in that order. *)
From Coq Require Import Ascii String List Bool Arith ZArith QArith.
From Verif Require Import Base_Prelude Base_Str Base_Num Base_Sum Model_Path Model_Parser
  Model_Images.
Import ListNotations.
Open Scope nat_scope.

(** File system as seen by os.path.isfile and load_image (routines.py:24-29). *)
Definition fsys := str -> option image.

(** loader.py:119-123: what is kept of a temporal pair. *)
Record tdata := mkT { t_sum : Z; t_pvar : Z; t_dmean : Q }.

(** self.data *)
Record loaded := mkLoaded {
  l_temporal : dict pyfloat (dict pyfloat tdata);
  l_spatial : dict pyfloat (dict pyfloat int_imgs);
  l_height : nat;
  l_width : nat
}.

(** self._shape.add(s), a set. *)
Definition add_shape (s : nat * nat) (shapes : list (nat * nat)) : list (nat * nat) :=
  if existsb (shape_eqb s) shapes then shapes else shapes ++ [s].

(** loader.py:126-153 _load_imgs; the set of shapes is threaded through. *)
Fixpoint load_imgs (fs : fsys) (path : str) (shapes : list (nat * nat)) (fnames : list str)
  : res (list image * list (nat * nat)) :=
  match fnames with
  | [] => Ok ([], shapes)
  | f :: rest =>
      match fs (path_join path [f]) with
      | None => Err IOError
      | Some im =>
          let shapes' := add_shape (shape im) shapes in
          if 1 <? length shapes' then Err ValueError
          else ' (ims, s) <- load_imgs fs path shapes' rest ;;
               Ok (im :: ims, s)
      end
  end.

(** loader.py:107-124 _get_imgs_data; [build] is the identity for spatial data and
    [temporal_summary] for temporal data. *)
Definition get_imgs_data {D} (build : int_imgs -> D) (fs : fsys) (path : str)
    (shapes : list (nat * nat)) (fnames : list str) : res (D * list (nat * nat)) :=
  ' (ims, s) <- load_imgs fs path shapes fnames ;;
  r <- get_int_imgs ims ;;
  Ok (build r, s).

(** loader.py:119-123. *)
Definition temporal_summary (r : int_imgs) : tdata :=
  mkT (img_sum (ii_sum r)) (img_sum (ii_pvar r)) (ii_dmean r).

(** loader.py:94-99: all photon counts of one exposure. *)
Fixpoint load_points {D} (build : int_imgs -> D) (fs : fsys) (path : str)
    (shapes : list (nat * nat)) (items : list (pyfloat * list str))
  : res (dict pyfloat D * list (nat * nat)) :=
  match items with
  | [] => Ok ([], shapes)
  | (p, fnames) :: rest =>
      ' (d, s) <- get_imgs_data build fs path shapes fnames ;;
      ' (ds, s') <- load_points build fs path s rest ;;
      Ok ((p, d) :: ds, s')
  end.

(** loader.py:78-99: the exposures of one kind, in visiting order. *)
Fixpoint load_exposures {D} (build : int_imgs -> D) (fs : fsys) (path : str)
    (shapes : list (nat * nat)) (items : list (pyfloat * photon_dict))
  : res (dict pyfloat (dict pyfloat D) * list (nat * nat)) :=
  match items with
  | [] => Ok ([], shapes)
  | (e, inner) :: rest =>
      let counts := map fst inner in
      if negb (existsb (feq fzero) counts) then Err ValueError
      else if length counts <? 2 then Err ValueError
      else ' (ds, s) <- load_points build fs path shapes inner ;;
           ' (es, s') <- load_exposures build fs path s rest ;;
           Ok ((e, ds) :: es, s')
  end.

(** loader.py:70-105 _load_data.  [order_t] and [order_s] are the items of the two
    exposure dictionaries in the order in which the sets of exposures are visited. *)
Definition load_data (fs : fsys) (path : str)
    (order_t order_s : list (pyfloat * photon_dict)) : res loaded :=
  ' (t, s1) <- load_exposures temporal_summary fs path [] order_t ;;
  ' (s, s2) <- load_exposures (fun r => r) fs path s1 order_s ;;
  match s2 with
  | [] => Err KeyError
  | sh :: _ => Ok (mkLoaded t s (fst sh) (snd sh))
  end.
