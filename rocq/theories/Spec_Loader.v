(** What a complete, readable image set is. *)
From Coq Require Import Ascii String List Bool Arith ZArith QArith.
From Verif Require Import Base_Prelude Base_Str Base_Num Base_Sum Model_Path Model_Parser
  Model_Images Model_Loader.
Import ListNotations.
Open Scope nat_scope.

Definition exposures := list (pyfloat * photon_dict).

(** All file names listed for one kind. *)
Definition files_of (es : exposures) : list str :=
  flat_map (fun e => flat_map snd (snd e)) es.

(** The file as found below the loader's path. *)
Definition found (fs : fsys) (path f : str) : option image := fs (path_join path [f]).

(** One dark entry and at least one more. *)
Definition has_dark (inner : photon_dict) : Prop :=
  exists p, In p (map fst inner) /\ feq fzero p = true.
Definition dark_and_bright (inner : photon_dict) : Prop :=
  has_dark inner /\ 2 <= length inner.

Definition all_complete (es : exposures) : Prop :=
  Forall (fun e => dark_and_bright (snd e)) es.

Definition all_found (fs : fsys) (path : str) (es : exposures) : Prop :=
  Forall (fun f => found fs path f <> None) (files_of es).

Definition all_shape (fs : fsys) (path : str) (sh : nat * nat) (es : exposures) : Prop :=
  forall f im, In f (files_of es) -> found fs path f = Some im -> shape im = sh.

(** The images of a series, in order. *)
Definition series (fs : fsys) (path : str) (fnames : list str) (ims : list image) : Prop :=
  Forall2 (fun f im => found fs path f = Some im) fnames ims.

(** [d] holds, under the same keys, the statistics of the listed series. *)
Definition holds {D} (build : int_imgs -> D) (fs : fsys) (path : str)
    (es : exposures) (d : dict pyfloat (dict pyfloat D)) : Prop :=
  Forall2 (fun e x => fst x = fst e /\
     Forall2 (fun p y => fst y = fst p /\
        exists ims r, series fs path (snd p) ims /\ get_int_imgs ims = Ok r /\ snd y = build r)
       (snd e) (snd x)) es d.
