(** What a generated data set should contain. *)
From Coq Require Import Ascii String List Bool Arith ZArith QArith.
From Verif Require Import Base_Prelude Base_Str Base_Num Base_Float Model_Path Model_Parser
  Model_Points Model_Dataset Spec_Parser.
Import ListNotations.
Open Scope nat_scope.

(** The decimal number with [k] digits after the point nearest to [q] (ties to
    even), and the number one reads after printing with [k] digits. *)
Definition decimal (k : nat) (q : Q) : Q :=
  (inject_Z (q_rint (q * inject_Z (10 ^ Z.of_nat k))) / inject_Z (10 ^ Z.of_nat k))%Q.
Definition as_printed (k : nat) (x : pyfloat) : pyfloat :=
  match x with FFin q => rnd64 (decimal k q) | _ => x end.

(** All illuminations of a test: temporal ones first. *)
Record shot := mkShot { s_kind : kind; s_exposure : pyfloat; s_radiance : radiance }.
Definition shots_of (k : kind) (d : points_dict) : list shot :=
  flat_map (fun tr => map (mkShot k (fst tr)) (snd tr)) d.
Definition shots (p : points) : list shot :=
  shots_of Temporal (p_temporal p) ++ shots_of Spatial (p_spatial p).

(** Number of images of an illumination. *)
Definition images_in (L : nat) (s : shot) : nat :=
  match s_kind s with Temporal => 2 | Spatial => L end.

(** Exposure and photon count under which it is listed. *)
Definition listed_exposure (s : shot) : pyfloat := as_printed 1 (s_exposure s).
Definition listed_photons (li : light) (s : shot) : pyfloat :=
  if feq (l_mean li (s_radiance s)) fzero then FFin 0
  else as_printed 3 (np_round 3 (l_photons li (s_exposure s) (s_radiance s))).

Definition listed_alike (li : light) (s s' : shot) : Prop :=
  s_kind s = s_kind s' /\ feq (listed_exposure s) (listed_exposure s') = true /\
  feq (listed_photons li s) (listed_photons li s') = true.

(** An entry of the parsed descriptor belongs to an illumination. *)
Definition records (li : light) (L : nat) (s : shot) (e : entry) : Prop :=
  e_kind e = s_kind s /\ e_exposure e = listed_exposure s /\ e_photons e = listed_photons li s /\
  length (e_files e) = images_in L s.

(** A file name extension. *)
Definition extension (f : str) : Prop :=
  Forall (fun c => is_space c = false /\ c <> SEP /\ c <> BSL) f.

(** How the descriptor is found: by its path, or with the directory given. *)
Definition found (outdir file : str) (path : option str) : Prop :=
  path = Some outdir \/
  (path = None /\ file = descriptor_path outdir /\ ends_with_sep outdir = false).

(** The images named in a (possibly cut) descriptor text. *)
Definition named (toks : list (list str)) : list str :=
  map (fun l => nth 1 l []) (filter is_image toks).

(** Pairwise different floats. *)
Definition all_different (l : list pyfloat) : Prop :=
  ForallOrdPairs (fun a b => feq a b = false) l.
