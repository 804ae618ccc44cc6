(** Random image files behind one descriptor. *)
From Coq Require Import List Arith ZArith QArith Qreals Reals Sorting.Sorted.
From Verif Require Import Base_Prelude Base_Num Base_Order Base_SumR Model_Images Model_Loader Model_Data Model_Parser Model_Results
  Spec_Parser Spec_Images Spec_Data Spec_Results Spec_Chance Spec_Linear Spec_Any Spec_Near Spec_Emva.
Import ListNotations.

(** The bright temporal entries of a descriptor by exposure, then photons, each with the dark
    entry of its exposure. *)
Definition entry_lt (a b : entry) : Prop :=
  flt (e_exposure a) (e_exposure b) = true \/
  (e_exposure a = e_exposure b /\ flt (e_photons a) (e_photons b) = true).
Definition points_of (es : list entry) (ps : list (entry * entry)) : Prop :=
  StronglySorted entry_lt (map fst ps) /\
  (forall e, In e (map fst ps) <-> In e es /\ temporal_entry e /\ ~ dark_entry e) /\
  (forall b d, In (b, d) ps -> In d es /\ temporal_entry d /\ dark_entry d /\ e_exposure d = e_exposure b).

(** The images behind the files of an entry. *)
Definition blank : image := mkImg 0 0 (fun _ _ => 0%Z).
Definition contents (fs : fsys) (e : entry) : list image :=
  map (fun f => match fs f with Some im => im | None => blank end) (e_files e).

(** The files are random: the pair of the bright entry of point i has the true mean and variance
    [tr_mean T i] and [tr_var T i], that of its dark entry the dark ones.  Pixels are as in
    [noisy_pair]; a pair without noise shows the same image twice. *)
Record random_files {W} (C : chance W) (fs : W -> fsys) (ps : list (entry * entry)) (h w : nat)
    (T : truth) (V M : R) : Prop := {
  rf_bright : forall i b d, nth_error ps i = Some (b, d) ->
    true_pair C (fun o => contents (fs o) b) h w V M (tr_mean T i) (tr_var T i);
  rf_dark : forall i b d, nth_error ps i = Some (b, d) ->
    true_pair C (fun o => contents (fs o) d) h w V M (tr_dark_mean T i) (tr_dark_var T i);
  rf_clipped : forall i b d o x y, nth_error ps i = Some (b, d) -> tr_var T i = 0%R ->
    contents (fs o) b = [x; y] ->
    forall r c, (r < h)%nat -> (c < w)%nat -> px x r c = px y r c
}.

(** The photons of point i in the descriptor. *)
Definition stated_light (ps : list (entry * entry)) (i : nat) : R :=
  match nth_error ps i with Some (b, _) => Q2R (number (e_photons b)) | None => 0%R end.
