(** C13-C15: loading the images named by a parsed descriptor. *)
From Coq Require Import Ascii String List Bool Arith ZArith QArith Lia Permutation.
From Verif Require Import Base_Prelude Base_Str Base_Num Base_Sum Model_Path Model_Parser
  Model_Images Model_Loader Spec_Images Spec_Loader Proofs_Loader.
Import ListNotations.
Open Scope nat_scope.

(** ** Sample: two exposures on a 1x2 sensor, and a 2x1 intruder called [odd]. *)
Definition img12 (a b : Z) : image := mkImg 1 2 (fun _ c => if c =? 0 then a else b).
Definition fs_sample : fsys := fun f =>
  if str_eqb f (lit "d/a") then Some (img12 1 2)
  else if str_eqb f (lit "d/b") then Some (img12 3 5)
  else if str_eqb f (lit "d/odd") then Some (mkImg 2 1 (fun _ _ => 7%Z))
  else None.
Definition bright : pyfloat := FFin (25 # 2).
Definition pair_ab : list str := [lit "a"; lit "b"].
Definition order1 : exposures :=
  [(FFin 10, [(fzero, pair_ab); (bright, pair_ab)]);
   (FFin 20, [(bright, pair_ab); (fzero, pair_ab)])].
Definition order2 : exposures := [nth 1 order1 (fzero, []); nth 0 order1 (fzero, [])].
Definition order_odd : exposures :=
  [(FFin 10, [(fzero, pair_ab); (bright, [lit "a"; lit "odd"])])].

Example sample_loads :
  match load_data fs_sample (lit "d") order1 [] with
  | Ok d => map fst (l_temporal d) = [FFin 10; FFin 20] /\ l_spatial d = [] /\
            l_height d = 1 /\ l_width d = 2 /\
            map (fun e => map (fun p => t_sum (snd p)) (snd e)) (l_temporal d)
              = [[11; 11]; [11; 11]]%Z
  | Err _ => False
  end.
Proof. vm_compute. repeat split. Qed.

Example sample_other_order :
  match load_data fs_sample (lit "d") order2 [] with
  | Ok d => map fst (l_temporal d) = [FFin 20; FFin 10]
  | Err _ => False
  end.
Proof. vm_compute. reflexivity. Qed.

(** ** C13: one shape, and it is the one reported *)
Theorem C13_one_shape_reported :
  forall fs path ot os d f im,
    load_data fs path ot os = Ok d ->
    In f (files_of ot) \/ In f (files_of os) -> fs (path_join path [f]) = Some im ->
    ih im = l_height d /\ iw im = l_width d.
Proof. exact one_shape_reported. Qed.
Print Assumptions C13_one_shape_reported.

Theorem C13_different_shapes_raise :
  forall fs path ot os f g a b,
    In f (files_of ot ++ files_of os) -> In g (files_of ot ++ files_of os) ->
    fs (path_join path [f]) = Some a -> fs (path_join path [g]) = Some b ->
    (ih a, iw a) <> (ih b, iw b) ->
    exists e, load_data fs path ot os = Err e /\ (e = IOError \/ e = ValueError).
Proof. exact different_shapes_raise. Qed.
Print Assumptions C13_different_shapes_raise.

Example odd_image_rejected : load_data fs_sample (lit "d") order_odd [] = Err ValueError.
Proof. vm_compute. reflexivity. Qed.

(** The spatial series are checked against the temporal ones. *)
Example odd_spatial_rejected :
  load_data fs_sample (lit "d") order1
    [(FFin 10, [(fzero, [lit "odd"; lit "odd"; lit "odd"]);
                (bright, [lit "odd"; lit "odd"; lit "odd"])])] = Err ValueError.
Proof. vm_compute. reflexivity. Qed.

(** ** C14: the order in which the exposures are visited is irrelevant *)
Theorem C14_visiting_order :
  forall fs path ot os ot' os',
    Permutation ot ot' -> Permutation os os' ->
    (exists d d', load_data fs path ot os = Ok d /\ load_data fs path ot' os' = Ok d' /\
       Permutation (l_temporal d) (l_temporal d') /\
       Permutation (l_spatial d) (l_spatial d') /\
       l_height d' = l_height d /\ l_width d' = l_width d) \/
    (exists e e', load_data fs path ot os = Err e /\ load_data fs path ot' os' = Err e').
Proof. exact visiting_order. Qed.
Print Assumptions C14_visiting_order.

Example sample_orders : Permutation order1 order2.
Proof. apply perm_swap. Qed.

(** ** C15: exactly the complete, readable sets load *)
Theorem C15_success_iff :
  forall fs path ot os,
    (exists d, load_data fs path ot os = Ok d) <->
    (all_complete ot /\ all_complete os) /\
    (forall f, In f (files_of ot ++ files_of os) -> exists im, fs (path_join path [f]) = Some im) /\
    (exists h w, forall f im, In f (files_of ot ++ files_of os) ->
       fs (path_join path [f]) = Some im -> ih im = h /\ iw im = w) /\
    files_of ot ++ files_of os <> [].
Proof. exact success_iff. Qed.
Print Assumptions C15_success_iff.

(** The exception tells the cause. *)
Theorem C15_exception_class :
  forall fs path ot os e,
    load_data fs path ot os = Err e ->
    (e = IOError /\ exists f, In f (files_of ot ++ files_of os) /\ fs (path_join path [f]) = None) \/
    (e = ValueError /\
       (~ (all_complete ot /\ all_complete os) \/
        ~ exists sh, all_shape fs path sh (ot ++ os))) \/
    (e = KeyError /\ files_of ot ++ files_of os = []).
Proof. exact exception_class. Qed.
Print Assumptions C15_exception_class.

(** Every entry keeps its keys and holds the statistics of exactly its images. *)
Theorem C15_entries_kept :
  forall fs path ot os d,
    load_data fs path ot os = Ok d ->
    holds temporal_summary fs path ot (l_temporal d) /\
    holds (fun r => r) fs path os (l_spatial d).
Proof. exact load_holds. Qed.
Print Assumptions C15_entries_kept.

Example missing_file :
  load_data fs_sample (lit "d")
    [(FFin 10, [(fzero, pair_ab); (bright, [lit "a"; lit "gone"])])] [] = Err IOError.
Proof. vm_compute. reflexivity. Qed.
Example missing_dark :
  load_data fs_sample (lit "d") [(FFin 10, [(FFin 3, pair_ab); (bright, pair_ab)])] []
  = Err ValueError.
Proof. vm_compute. reflexivity. Qed.
Example missing_bright :
  load_data fs_sample (lit "d") [] [(FFin 10, [(fzero, pair_ab)])] = Err ValueError.
Proof. vm_compute. reflexivity. Qed.
Example nothing_at_all : load_data fs_sample (lit "d") [] [] = Err KeyError.
Proof. vm_compute. reflexivity. Qed.
