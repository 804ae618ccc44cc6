(** Properties C111 and C112: mirrored and turned images. *)
From Coq Require Import Ascii String List Bool Arith ZArith QArith Permutation Lia.
From Verif Require Import Base_Prelude Base_Str Base_Num Base_Order Base_Sum Base_Xreal Model_Path Model_Parser
  Model_Images Model_Loader Model_Data Model_Results Model_Emva Spec_Parser Spec_Images Spec_Data Spec_Results
  Spec_Emva Spec_Units Spec_Turn Proofs_Units5 Proofs_Turn Props_Emva.
Import ListNotations.
Open Scope Q_scope.

(** The images of the set mirrored left to right, and turned by 90 degrees. *)
Definition mirrored_fs (fs : fsys) (f : str) : option image :=
  match fs f with
  | Some im => Some (mkImg (ih im) (iw im) (fun i j => px im i (mirror 2 j)))
  | None => None
  end.
Definition turned_fs (fs : fsys) (f : str) : option image :=
  match fs f with
  | Some im => Some (mkImg (iw im) (ih im) (fun i j => px im j (mirror 2 i)))
  | None => None
  end.

(** ** C111: the order of rows and of columns *)
Theorem C111_rearranged :
  forall fs fs' h w p q fname fname' d d' es es' visit_t visit_s visit_t' visit_s',
  any_order visit_t -> any_order visit_s -> any_order visit_t' -> any_order visit_s' ->
  lists fname d es -> lists fname' d' es' -> complete_set fs h w es -> complete_set fs' h w es' ->
  shuffles h p -> shuffles w q -> Forall2 (restated fs fs' (rearranged h w p q) 1 1) es es' ->
  exists o o', emva fs visit_t visit_s fname (Some d) = Ok (Some o) /\
    emva fs' visit_t' visit_s' fname' (Some d') = Ok (Some o') /\
    forall f, same_value (value_of f o) (value_of f o').
Proof. exact rearranged_figures. Qed.
Print Assumptions C111_rearranged.

Example C111_case : shuffles 1 (fun i => i) /\ shuffles 2 (mirror 2) /\
  complete_set (mirrored_fs set_fs) 1 2 set_entries /\
  Forall2 (restated set_fs (mirrored_fs set_fs) (rearranged 1 2 (fun i => i) (mirror 2)) 1 1) set_entries set_entries /\
  match set_fs (lit "set/c"), mirrored_fs set_fs (lit "set/c") with
  | Some a, Some b => (px a 0 0, px b 0 0) = (8, 14)%Z
  | _, _ => False
  end.
Proof.
  split; [apply id_shuffles|]. split; [apply mirror_shuffles|].
  split; [apply (complete_other set_fs); [apply set_complete|pictures]|]. split; [|reflexivity].
  generalize set_entries. induction l as [|e l IH]; constructor; auto.
  split; [auto|]. split; [ring|]. split; [ring|]. intros ims I.
  induction I as [|f im fl ims E I IH']; [exists []; split; constructor|]. destruct IH' as (ims' & A & B).
  exists (mkImg (ih im) (iw im) (fun i j => px im i (mirror 2 j)) :: ims'). split; constructor; auto.
  - unfold mirrored_fs. rewrite E. auto.
  - repeat split.
Qed.

(** ** C112: images turned by 90 degrees *)
Theorem C112_turned :
  forall fs fs' h w p q fname fname' d d' es es' visit_t visit_s visit_t' visit_s',
  any_order visit_t -> any_order visit_s -> any_order visit_t' -> any_order visit_s' ->
  lists fname d es -> lists fname' d' es' -> complete_set fs h w es -> complete_set fs' w h es' ->
  shuffles h p -> shuffles w q -> Forall2 (restated fs fs' (turned h w p q) 1 1) es es' ->
  exists o o', emva fs visit_t visit_s fname (Some d) = Ok (Some o) /\
    emva fs' visit_t' visit_s' fname' (Some d') = Ok (Some o') /\
    forall f, same_value (value_of f o) (value_of (other_direction f) o').
Proof. exact turned_figures. Qed.
Print Assumptions C112_turned.

Ltac turned_pictures := intros e He; each He;
  (eexists; split; [repeat (apply Forall2_cons; [reflexivity|]); apply Forall2_nil|]);
  repeat (apply List.Forall_cons;
    [split; [reflexivity|split; [reflexivity|intros i j I J; destruct i as [|[|i]]; [..|lia]; vm_compute; split; congruence]]|]);
  apply List.Forall_nil.

Example C112_case : complete_set (turned_fs set_fs) 2 1 set_entries /\
  Forall2 (restated set_fs (turned_fs set_fs) (turned 1 2 (fun i => i) (mirror 2)) 1 1) set_entries set_entries /\
  match set_fs (lit "set/c"), turned_fs set_fs (lit "set/c") with
  | Some a, Some b => (ih a, iw a, ih b, iw b) = (1, 2, 2, 1)%nat /\ (px a 0 0, px b 1 0) = (8, 8)%Z
  | _, _ => False
  end.
Proof.
  split; [|split; [|split; reflexivity]].
  - destruct set_complete as [A B C D E F G H]. constructor; [|exact B|exact C| |exact E|exact F|exact G|exact H].
    + split; [simpl; lia|vm_compute; discriminate].
    + intros e He. split; [apply (D e He)|]. revert e He. turned_pictures.
  - generalize set_entries. induction l as [|e l IH]; constructor; auto.
    split; [auto|]. split; [ring|]. split; [ring|]. intros ims I.
    induction I as [|f im fl ims E I IH']; [exists []; split; constructor|]. destruct IH' as (ims' & A & B).
    exists (mkImg (iw im) (ih im) (fun i j => px im j (mirror 2 i)) :: ims'). split; constructor; auto.
    + unfold turned_fs. rewrite E. auto.
    + repeat split.
Qed.
