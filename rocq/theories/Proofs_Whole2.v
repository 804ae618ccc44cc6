(** Random image files of a row of pixels, and enough pixels. *)
From Coq Require Import Ascii String List Bool Arith ZArith QArith Qreals Reals Lia Lra Permutation Sorting.Sorted.
From Verif Require Import Base_Prelude Base_Str Base_Num Base_Order Base_Sum Base_SumR Base_Xreal Model_Path Model_Images
  Model_Loader Model_Data Model_Parser Model_Results Model_Emva Spec_Parser Spec_Images Spec_Loader
  Spec_Data Spec_Results Spec_Chance Spec_Linear Spec_Any Spec_Near Spec_Emva Spec_Whole
  Proofs_Parser Proofs_Parser2 Proofs_Emva4 Proofs_Near Proofs_Near2 Proofs_Near3 Proofs_Near4 Proofs_Whole Props_Emva.
Import ListNotations.
Set Bullet Behavior "Strict Subproofs".

Lemma whole_enough n V M e d : (0 < e)%R -> (0 < d)%R -> exists N0 : nat,
  forall W (C : chance W) fs h w fname t es ps visit_t visit_s T p eta K q,
  any_order visit_t -> any_order visit_s -> lists fname t es -> (forall o, complete_set (fs o) h w es) ->
  points_of es ps -> length ps = n -> random_files C fs ps h w T V M ->
  linear_law T (stated_light ps) p eta K q -> clear_points T n p e -> (N0 <= h * w)%nat ->
  unlikely C (fun o => ~ exists x, emva (fs o) visit_t visit_s fname (Some t) = Ok (Some x) /\ right_within x p eta K q e) d.
Proof.
  intros He Hd. destruct (pixels_suffice n V M e d He Hd) as (N0 & H). exists (Nat.max 2 N0).
  intros W C fs h w fname t es ps vt vs T p eta K q VT VS L CS PS <- RF LL CP HN.
  apply (whole_event C fs h w fname t es ps vt vs VT VS L CS PS).
  eapply H; [eapply whole_measurement; eauto|exact LL|exact CP|lia|lia].
Qed.

(** ** A descriptor of four points *)
Definition row_text : str := lit "b 1 2
i c
i d
d 1
i a
i b
b 2 8
i e
i f
d 2
i a
i b
b 3 18
i g
i h
d 3
i a
i b
b 4 40
i i
i j
d 4
i a
i b
b 2 8
i e
i f
i e
d 2
i a
i b
i a
".
Definition row_entries : list entry :=
  [ent Temporal 1 2 ["c"; "d"]%string; ent Temporal 1 0 ["a"; "b"]%string;
   ent Temporal 2 8 ["e"; "f"]%string; ent Temporal 2 0 ["a"; "b"]%string;
   ent Temporal 3 18 ["g"; "h"]%string; ent Temporal 3 0 ["a"; "b"]%string;
   ent Temporal 4 40 ["i"; "j"]%string; ent Temporal 4 0 ["a"; "b"]%string;
   ent Spatial 2 8 ["e"; "f"; "e"]%string; ent Spatial 2 0 ["a"; "b"; "a"]%string].
Definition row_points : list (entry * entry) :=
  [(ent Temporal 1 2 ["c"; "d"], ent Temporal 1 0 ["a"; "b"]);
   (ent Temporal 2 8 ["e"; "f"], ent Temporal 2 0 ["a"; "b"]);
   (ent Temporal 3 18 ["g"; "h"], ent Temporal 3 0 ["a"; "b"]);
   (ent Temporal 4 40 ["i"; "j"], ent Temporal 4 0 ["a"; "b"])]%string.
Definition row_fs (w : nat) (o : nat -> bool * bool) (f : str) : option image :=
  match last f " "%char with
  | "a"%char => Some (toss_image w 5 0 0 o)    | "b"%char => Some (toss_image w 5 0 1 o)
  | "c"%char => Some (toss_image w 6 1 0 o)    | "d"%char => Some (toss_image w 6 1 1 o)
  | "e"%char => Some (toss_image w 9 2 0 o)    | "f"%char => Some (toss_image w 9 2 1 o)
  | "g"%char => Some (toss_image w 14 3 0 o)   | "h"%char => Some (toss_image w 14 3 1 o)
  | "i"%char => Some (toss_image w 17 0 0 o)   | "j"%char => Some (toss_image w 17 0 1 o)
  | _ => None
  end.

Lemma row_listed : lists set_file row_text row_entries.
Proof. listed row_text. Qed.

Lemma toss_good w b a l o : (0 <= a <= b)%Z -> (b + a < 65536)%Z -> good_image 1 w (toss_image w b a l o).
Proof.
  intros A B. split; [reflexivity|]. split; [reflexivity|]. intros r c Hr Hc. cbn [toss_image px]. unfold toss_value.
  change (2 ^ 16)%Z with 65536%Z. destruct (toss _ _); lia.
Qed.

Lemma row_complete w : (2 <= w)%nat -> (Z.of_nat w <= 2 ^ 29)%Z -> forall o, complete_set (row_fs w o) 1 w row_entries.
Proof.
  intros W2 WL o. constructor.
  - rewrite Nat.mul_1_l. auto.
  - intros e H. each H; split; eexists; reflexivity.
  - intros e H. each H; vm_compute; discriminate.
  - intros e H. each H; (split; [vm_compute; lia|]);
      (eexists; split; [repeat (apply Forall2_cons; [reflexivity|]); apply Forall2_nil|]);
      repeat (apply List.Forall_cons || apply List.Forall_nil); apply toss_good; lia.
  - intros e H T. each H; try discriminate T.
    all: match goal with |- exists d, _ /\ _ /\ _ /\ _ = ?e =>
      match e with e_exposure ?x => pose (t := e_exposure x) end end.
    all: vm_compute in t.
    all: match goal with
         | t := FFin (1 # 1) |- _ => exists (ent Temporal 1 0 ["a"; "b"]%string)
         | t := FFin (2 # 1) |- _ => exists (ent Temporal 2 0 ["a"; "b"]%string)
         | t := FFin (3 # 1) |- _ => exists (ent Temporal 3 0 ["a"; "b"]%string)
         | t := FFin (4 # 1) |- _ => exists (ent Temporal 4 0 ["a"; "b"]%string)
         end.
    all: split; [simpl; tauto|repeat split].
  - intros e H T. each H; try discriminate T.
    all: match goal with |- exists d, _ /\ _ /\ _ /\ _ = ?e =>
      match e with e_exposure ?x => pose (t := e_exposure x) end end.
    all: vm_compute in t.
    all: match goal with
         | t := FFin (1 # 1) |- _ => exists (ent Temporal 1 2 ["c"; "d"]%string)
         | t := FFin (2 # 1) |- _ => exists (ent Temporal 2 8 ["e"; "f"]%string)
         | t := FFin (3 # 1) |- _ => exists (ent Temporal 3 18 ["g"; "h"]%string)
         | t := FFin (4 # 1) |- _ => exists (ent Temporal 4 40 ["i"; "j"]%string)
         end.
    all: split; [simpl; tauto|split; [reflexivity|split; [discriminate|reflexivity]]].
  - right. intros e e' H H' T T' D D' E.
    each H; try discriminate T; try (exfalso; apply D; reflexivity);
      each H'; try discriminate T'; try discriminate E; try reflexivity; exfalso; apply D'; reflexivity.
  - exists (ent Spatial 2 0 ["a"; "b"; "a"]%string), (ent Spatial 2 8 ["e"; "f"; "e"]%string).
    split; [simpl; tauto|]. split; [simpl; tauto|]. split; [reflexivity|]. split; [reflexivity|].
    split; [reflexivity|]. split; [discriminate|]. split; [reflexivity|].
    intros e H S. each H; try discriminate S; auto.
Qed.

Lemma row_points_of : points_of row_entries row_points.
Proof.
  split; [|split].
  - simpl. repeat constructor.
  - intro e. split.
    + intro H. each H; (split; [simpl; tauto|split; [reflexivity|discriminate]]).
    + intros (H & T & D). each H; try discriminate T; try (exfalso; apply D; reflexivity); simpl; tauto.
  - intros b d H. simpl in H. repeat (destruct H as [H|H]); [injection H as <- <-..|destruct H];
      (split; [simpl; tauto|repeat split]).
Qed.

Ltac which i E :=
  destruct i as [|i]; [|destruct i as [|i]; [|destruct i as [|i]; [|destruct i as [|i]; [|destruct i; discriminate E]]]];
  injection E as <- <-.
Lemma row_files w : (2 <= w)%nat -> (Z.of_nat w <= 2 ^ 29)%Z ->
  random_files (row w) (row_fs w) row_points 1 w row_truth 9 648.
Proof.
  intros W2 WL. constructor.
  - intros i b d E. which i E.
    + apply (toss_true w 6 1); try lia; lra.
    + apply (toss_true w 9 2); try lia; lra.
    + apply (toss_true w 14 3); try lia; lra.
    + apply (toss_true w 17 0); try lia; lra.
  - intros i b d E. which i E; apply (toss_true w 5 0); try lia; lra.
  - intros i b d o x y E Z F. which i E; cbn in Z; try lra. injection F as <- <-.
    intros r c Hr Hc. cbn [toss_image px]. unfold toss_value. destruct (toss _ _), (toss _ _); reflexivity.
Qed.
Lemma row_stated i : (i < 4)%nat -> stated_light row_points i = row_light i.
Proof. intros H. do 4 (destruct i as [|i]; [reflexivity|]). lia. Qed.
Lemma row_stated_law : linear_law row_truth (stated_light row_points) 2 (1 / 2) 1 (1 / 4).
Proof.
  apply (law_ext row_truth row_light); [|exact row_law]. intros i Hi. symmetry. apply row_stated. lia.
Qed.
Lemma row_whole_simulated w : (2 <= w)%nat -> forall i be de, nth_error row_points i = Some (be, de) -> (i <= 2)%nat ->
  simulated (row w) (row_setting i) (fun o => contents (row_fs w o) be) 2 1 w /\
  simulated (row w) (row_dark_setting i) (fun o => contents (row_fs w o) de) 2 1 w /\
  same_but_light (row_setting i) (row_dark_setting i) /\ st_K (row_setting i) = 1%R /\
  pixel_meanR 1 w (fun r c => st_light (row_setting i) r c - st_light (row_dark_setting i) r c)%R = (1 / 2 * Q2R (number (e_photons be)))%R.
Proof.
  intros W2 i be de E Hi. pose proof (row_simulation w W2 i Hi) as S. which i E; try lia; exact S.
Qed.
