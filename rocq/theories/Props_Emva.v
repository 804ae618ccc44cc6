(** Property C62: the whole evaluation, from descriptor text and pixels to figures. *)
From Coq Require Import Ascii String List Bool Arith ZArith QArith Permutation Lia.
From Verif Require Import Base_Prelude Base_Str Base_Num Base_Order Base_Sum Model_Path Model_Parser
  Model_Images Model_Loader Model_Data Model_Results Model_Emva Spec_Parser Spec_Data Spec_Results Spec_Emva
  Proofs_Parser Proofs_Parser2 Proofs_Emva4.
Import ListNotations.
Open Scope Q_scope.

(** Four exposures with a dark and a bright pair each, spatial series at the second. *)
Definition set_text : str := lit "n 8 2 1
b 1 100
i c
i d
d 1
i a
i b
b 2 200
i e
i f
d 2
i a
i b
b 3 300
i g
i h
d 3
i a
i b
b 4 400
i i
i j
d 4
i a
i b
b 2 200
i e
i f
i e
d 2
i a
i b
i a
".
(** The same blocks and files in another order. *)
Definition set_text2 : str := lit "d 2
i b
i a
i a
b 3,0 300
i h
i g
d 2
i a
i b
b 2 200
i e
i f
b 1 100
i d
i c
d 3
i a
i b
d 1
i b
i a
b 4 400
i i
i j
b 2 200
i f
i e
i e
d 4
i a
i b
".
Definition set_file : str := lit "set/m.txt".
Definition two (a b : Z) : image := mkImg 1 2 (fun _ c => match c with 0%nat => a | _ => b end).
Definition set_fs (f : str) : option image :=
  match last f " "%char with
  | "a"%char => Some (two 0 2)    | "b"%char => Some (two 2 0)
  | "c"%char => Some (two 8 14)   | "d"%char => Some (two 14 8)
  | "e"%char => Some (two 16 26)  | "f"%char => Some (two 26 16)
  | "g"%char => Some (two 24 38)  | "h"%char => Some (two 38 24)
  | "i"%char => Some (two 41 41)  | "j"%char => Some (two 41 41)
  | _ => None
  end.
Definition ent (k : kind) (t p : Z) (files : list string) : entry :=
  mkEntry k (FFin (inject_Z t)) (FFin (inject_Z p)) (map (fun f => lit ("set/" ++ f)) files).
Definition set_entries : list entry :=
  [ent Temporal 1 100 ["c"; "d"]%string; ent Temporal 1 0 ["a"; "b"]%string;
   ent Temporal 2 200 ["e"; "f"]%string; ent Temporal 2 0 ["a"; "b"]%string;
   ent Temporal 3 300 ["g"; "h"]%string; ent Temporal 3 0 ["a"; "b"]%string;
   ent Temporal 4 400 ["i"; "j"]%string; ent Temporal 4 0 ["a"; "b"]%string;
   ent Spatial 2 200 ["e"; "f"; "e"]%string; ent Spatial 2 0 ["a"; "b"; "a"]%string].
Definition set_entries2 : list entry :=
  [ent Spatial 2 0 ["b"; "a"; "a"]%string; ent Temporal 3 300 ["h"; "g"]%string;
   ent Temporal 2 0 ["a"; "b"]%string; ent Temporal 2 200 ["e"; "f"]%string;
   ent Temporal 1 100 ["d"; "c"]%string; ent Temporal 3 0 ["a"; "b"]%string;
   ent Temporal 1 0 ["b"; "a"]%string; ent Temporal 4 400 ["i"; "j"]%string;
   ent Spatial 2 200 ["f"; "e"; "e"]%string; ent Temporal 4 0 ["a"; "b"]%string].

Ltac listed t :=
  exists (map split_ws (load_lines t)); split; [apply text_content_compute|];
  split; [apply (accept_iff set_file None t); [apply text_content_compute|];
          eexists; vm_compute; reflexivity|];
  let b := eval vm_compute in (blocks (map split_ws (load_lines t))) in
  change (blocks (map split_ws (load_lines t))) with b;
  repeat apply Forall2_cons; try apply Forall2_nil;
  (split; [vm_compute; reflexivity|]);
  (split; [first [intro; discriminate | intro; vm_compute; reflexivity]|]);
  (split; [first [intro; discriminate | intro; vm_compute; reflexivity]|]);
  (split; vm_compute; reflexivity).

Example set_listed : lists set_file set_text set_entries.
Proof. listed set_text. Qed.
Example set_listed2 : lists set_file set_text2 set_entries2.
Proof. listed set_text2. Qed.

Ltac each H := simpl in H; repeat (destruct H as [<-|H]); [..|destruct H].

Example set_complete : complete_set set_fs 1 2 set_entries.
Proof.
  constructor.
  - split; [lia|vm_compute; discriminate].
  - intros e H. each H; split; eexists; reflexivity.
  - intros e H. each H; vm_compute; discriminate.
  - intros e H. each H; (split; [vm_compute; lia|]);
      (eexists; split; [repeat (apply Forall2_cons; [reflexivity|]); apply Forall2_nil|]);
      repeat constructor; try (simpl; destruct c; vm_compute; congruence);
      simpl; destruct c; reflexivity.
  - intros e H T. each H; try discriminate T.
    all: match goal with |- exists d, _ /\ _ /\ _ /\ _ = ?e =>
      match e with e_exposure ?x => pose (t := e_exposure x) end end.
    all: vm_compute in t.
    all: match goal with
         | t := FFin (1 # 1) |- _ => exists (ent Temporal 1 0 ["a"; "b"]%string)
         | t := FFin (2 # 1) |- _ => exists (ent Temporal 2 0 ["a"; "b"]%string)
         | t := FFin (3 # 1) |- _ => exists (ent Temporal 3 0 ["a"; "b"]%string)
         | t := FFin (4 # 1) |- _ => exists (ent Temporal 4 0 ["a"; "b"]%string)
         end.
    all: split; [simpl; tauto|repeat split].
  - intros e H T. each H; try discriminate T.
    all: match goal with |- exists d, _ /\ _ /\ _ /\ _ = ?e =>
      match e with e_exposure ?x => pose (t := e_exposure x) end end.
    all: vm_compute in t.
    all: match goal with
         | t := FFin (1 # 1) |- _ => exists (ent Temporal 1 100 ["c"; "d"]%string)
         | t := FFin (2 # 1) |- _ => exists (ent Temporal 2 200 ["e"; "f"]%string)
         | t := FFin (3 # 1) |- _ => exists (ent Temporal 3 300 ["g"; "h"]%string)
         | t := FFin (4 # 1) |- _ => exists (ent Temporal 4 400 ["i"; "j"]%string)
         end.
    all: split; [simpl; tauto|split; [reflexivity|split; [discriminate|reflexivity]]].
  - right. intros e e' H H' T T' D D' E.
    each H; try discriminate T; try (exfalso; apply D; reflexivity);
      each H'; try discriminate T'; try discriminate E; try reflexivity; exfalso; apply D'; reflexivity.
  - exists (ent Spatial 2 0 ["a"; "b"; "a"]%string), (ent Spatial 2 200 ["e"; "f"; "e"]%string).
    split; [simpl; tauto|]. split; [simpl; tauto|]. split; [reflexivity|]. split; [reflexivity|].
    split; [reflexivity|]. split; [discriminate|]. split; [reflexivity|].
    intros e H S. each H; try discriminate S; auto.
Qed.

(** ** C62: the figures of the pixels *)
Theorem C62_end_to_end :
  forall fs h w visit_t visit_s fname t es,
  any_order visit_t -> any_order visit_s -> lists fname t es -> complete_set fs h w es ->
  (exists e, In e es /\ temporal_entry e) ->
  exists o rows i, emva fs visit_t visit_s fname (Some t) = Ok (Some o) /\ rows_of fs es rows /\
    value_of F_index_u_ysat o = VZ (Ok (Z.of_nat i)) /\ (i < length rows)%nat /\
    (forall j, (i <= j < length rows)%nat -> goes_on (m_variances h w rows) j) /\
    (i = 0%nat \/ ~ goes_on (m_variances h w rows) (i - 1)) /\
    (forall m, value_of F_index_sensitivity_max o = VN (Ok m) <->
       largest (length rows) (fun j => m_signal h w rows j <= (7 # 10) * m_signal h w rows i) m) /\
    (forall m, value_of F_index_sensitivity_max o = VN (Ok m) ->
       (exists r, value_of F_R o = VQ (Ok r) /\
          best_slope (m_photons rows) (m_signal h w rows) m r) /\
       ((exists j, (j <= m)%nat /\ ~ m_signal h w rows j == 0) ->
        exists k, value_of F_K o = VQ (Ok k) /\
          best_slope (m_signal h w rows) (m_noise h w rows) m k)).
Proof. exact end_to_end. Qed.
Print Assumptions C62_end_to_end.

(** The four points give index 2, R = 1/10 and K = 56/25. *)
Example C62_figures :
  match emva set_fs (fun m => m) (fun m => m) set_file (Some set_text) with
  | Ok (Some o) =>
      value_of F_index_u_ysat o = VZ (Ok 2%Z) /\ value_of F_index_sensitivity_max o = VN (Ok 1%nat) /\
      same_value (value_of F_R o) (VQ (Ok (1 # 10))) /\ same_value (value_of F_K o) (VQ (Ok (56 # 25)))
  | _ => False
  end.
Proof. vm_compute. repeat split. Qed.

(** ** C62: no order matters *)
Theorem C62_order_free :
  forall fs h w fname t es visit_t visit_s fname' t' es' visit_t' visit_s',
  any_order visit_t -> any_order visit_s -> any_order visit_t' -> any_order visit_s' ->
  lists fname t es -> lists fname' t' es' -> same_measurement es es' -> complete_set fs h w es ->
  exists o o', emva fs visit_t visit_s fname (Some t) = Ok (Some o) /\
    emva fs visit_t' visit_s' fname' (Some t') = Ok (Some o') /\
    forall f, same_value (value_of f o) (value_of f o').
Proof. exact order_free. Qed.
Print Assumptions C62_order_free.

Example C62_same : same_measurement set_entries set_entries2.
Proof.
  pose (e := fun i => nth i set_entries (ent Temporal 0 0 [])).
  exists (map e [9; 4; 3; 2; 0; 5; 1; 6; 8; 7]%nat). split.
  - change set_entries with (map e (seq 0 10)). apply Permutation_map.
    apply NoDup_Permutation; [apply seq_NoDup| |].
    + repeat constructor; simpl; lia.
    + intro x. simpl. lia.
  - vm_compute. repeat apply Forall2_cons; try apply Forall2_nil; repeat split;
      try apply Permutation_refl; try apply perm_swap.
Qed.
Example C62_orders : any_order (fun m => m) /\ any_order (@rev _).
Proof. split; intro m; [apply Permutation_refl|apply Permutation_rev]. Qed.
