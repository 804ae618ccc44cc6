(** C123, C124: concrete sensors. *)
From Coq Require Import List Bool Arith ZArith QArith Qreals Reals Lia Lra.
From Verif Require Import Base_Prelude Base_Num Base_Xreal Base_Sum Base_SumR Model_Images Model_Loader Model_Data Model_Results
  Spec_Images Spec_Data Spec_Results Spec_Chance Spec_Linear Spec_Any Spec_Components Spec_Line
  Proofs_Chance Proofs_Chance2 Proofs_Linear Proofs_Any Proofs_Any2 Proofs_Any4 Proofs_Near4 Proofs_Components
  Proofs_Components2 Proofs_Components3 Proofs_Components4 Proofs_Components5 Proofs_Line.
Import ListNotations.
Open Scope R_scope.

(** 3x3 pixels, 20 grey values, every part with a coin of one grey value. *)
Definition nine (ar ac ap an : Z) := coin_stack 3 3 20 ar ac ap an.
Lemma nine_documented ar ac ap o : (0 <= ar <= 1)%Z -> (0 <= ac <= 1)%Z -> (0 <= ap <= 1)%Z -> documented 3 3 (nine ar ac ap 1 o).
Proof. intros. apply coin_documented; lia. Qed.
Lemma nine_data ar ac ap o : (0 <= ar <= 1)%Z -> (0 <= ac <= 1)%Z -> (0 <= ap <= 1)%Z ->
  spatial_data_of 3 3 (nine ar ac ap 1 o) (stack_data 3 3 (nine ar ac ap 1 o)).
Proof. intros. apply stack_data_of; [apply nine_documented; assumption|simpl; lia|lia]. Qed.

Lemma noise_one L h w k : (0 < L)%nat -> (0 < h * w)%nat -> image_noise L h w (fun _ _ _ => k) = k.
Proof.
  intros HL HW. unfold image_noise, pixel_meanR. rewrite average_const by assumption.
  assert (P := INR_pos _ HW). unfold sumR2. rewrite (sumR_ext h _ (fun _ => INR w * k)) by (intros; apply sumR_const).
  rewrite sumR_const, mult_INR in *. field. rewrite <- mult_INR in *. split; intro Z; rewrite mult_INR, Z in P; lra.
Qed.

Lemma uniform_biased :
  exists W (C : chance W) S L h w k s2 (O : W -> robj),
  layered_series C S L h w (fun _ _ => k) 0 0 0 s2 /\
  (forall o, documented h w (S o)) /\ (forall o, spatial_data_of h w (S o) (sp_dark (o_s (O o)))) /\
  exists row col pixel, figure_averages C (fun o => s_2_y_row_dark (O o)) row /\
    figure_averages C (fun o => s_2_y_col_dark (O o)) col /\ figure_averages C (fun o => s_2_y_pixel_dark (O o)) pixel /\
    row < 0 /\ col < 0 /\ 0 < pixel.
Proof.
  exists (nat -> bool * bool), (row (sites 3 3)), (nine 0 0 0 1), 2%nat, 3%nat, 3%nat, 20, (fun _ _ _ => 1),
    (fun o => coin_obj 3 3 (nine 0 0 0 1 o)).
  assert (LS := coin_layered 3 3 20 0 0 0 1). cbn [Z.mul Pos.mul] in LS.
  assert (DOC : forall o, documented 3 3 (nine 0 0 0 1 o)) by (intros; apply nine_documented; lia).
  assert (DAT : forall o, spatial_data_of 3 3 (nine 0 0 0 1 o) (sp_dark (o_s (coin_obj 3 3 (nine 0 0 0 1 o)))))
    by (intros; apply nine_data; lia).
  split; [exact LS|]. split; [exact DOC|]. split; [exact DAT|].
  destruct (uniform_parts _ _ _ 2 3 3 20 0 0 0 _ (fun o => coin_obj 3 3 (nine 0 0 0 1 o)) LS (le_n 2) (le_n 3) (le_n 3)) as (_ & F); try lra.
  { intros. lra. }
  { exact DOC. }
  destruct (F DAT) as (r & c & p & A & B & D & _ & _ & _ & X). exists r, c, p. repeat (split; [assumption|]).
  apply X. rewrite noise_one by lia. change (INR 2) with (1 + 1). lra.
Qed.

(** Two images of one row of two pixels. *)
Definition line : list image := [mkImg 1 2 (fun _ c => match c with O => 10%Z | _ => 14%Z end);
                                 mkImg 1 2 (fun _ c => match c with O => 12%Z | _ => 14%Z end)].
Definition bright_line : list image := [mkImg 1 2 (fun _ c => match c with O => 20%Z | _ => 40%Z end);
                                        mkImg 1 2 (fun _ c => match c with O => 22%Z | _ => 44%Z end)].
Lemma line_documented : documented 1 2 line.
Proof.
  split; [discriminate|]. split; [simpl; lia|]. split; repeat (apply Forall_cons || apply Forall_nil);
    try (split; reflexivity); intros r c _ _; destruct c; cbn [px]; lia.
Qed.
Lemma bright_line_documented : documented 1 2 bright_line.
Proof.
  split; [discriminate|]. split; [simpl; lia|]. split; repeat (apply Forall_cons || apply Forall_nil);
    try (split; reflexivity); intros r c _ _; destruct c; cbn [px]; lia.
Qed.
Definition line_obj : robj :=
  mkObj (mkRT [1; 2; 3; 4; 5] [10; 20; 30; 40; 50]
       [7 # 2; 6; 17 # 2; 11; 27 # 2] [7 # 4; 3; 17 # 4; 11 # 2; 1]
       [1; 1; 1; 1; 1] [1 # 2; 1 # 2; 1 # 2; 1 # 2; 1 # 2])%Q
    (mkSpatial (FFin 1) (FFin 10) (stack_data 1 2 line) (stack_data 1 2 bright_line)) None None.
Lemma line_case :
  documented 1 2 line /\ documented 1 2 bright_line /\
  spatial_data_of 1 2 line (sp_dark (o_s line_obj)) /\ spatial_data_of 1 2 bright_line (sp_bright (o_s line_obj)) /\
  (exists k, gain line_obj = Ok k /\ ~ (k == 0)%Q) /\ not_constant 2 line /\
  ~ (sd_avg_mean (sp_bright (o_s line_obj)) - sd_avg_mean (sp_dark (o_s line_obj)) == 0)%Q /\
  pattern_of 1 2 line + noise_of 1 2 line / INR (length line) <
  pattern_of 1 2 bright_line + noise_of 1 2 bright_line / INR (length bright_line).
Proof.
  split; [exact line_documented|]. split; [exact bright_line_documented|].
  split; [apply stack_data_of; [exact line_documented|simpl; lia|lia]|].
  split; [apply stack_data_of; [exact bright_line_documented|simpl; lia|lia]|].
  split.
  { assert (E : match gain line_obj with Ok k => (k == 1 # 2)%Q | Err _ => False end) by (vm_compute; reflexivity).
    destruct (gain line_obj) as [k|]; [|contradiction]. exists k. split; [reflexivity|]. rewrite E. discriminate. }
  split.
  { exists 0%nat, 0%nat, 1%nat, 0%nat. repeat (split; [simpl; lia|]). unfold grey. simpl. lra. }
  split; [vm_compute; discriminate|].
  unfold pattern_of, noise_of, spatial_varianceR, pixel_meanR, varianceR, average_image, averageR, grey.
  cbn [length line bright_line Nat.mul Nat.add Nat.sub]. unfold sumR2. cbn [sumR nth px line bright_line]. simpl INR. lra.
Qed.

Lemma line_spoiled :
  exists o w s s', documented 1 w s /\ documented 1 w s' /\
  spatial_data_of 1 w s (sp_dark (o_s o)) /\ spatial_data_of 1 w s' (sp_bright (o_s o)) /\
  (exists k, gain o = Ok k /\ ~ (k == 0)%Q) /\ DSNU1288_pixel o = Ok XNan /\ PRNU1288_pixel o = Ok XNan.
Proof.
  destruct line_case as (A & B & D & E & (k & G & K) & N & M & P).
  exists line_obj, 2%nat, line, bright_line. repeat (split; [assumption|]). split; [exists k; split; assumption|].
  split.
  - exact (one_row_dsnu line_obj 2 line k A (le_n 2) (le_n 2) D G K N).
  - exact (one_row_prnu line_obj 2 bright_line line B (le_n 2) A (le_n 2) (le_n 2) E D M P).
Qed.
