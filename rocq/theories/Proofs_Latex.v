(** Proofs for C126. *)
From Coq Require Import Ascii String List Bool Arith ZArith.
From Verif Require Import Base_Prelude Base_Str Base_Num Model_Info Model_Docs Spec_Latex Proofs_Dict Proofs_Info Proofs_Sheet2.
Import ListNotations.

Definition latex_tbl : list (str * option str) := Eval vm_compute in map (fun ni => (fst ni, sget (lit "latexname") (snd ni))) info_tbl.
Lemma latex_tbl_eq : map (fun ni => (fst ni, sget (lit "latexname") (snd ni))) info_tbl = latex_tbl.
Proof. vm_compute. reflexivity. Qed.

Lemma oget_oset_other k k' v d : k <> k' -> oget k (oset k' v d) = oget k d.
Proof.
  intro N. unfold oget, oset. induction d as [|(x, y) d IH]; cbn [dset dget].
  - destruct (str_eqb k k') eqn:E; [apply str_eqb_eq in E; contradiction|reflexivity].
  - destruct (str_eqb k' x) eqn:E; cbn [dget].
    + apply str_eqb_eq in E. subst x. destruct (str_eqb k k') eqn:E; [apply str_eqb_eq in E; contradiction|reflexivity].
    + destruct (str_eqb k x); auto.
Qed.
Lemma oget_oset_same k v d : oget k (oset k v d) = Some v.
Proof.
  unfold oget, oset. induction d as [|(x, y) d IH]; cbn [dset dget]; [rewrite str_eqb_refl; reflexivity|].
  destruct (str_eqb k x) eqn:E; cbn [dget]; rewrite E; [reflexivity|exact IH].
Qed.

Lemma result_latex attr out n r : obj_to_dict results_cls attr = Ok out -> In (n, r) out ->
  exists l, In (n, l) latex_tbl /\ oget (lit "latexname") r = option_map OStr l.
Proof.
  intros H I. apply obj_to_dict_spec in H. rewrite info_tbl_eq in H. rewrite <- latex_tbl_eq.
  induction H as [|(m, i) (m', r') l l' H0 H IH]; [destruct I|]. destruct I as [E|I].
  - injection E as -> ->. destruct H0 as (X & v & _ & R). cbn [fst snd] in X, R. subst m.
    exists (sget (lit "latexname") i). split; [left; reflexivity|].
    rewrite R. destruct v; rewrite oget_oset_other by discriminate; apply oget_map_str.
  - destruct (IH I) as (x & A & B). exists x. split; [right; exact A|exact B].
Qed.

Definition ostr_eqb (a b : option str) : bool := match a, b with Some x, Some y => str_eqb x y | _, _ => false end.
Definition pair_in (a b : str) : bool :=
  existsb (fun p => str_eqb a (fst p) && str_eqb b (snd p) || str_eqb b (fst p) && str_eqb a (snd p)) shared_names.
Lemma latex_check : forallb (fun x => forallb (fun y =>
  if ostr_eqb (snd x) (snd y) then str_eqb (fst x) (fst y) || pair_in (fst x) (fst y) else true) latex_tbl) latex_tbl = true.
Proof. vm_compute. reflexivity. Qed.

Lemma latex_pairs attr out n1 n2 r1 r2 name : obj_to_dict results_cls attr = Ok out ->
  In (n1, r1) out -> In (n2, r2) out -> n1 <> n2 ->
  oget (lit "latexname") r1 = Some (OStr name) -> oget (lit "latexname") r2 = Some (OStr name) ->
  In (n1, n2) shared_names \/ In (n2, n1) shared_names.
Proof.
  intros H I1 I2 N L1 L2. destruct (result_latex _ _ _ _ H I1) as (x & T1 & E1). destruct (result_latex _ _ _ _ H I2) as (y & T2 & E2).
  rewrite L1 in E1. rewrite L2 in E2. destruct x as [x|]; [|discriminate]. destruct y as [y|]; [|discriminate].
  cbn in E1, E2. injection E1 as <-. injection E2 as <-.
  pose proof latex_check as C. rewrite forallb_forall in C. specialize (C _ T1). rewrite forallb_forall in C. specialize (C _ T2).
  cbn [fst snd ostr_eqb] in C. rewrite str_eqb_refl in C. apply orb_true_iff in C. destruct C as [C|C].
  - apply str_eqb_eq in C. contradiction.
  - unfold pair_in in C. apply existsb_exists in C. destruct C as ((a, b) & I & C). cbn [fst snd] in C.
    apply orb_true_iff in C. destruct C as [C|C]; apply andb_true_iff in C; destruct C as (A & B); apply str_eqb_eq in A; apply str_eqb_eq in B; subst; auto.
Qed.

(** Every pair is met, with values of its own. *)
Lemma in_out attr out n : obj_to_dict results_cls attr = Ok out -> In n (map fst latex_tbl) ->
  exists r v, In (n, r) out /\ attr n = Ok v /\ oget (match v with ODict _ => lit "data" | _ => lit "value" end) r = Some v.
Proof.
  intros H I. apply obj_to_dict_spec in H. rewrite info_tbl_eq in H. rewrite <- latex_tbl_eq in I. rewrite map_map in I. cbn [fst] in I.
  induction H as [|(m, i) (m', r') l l' H0 H IH]; [destruct I|].
  destruct H0 as (X & v & Y & R). cbn [fst snd] in X, Y, R. destruct I as [E|I].
  - cbn [fst] in E. subst m m'. exists r', v. split; [left; reflexivity|]. split; [exact Y|].
    rewrite R. destruct v; apply oget_oset_same.
  - destruct (IH I) as (r & v' & A & B). exists r, v'. split; [right; exact A|exact B].
Qed.
Lemma shared_check : forallb (fun p => match sget (fst p) latex_tbl, sget (snd p) latex_tbl with
  | Some (Some a), Some (Some b) => str_eqb a b && negb (str_eqb (fst p) (snd p)) | _, _ => false end) shared_names = true.
Proof. vm_compute. reflexivity. Qed.
Lemma latex_nodup : NoDup (map fst latex_tbl).
Proof. rewrite <- latex_tbl_eq, map_map. exact info_nodup. Qed.

Lemma sget_in {A} n (d : dict str A) v : sget n d = Some v -> In (n, v) d.
Proof.
  induction d as [|(x, y) d IH]; intro H; [discriminate|]. unfold sget in *. cbn [dget] in H. destruct (str_eqb n x) eqn:E.
  - apply str_eqb_eq in E. injection H as ->. subst. left. reflexivity.
  - right. auto.
Qed.
Lemma in_key_unique {A B} (n : A) (v w : B) d : NoDup (map fst d) -> In (n, v) d -> In (n, w) d -> v = w.
Proof.
  induction d as [|(x, y) d IH]; intros N I J; [destruct I|]. cbn [map fst] in N. inversion N; subst.
  destruct I as [I|I], J as [J|J]; try congruence.
  - injection I as -> ->. exfalso. apply H1. apply (in_map fst) in J. exact J.
  - injection J as -> ->. exfalso. apply H1. apply (in_map fst) in I. exact I.
  - auto.
Qed.

Lemma latex_shared attr out n1 n2 : obj_to_dict results_cls attr = Ok out -> In (n1, n2) shared_names ->
  n1 <> n2 /\ exists r1 r2 name, In (n1, r1) out /\ In (n2, r2) out /\
  oget (lit "latexname") r1 = Some (OStr name) /\ oget (lit "latexname") r2 = Some (OStr name).
Proof.
  intros H I. pose proof shared_check as C. rewrite forallb_forall in C. specialize (C _ I). cbn [fst snd] in C.
  destruct (sget n1 latex_tbl) as [[a|]|] eqn:A; try discriminate. destruct (sget n2 latex_tbl) as [[b|]|] eqn:B; try discriminate.
  apply andb_true_iff in C. destruct C as (E & N). apply str_eqb_eq in E. subst b. apply negb_true_iff in N.
  split; [intro X; subst; rewrite str_eqb_refl in N; discriminate|].
  apply sget_in in A. apply sget_in in B.
  destruct (in_out attr out n1 H (in_map fst _ _ A)) as (r1 & _ & I1 & _). destruct (in_out attr out n2 H (in_map fst _ _ B)) as (r2 & _ & I2 & _).
  exists r1, r2, a. split; [exact I1|]. split; [exact I2|].
  destruct (result_latex _ _ _ _ H I1) as (x & X1 & ->). destruct (result_latex _ _ _ _ H I2) as (y & Y1 & ->).
  rewrite (in_key_unique _ _ _ _ latex_nodup X1 A), (in_key_unique _ _ _ _ latex_nodup Y1 B). split; reflexivity.
Qed.

Definition some_figures (n : str) : res pobj := Ok (if str_eqb n (lit "u_p_min") then ONum (NI 25%Z) else ONum (NI 4%Z)).
Lemma some_figures_ok : exists out, obj_to_dict results_cls some_figures = Ok out.
Proof. apply obj_to_dict_ok. apply Forall_forall. intros n _. eexists. reflexivity. Qed.
Lemma latex_refuted : exists attr out n1 n2 r1 r2 name v1 v2, obj_to_dict results_cls attr = Ok out /\
  In (n1, r1) out /\ In (n2, r2) out /\
  oget (lit "latexname") r1 = Some (OStr name) /\ oget (lit "latexname") r2 = Some (OStr name) /\
  oget (lit "value") r1 = Some v1 /\ oget (lit "value") r2 = Some v2 /\ v1 <> v2.
Proof.
  destruct some_figures_ok as (out & H).
  assert (A : sget (lit "u_p_min") latex_tbl = Some (Some (lit "UPMin"))) by (vm_compute; reflexivity).
  assert (B : sget (lit "u_p_min_area") latex_tbl = Some (Some (lit "UPMin"))) by (vm_compute; reflexivity).
  apply sget_in in A. apply sget_in in B.
  destruct (in_out _ out _ H (in_map fst _ _ A)) as (r1 & v1 & I1 & E1 & V1). destruct (in_out _ out _ H (in_map fst _ _ B)) as (r2 & v2 & I2 & E2 & V2).
  cbn [fst] in *. injection E1 as <-. injection E2 as <-.
  exists some_figures, out, (lit "u_p_min"), (lit "u_p_min_area"), r1, r2, (lit "UPMin"), (ONum (NI 25%Z)), (ONum (NI 4%Z)).
  split; [exact H|]. split; [exact I1|]. split; [exact I2|].
  destruct (result_latex _ _ _ _ H I1) as (x & X1 & ->). destruct (result_latex _ _ _ _ H I2) as (y & Y1 & ->).
  rewrite (in_key_unique _ _ _ _ latex_nodup X1 A), (in_key_unique _ _ _ _ latex_nodup Y1 B).
  split; [reflexivity|]. split; [reflexivity|]. split; [exact V1|]. split; [exact V2|discriminate].
Qed.
