(** A report of two points. *)
From Coq Require Import Ascii String List Bool Arith ZArith QArith Lia.
From Verif Require Import Proofs_Report2 Base_Prelude Base_Str Base_Num Spec_Num Model_Report Spec_Report Model_Info Model_Docs
  Model_Templates Model_Jinja Model_Sheet Spec_Parser Spec_Info Spec_Sheet Spec_Sheet2 Model_Dataset
  Proofs_Dict Proofs_Info Proofs_Info2 Proofs_Report Proofs_Sheet Proofs_Sheet2 Proofs_Sheet3
  Proofs_Sheet4 Proofs_Sheet5 Proofs_Sheet6 Proofs_Sheet7 Proofs_Sheet8.
Import ListNotations.
Open Scope nat_scope.
Local Arguments lit : simpl never.

Definition two_settings : list (str * jval) := [(lit "Gain", JInt 3); (lit "Offset", JNone)].
Definition two_parameters : list (str * jval) := [(lit "Wavelength", JStr (lit "525 nm"))].

(** The first point has no pixel size; the second one is only summarised. *)
Definition point1 : point := mkPoint (lit "High gain") two_settings two_parameters false
  (fun n => if existsb (str_eqb n) (map lit ["u_p_min_area"; "u_e_min_area"; "u_p_sat_area"; "u_e_sat_area"]%string)
            then Model_Info.ONone else ONum (NF (FFin (123456 # 10000)))) (fun _ => false).
Definition point2 : point := mkPoint [] [] two_parameters true
  (fun n => ONum (NF (if existsb (str_eqb n) (map lit ["u_I_var"; "DSNU1288"]%string) then FNan else FFin (-1 # 3)))) (fun _ => true).

Definition two_objects (n : nat) : jval :=
  match n with 1 => JDict two_settings | 2 => JDict two_parameters | 4 => JBool true | _ => JDict [] end.
Definition two_heap (r : nat) : op jval :=
  match r with
  | 0 => [(lit "name", OText (lit "High gain")); (lit "summary_only", Model_Report.ONone);
          (lit "camera_settings", OOther 1); (lit "test_parameters", OOther 2)]
  | _ => [(lit "name", Model_Report.ONone); (lit "summary_only", OOther 4);
          (lit "camera_settings", OOther 3); (lit "test_parameters", OOther 2)]
  end.
Definition adding (r : nat) (p : point) : call jval :=
  mkCall r (results_by_section (fun n => Ok (p_figures p n)) (p_np p)) (Ok tt) (fun _ => Ok tt).
Definition two_calls : list (call jval) := [adding 0 point1; adding 1 point2].

Lemma results1 : exists r, results_by_section (fun n => Ok (p_figures point1 n)) (p_np point1) = Ok r.
Proof. eexists. vm_compute. reflexivity. Qed.
Lemma results2 : exists r, results_by_section (fun n => Ok (p_figures point2 n)) (p_np point2) = Ok r.
Proof. eexists. vm_compute. reflexivity. Qed.

Local Strategy opaque [results_by_section].
Lemma two_added : Forall2 (adds two_objects two_heap) two_calls [point1; point2].
Proof.
  constructor; [|constructor; [|constructor]]; (split; [|split; [|reflexivity]]).
  - constructor; [right; reflexivity|exists 1; split; reflexivity|exists 2; split; reflexivity|reflexivity].
  - split; [eexists; reflexivity|]. split; [exact results1|]. split; [left; reflexivity|]. intros c _. exists tt. reflexivity.
  - constructor; [left; split; reflexivity|exists 3; split; reflexivity|exists 2; split; reflexivity|reflexivity].
  - split; [eexists; reflexivity|]. split; [exact results2|]. split; [left; reflexivity|]. intros c _. exists tt. reflexivity.
Qed.

Lemma clean_int n : ordb (fmt_int n) = true -> clean (JInt n).
Proof. intros H. eexists. split; [reflexivity|]. apply ordb_ok, H. Qed.

Lemma clean_check d : forallb (fun kv : str * jval => ordb (fst kv) && match show (snd kv) with Ok s => ordb s | Err _ => false end) d = true ->
  clean_items d.
Proof.
  rewrite forallb_forall. intros H k v I. specialize (H _ I). cbn [fst snd] in H. apply andb_true_iff in H.
  destruct H as [H1 H2]. split; [apply ordb_ok, H1|]. destruct (show v) as [s|] eqn:E; [|discriminate].
  exists s. split; [exact E|apply ordb_ok, H2].
Qed.

Lemma items_values d : clean_items d -> clean_values d.
Proof. intros H k v I. exact (proj2 (H k v I)). Qed.

Definition figure_check (f : str -> pobj) (l : line) : bool :=
  match f (l_name l) with
  | ONum (NF _) => true
  | Model_Info.ONone => existsb (str_eqb (l_name l)) optional
  | _ => false
  end.
Lemma figures_check f : forallb (figure_check f) sheet = true -> clean_figures f.
Proof.
  rewrite forallb_forall. intros H l I. specialize (H l I). unfold figure_check in H.
  destruct (f (l_name l)) as [|s|[n|x]|a|d]; try discriminate.
  - right. split; [|reflexivity]. apply in_names_in, H.
  - left. exists x. reflexivity.
Qed.

Lemma two_clean p : In p [point1; point2] -> clean_point p.
Proof.
  intros [<-|[<-|[]]]; (split; [apply ordb_ok; reflexivity|]; split; [apply clean_check; reflexivity|];
    split; [apply clean_check; reflexivity|]; apply figures_check; vm_compute; reflexivity).
Qed.

Definition two_basic : jdict := a_basic [(lit "vendor", JStr (lit "Vendor")); (lit "sensor_type", JStr (lit "CMOS"))].
Definition two_files : list (str * str) :=
  got (latex two_objects (add_all (mkReport (lit "/out") two_heap [] []) two_calls) a_marketing two_basic (info_setup []) (JBool false)).
Definition found (o : option str) : str := match o with Some t => t | None => [] end.
Definition two_text : str := found (entry "report.tex" two_files).
Definition two_style : str := found (entry "emvadatasheet.sty" two_files).

Lemma two_meets : NoDup (map k_op two_calls) /\ Forall2 (adds two_objects two_heap) two_calls [point1; point2] /\
  (forall p, In p [point1; point2] -> clean_point p) /\
  clean_values a_marketing /\ clean_values two_basic /\ clean_items (info_setup []) /\ clean (JBool false) /\
  entry "qe_plot" two_basic = Some (JStr (lit "files/missingplot.pdf")) /\
  entry "logo" a_marketing = Some (JStr (lit "files/missinglogo.pdf")).
Proof.
  split; [repeat (constructor; [simpl; intuition discriminate|]); constructor|].
  split; [exact two_added|]. split; [exact two_clean|].
  split; [apply items_values, clean_check; vm_compute; reflexivity|].
  split; [apply items_values, clean_check; vm_compute; reflexivity|].
  split; [apply clean_check; vm_compute; reflexivity|].
  split; [eexists; split; [reflexivity|apply ordb_ok; reflexivity]|]. split; reflexivity.
Qed.
