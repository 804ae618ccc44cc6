(** Examples for C99 and C100. *)
From Coq Require Import Ascii String List Bool Arith.
From Verif Require Import Base_Prelude Base_Str Base_Num Model_Path Model_Report Spec_Report Model_Info Model_Jinja Model_Sheet
  Model_NewReport Spec_Sheet Spec_Sheet2 Spec_NewReport Proofs_Report Proofs_Report2 Proofs_Sheet Proofs_Sheet4 Proofs_Sheet8 Proofs_Sheet9 Proofs_NewReport.
Import ListNotations.
Local Arguments lit : simpl never.

Definition own_marketing : jdict := info_marketing [(lit "logo", JStr (lit "a/logo.pdf"))].
Definition own_basic : jdict := info_basic [(lit "vendor", JStr (lit "Vendor")); (lit "qe_plot", JStr (lit "b/plot.pdf"))].
Definition own_disk : disk nat := demo_disk.
Definition own_calls := two_calls.
Definition own_objects := two_objects.
Definition own_heap := two_heap.
Definition own_points := [point1; point2].

Lemma no_cover : clean (JBool false).
Proof. eexists. split; [reflexivity|apply ordb_ok; reflexivity]. Qed.

Lemma copy_checked f : In f [lit "a/logo.pdf"; lit "b/plot.pdf"] ->
  can_copy (lit "/home") (abspath (lit "/home") (lit "out")) own_disk f.
Proof.
  change (abspath (lit "/home") (lit "out")) with (lit "/home/out").
  intros [<-|[<-|[]]]; (split; [repeat split; vm_compute; discriminate|]; split; [eexists; vm_compute; reflexivity|];
    intros name;
    destruct (inside_prefix (inside (lit "/home/out") (lit "upload"))) as [pre P];
    pose proof (P []) as P0; rewrite app_nil_r in P0; rewrite P, <- P0; vm_compute; discriminate).
Qed.

Lemma own_meets :
  let M := handed (Some own_marketing) marketing_names in
  let B := handed (Some own_basic) basic_names in
  let S := handed (Some []) setup_names in
  clean_values M /\ clean_values B /\ clean_items S /\ clean (JBool false) /\
  names_file M "logo" (Some (lit "a/logo.pdf")) /\ names_file M "missingplot" None /\
  names_file B "qe_plot" (Some (lit "b/plot.pdf")) /\
  (forall f, In f [lit "a/logo.pdf"; lit "b/plot.pdf"] -> can_copy (lit "/home") (abspath (lit "/home") (lit "out")) own_disk f) /\
  NoDup (map file_name [lit "a/logo.pdf"; lit "b/plot.pdf"]) /\
  NoDup (map k_op own_calls) /\ Forall2 (adds own_objects own_heap) own_calls own_points /\
  (forall p, In p own_points -> clean_point p).
Proof.
  cbv zeta. destruct two_meets as (A & B & D & _).
  split; [apply items_values, clean_check; vm_compute; reflexivity|].
  split; [apply items_values, clean_check; vm_compute; reflexivity|].
  split; [apply clean_check; vm_compute; reflexivity|]. split; [exact no_cover|].
  split; [right; eexists; split; vm_compute; reflexivity|].
  split; [left; split; vm_compute; reflexivity|].
  split; [right; eexists; split; vm_compute; reflexivity|].
  split; [exact copy_checked|].
  split; [vm_compute; repeat constructor; simpl; intuition discriminate|].
  split; [exact A|]. split; [exact B|exact D].
Qed.

Lemma by_hand :
  exists cwd outdir (d : disk nat) heap basic, basic = [(lit "vendor", JStr (lit "Vendor"))] /\
    new_report cwd outdir heap d None (Some basic) None (JBool false) = Err KeyError.
Proof.
  exists (lit "/home"), (lit "out"), demo_disk, (fun _ => []), [(lit "vendor", JStr (lit "Vendor"))].
  split; [reflexivity|]. vm_compute. reflexivity.
Qed.
