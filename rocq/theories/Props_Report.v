(** Properties of reports (C58, C59, C68) and of the collection of plots (C60). *)
From Coq Require Import Ascii String List Bool Arith ZArith QArith.
From Verif Require Import Base_Prelude Base_Str Base_Num Base_Float Model_Path Model_Report
  Spec_Num Spec_Report Proofs_Report Proofs_Report2.
Import ListNotations.
Open Scope nat_scope.

(** ** C58: points get consecutive ids

    Any history of calls of [add], some of which may fail, on dictionaries that are
    pairwise different objects. *)

Theorem C58_points_in_order {R} outdir (heap : nat -> op R) ks :
  NoDup (map k_op ks) ->
  let st := add_all (mkReport outdir heap [] []) ks in
  exists done, kept (fun k => works (heap (k_op k)) k) ks done /\
    r_ops st = map k_op done /\
    forall i k, nth_error done i = Some k ->
      exists id x, op_label (S i) id /\ k_results k = Ok x /\
        presented id (heap (k_op k)) x (r_heap st (k_op k)) /\
        forall c, In c plot_names ->
          dget str_eqb (inside (inside outdir id) (c ++ lit ".pdf")) (r_files st) = Some (k_op k).
Proof. exact (points_in_order outdir heap ks). Qed.
Print Assumptions C58_points_in_order.

Example C58_points_in_order_case :
  NoDup (map k_op [fine 0; no_figure 1; fine 2]) /\
  r_ops (add_all (mkReport (lit "/out") blank [] []) [fine 0; no_figure 1; fine 2]) = [0; 2].
Proof. split; [repeat (constructor; [simpl; intuition discriminate|]); constructor|vm_compute; reflexivity]. Qed.

(** A call fails exactly when a name entry is missing, the results cannot be
    computed or a figure cannot be made. *)
Theorem C58_only_failures {R} (st : report R) k :
  snd (add st k) = Ok tt <-> works (r_heap st (k_op k)) k.
Proof. exact (only_failures st k). Qed.
Print Assumptions C58_only_failures.

Example C58_only_failures_case :
  works (blank 0) (fine 0) /\ snd (add (mkReport (lit "/out") blank [] []) (no_figure 0)) = Err ValueError.
Proof. split; [apply fine_works|vm_compute; reflexivity]. Qed.

(** A dictionary added twice appears twice with the last id. *)
Theorem C58_shared_dictionary_refuted :
  exists (heap : nat -> op nat) k1 k2,
    works (heap (k_op k1)) k1 /\ works (heap (k_op k2)) k2 /\ k_op k1 = k_op k2 /\
    let st := add_all (mkReport (lit "/out") heap [] []) [k1; k2] in
    map (fun r => dget str_eqb (lit "id") (r_heap st r)) (r_ops st)
    = [Some (OText (lit "OP2")); Some (OText (lit "OP2"))].
Proof. exact shared_dictionary. Qed.
Print Assumptions C58_shared_dictionary_refuted.

(** An unnamed point whose first try failed keeps the id of that try as its name. *)
Theorem C58_second_try_refuted :
  exists (heap : nat -> op nat) k1 k2 k3,
    k_op k1 = k_op k3 /\ k_op k1 <> k_op k2 /\
    dget str_eqb (lit "name") (heap (k_op k1)) = Some ONone /\
    works (heap (k_op k2)) k2 /\ works (heap (k_op k3)) k3 /\
    let st := add_all (mkReport (lit "/out") heap [] []) [k1; k2; k3] in
    map (fun r => (dget str_eqb (lit "id") (r_heap st r), dget str_eqb (lit "name") (r_heap st r))) (r_ops st)
    = [(Some (OText (lit "OP1")), Some (OText (lit "OP1")));
       (Some (OText (lit "OP2")), Some (OText (lit "OP1")))].
Proof. exact second_try. Qed.
Print Assumptions C58_second_try_refuted.

(** ** C59: missing values *)

Theorem C59_missing k v : v = VNone \/ v = VFloat FNan true -> missingnumber k v = Ok (lit "-").
Proof. exact (shown_missing k v). Qed.
Print Assumptions C59_missing.

Theorem C59_number k x b q : x = FFin q ->
  exists t, missingnumber k (VFloat x b) = Ok t /\ written_with k q t.
Proof. exact (shown_number k x b q). Qed.
Print Assumptions C59_number.

Example C59_number_case : missingnumber 2 (VFloat (FFin (-12345 # 1000)) false) = Ok (lit "-12.34") /\
  missingnumber 0 (VFloat (FFin (7 # 2)) false) = Ok (lit "4").
Proof. split; vm_compute; reflexivity. Qed.

Theorem C59_integer k n : (Z.abs n < 2 ^ 53)%Z ->
  exists t, missingnumber k (VInt n) = Ok t /\ written_with k (inject_Z n) t.
Proof. exact (shown_int k n). Qed.
Print Assumptions C59_integer.

Example C59_integer_case : missingnumber 1 (VInt 42) = Ok (lit "42.0").
Proof. vm_compute. reflexivity. Qed.

(** A NaN that is not the object [np.nan] is printed. *)
Theorem C59_nan_refuted : exists v, v = VFloat FNan false /\ forall k, missingnumber k v = Ok (lit "nan").
Proof. exact nan_shown. Qed.
Print Assumptions C59_nan_refuted.

(** ** C60: the tests that are plotted *)

Theorem C60_last_test_only tests t plots :
  exists l t', make_plotting (tests ++ [t]) = Ok l /\ l = [t'] /\
    t_addr t' = t_addr t /\ (exists n, t_id t' = Some (S n)) /\
    (forall n, t_id t = Some (S n) -> t_id t' = Some (S n)) /\
    forall fig drawn, In (fig, drawn) (plot_all l plots) -> drawn = [t'].
Proof. exact (last_drawn tests t plots). Qed.
Print Assumptions C60_last_test_only.

Theorem C60_figures tests plots :
  map fst (plot_all tests plots) = match plots with [] => plot_names | _ => plots end.
Proof. exact (figures tests plots). Qed.
Print Assumptions C60_figures.

Example C60_figures_case : length (plot_all [mkTest 1 None] []) = 16 /\
  map fst (plot_all [mkTest 1 None] [lit "PlotPTC"]) = [lit "PlotPTC"].
Proof. split; reflexivity. Qed.

Theorem C60_all_tests_refuted :
  exists t1 t2 l, t_addr t1 <> t_addr t2 /\ make_plotting [t1; t2] = Ok l /\
    forall plots fig drawn t, In (fig, drawn) (plot_all l plots) -> In t drawn -> t_addr t <> t_addr t1.
Proof. exact first_lost. Qed.
Print Assumptions C60_all_tests_refuted.

(** ** C68: files handed to a report *)

Theorem C68_files_lead {C} cwd outdir (d : disk C) marketing basic logo plot qe :
  dget str_eqb (lit "logo") marketing = Some logo ->
  dget str_eqb (lit "missingplot") marketing = Some plot ->
  dget str_eqb (lit "qe_plot") basic = Some qe ->
  (forall f, In f (given logo ++ given plot ++ given qe) ->
     proper f /\ (exists c, d (abspath cwd f) = Some c) /\
     forall name, abspath cwd f <> inside (inside outdir (lit "upload")) name) ->
  NoDup (map file_name (given logo ++ given plot ++ given qe)) ->
  exists d' m b v1 v2 v3,
    make_dirs cwd outdir d marketing basic = Ok (d', m, b) /\
    dget str_eqb (lit "logo") m = Some (Some v1) /\
    dget str_eqb (lit "missingplot") m = Some (Some v2) /\
    dget str_eqb (lit "qe_plot") b = Some (Some v3) /\
    leads_to cwd outdir d d' logo (lit "missinglogo.pdf") v1 /\
    leads_to cwd outdir d d' plot (lit "missingplot.pdf") v2 /\
    leads_to cwd outdir d d' qe (lit "missingplot.pdf") v3 /\
    (forall p, (forall name, p <> inside (inside outdir (lit "upload")) name) -> d' p = d p).
Proof. exact (files_lead cwd outdir d marketing basic logo plot qe). Qed.
Print Assumptions C68_files_lead.

Example C68_files_lead_case :
  exists d' m b, make_dirs (lit "/home") (lit "/home/out") demo_disk
    [(lit "logo", Some (lit "a/../a/logo.pdf")); (lit "missingplot", Some (lit "b/plot.pdf"))]
    [(lit "qe_plot", None)] = Ok (d', m, b) /\
  m = [(lit "logo", Some (lit "upload/logo.pdf")); (lit "missingplot", Some (lit "upload/plot.pdf"))] /\
  b = [(lit "qe_plot", Some (lit "files/missingplot.pdf"))] /\
  map d' (map lit ["/home/out/upload/logo.pdf"; "/home/out/upload/plot.pdf"; "/home/out/files/missingplot.pdf"]%string)
  = [Some 1; Some 2; Some 4].
Proof.
  eexists _, _, _. split; [reflexivity|]. split; [vm_compute; reflexivity|].
  split; [vm_compute; reflexivity|]. vm_compute. reflexivity.
Qed.

(** Two files with the same name: only the later one is kept. *)
Theorem C68_same_name_refuted :
  exists cwd outdir (d : disk nat) marketing basic d' m b,
    (forall f, In f [lit "a/logo.pdf"; lit "b/logo.pdf"] ->
       proper f /\ (exists c, d (abspath cwd f) = Some c) /\
       forall name, abspath cwd f <> inside (inside outdir (lit "upload")) name) /\
    dget str_eqb (lit "logo") marketing = Some (Some (lit "a/logo.pdf")) /\
    dget str_eqb (lit "missingplot") marketing = Some (Some (lit "b/logo.pdf")) /\
    make_dirs cwd outdir d marketing basic = Ok (d', m, b) /\
    dget str_eqb (lit "logo") m = Some (Some (lit "upload/logo.pdf")) /\
    d (abspath cwd (lit "a/logo.pdf")) = Some 1 /\
    d' (inside outdir (lit "upload/logo.pdf")) = Some 3.
Proof. exact same_name_lost. Qed.
Print Assumptions C68_same_name_refuted.

(** The dictionary of a report without a logo cannot be used for a second report,
    unless the working directory has its own files/missinglogo.pdf. *)
Theorem C68_reuse_fails {C} cwd outdir cwd2 outdir2 (d d2 : disk C) marketing basic basic2 d' m b :
  make_dirs cwd outdir d marketing basic = Ok (d', m, b) ->
  (dget str_eqb (lit "logo") marketing = Some None \/ dget str_eqb (lit "logo") marketing = Some (Some [])) ->
  d2 (abspath cwd2 (lit "files/missinglogo.pdf")) = None ->
  make_dirs cwd2 outdir2 d2 m basic2 = Err IOError.
Proof. exact (reused cwd outdir cwd2 outdir2 d d2 marketing basic basic2 d' m b). Qed.
Print Assumptions C68_reuse_fails.

Example C68_reuse_fails_case : exists d' m b,
  make_dirs (lit "/home") (lit "/home/out") demo_disk
    [(lit "logo", None); (lit "missingplot", None)] [(lit "qe_plot", None)] = Ok (d', m, b) /\
  make_dirs (lit "/home") (lit "/home/out2") d' m [(lit "qe_plot", None)] = Err IOError.
Proof. eexists _, _, _. split; [reflexivity|]. vm_compute. reflexivity. Qed.
