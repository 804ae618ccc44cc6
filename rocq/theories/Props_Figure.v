(** C103-C105: the windows of the plots and their labels. *)
From Coq Require Import Ascii String List Bool Arith ZArith QArith.
From Verif Require Import Base_Prelude Base_Num Base_Sum Model_Images Model_Data Model_Results Model_Hist Model_Figure
  Spec_Hist Spec_Figure Proofs_Figure Proofs_Figure2.
Import ListNotations.
Open Scope nat_scope.

(** ** C103: one window per plot *)
Theorem C103_windows :
  forall D reuse (draw : pclass -> res (list (nat * D))), placed draw ->
  forall closed plots, (forall c, In c (match plots with [] => EVMA1288plots | _ => plots end) -> exists ds, draw c = Ok ds) ->
  exists shown, plot reuse closed draw plots [] = (if closed then [] else shown, Ok shown) /\
  windows_of draw (match plots with [] => EVMA1288plots | _ => plots end) shown.
Proof. exact @plot_fresh. Qed.
Print Assumptions C103_windows.

Theorem C103_all_plots : NoDup (map pc_name EVMA1288plots) /\ length EVMA1288plots = 16.
Proof. exact default_names. Qed.
Print Assumptions C103_all_plots.

Theorem C103_failure :
  forall D reuse (draw : pclass -> res (list (nat * D))) closed plots ws,
  (exists c e, In c (match plots with [] => EVMA1288plots | _ => plots end) /\ draw c = Err e) <->
  exists ws' e, plot reuse closed draw plots ws = (ws', Err e) /\
    exists c, In c (match plots with [] => EVMA1288plots | _ => plots end) /\ draw c = Err e.
Proof. exact @plot_fails. Qed.
Print Assumptions C103_failure.

(** What is left open then: the complete windows of the plots before the failing one, the window
    of the failing one with its subplots, and nothing for the plots after it. *)
Theorem C103_after_failure :
  forall D reuse (draw : pclass -> res (list (nat * D))), placed draw ->
  forall closed plots ws e, plot reuse closed draw plots [] = (ws, Err e) ->
  exists k c f, nth_error (match plots with [] => EVMA1288plots | _ => plots end) k = Some c /\ draw c = Err e /\
  ws = firstn k ws ++ [(k, f)] /\ map ax_pos (fg_axes f) = subplots c /\
  (forall j c', j < k -> nth_error (match plots with [] => EVMA1288plots | _ => plots end) j = Some c' ->
     exists ds, draw c' = Ok ds) /\
  windows_of draw (firstn k (match plots with [] => EVMA1288plots | _ => plots end)) (firstn k ws).
Proof. exact @plot_after_failure. Qed.
Print Assumptions C103_after_failure.

Example C103_case : placed named_curve /\
  snd (plot false true named_curve [PlotUyDark; PlotHorizontalProfile] []) =
  Ok [(0, mkFig [mkAxes 111 "$\mu_{y.dark}$" "exposure time [ns]" "$\mu_{y.dark}$ [DN]" "linear" "linear"
                   ["Mean gray value in dark"]] "" "Mean gray value in dark");
      (1, mkFig [mkAxes 211 "PRNU" "" "Vertical line [DN]" "linear" "linear" ["Horizontal profile"];
                 mkAxes 212 "DSNU" "Index of the line" "Vertical line [DN]" "linear" "linear" []]
            "Horizontal profile" "Horizontal profile")]%string.
Proof. split; [exact named_placed|reflexivity]. Qed.
Example C103_failure_case :
  let draw := fun c => if String.eqb (pc_name c) "Linearity" then Err IndexError else named_curve c in
  snd (plot false true draw [PlotPTC; PlotLinearity; PlotSNR] []) = Err IndexError /\
  map (fun w => (fst w, length (fg_axes (snd w)))) (fst (plot false true draw [PlotPTC; PlotLinearity; PlotSNR] [])) =
  [(0, 1); (1, 1)].
Proof. split; reflexivity. Qed.

(** ** C104: the plots of two calls *)
(** Figures that were not closed are used again. *)
Theorem C104_calls_refuted :
  forall reuse, exists (draw : pclass -> res (list (nat * string))) first second shown ws,
  placed draw /\ snd (plot reuse false draw first []) = Ok shown /\
  snd (plot reuse false draw second (fst (plot reuse false draw first []))) = Ok ws /\
  ~ windows_of draw second ws.
Proof. exact second_call_mixes. Qed.
Print Assumptions C104_calls_refuted.

(** What is shown then (new versions of matplotlib): the old subplots and the new ones. *)
Theorem C104_overlaid :
  forall D reuse (draw : pclass -> res (list (nat * D))), placed draw ->
  forall closed plots (ws : windows D), reuse = false ->
  (forall c, In c (match plots with [] => EVMA1288plots | _ => plots end) -> exists ds, draw c = Ok ds) ->
  exists shown, plot reuse closed draw plots ws = (if closed then [] else shown, Ok shown) /\
  (forall k c ds, nth_error (match plots with [] => EVMA1288plots | _ => plots end) k = Some c -> draw c = Ok ds ->
     fg_axes (open_figure k shown) = fg_axes (open_figure k ws) ++ fg_axes (window_of c ds) /\
     fg_window (open_figure k shown) = pc_name c) /\
  (forall k, length (match plots with [] => EVMA1288plots | _ => plots end) <= k -> open_figure k shown = open_figure k ws).
Proof. exact @plot_over. Qed.
Print Assumptions C104_overlaid.

Example C104_case :
  let ws := fst (plot false false named_curve [PlotUyDark; PlotSNR] []) in
  match snd (plot false false named_curve [PlotLinearity] ws) with
  | Ok shown => map (fun w => (fg_window (snd w), map ax_title (fg_axes (snd w)))) shown
  | Err _ => []
  end = [("Linearity", ["$\mu_{y.dark}$"; "Linearity"]); ("Signal to Noise Ratio", ["Signal to Noise Ratio"])]%string.
Proof. reflexivity. Qed.

(** ** C105: labels *)
(** The accumulated histograms are labelled "Number of pixels" and show percentages. *)
Theorem C105_number_refuted :
  pc_ylabel PlotAccumulatedLogHistogramDSNU = Some "Number of pixels"%string /\
  exists o a, histogram_DSNU_accumulated o = Ok a /\ (0 < ih (sd_sum (dark o)) * iw (sd_sum (dark o)))%nat /\
  ~ pixel_numbers (ih (sd_sum (dark o)) * iw (sd_sum (dark o))) (a_values a).
Proof. exact (conj eq_refl accumulated_not_numbers). Qed.
Print Assumptions C105_number_refuted.

(** The deviation is labelled "%" and is in digital numbers. *)
Theorem C105_percent_refuted :
  pc_xlabel PlotAccumulatedLogHistogramPRNU = Some "Minimal deviation from the mean [%]"%string /\
  exists o a, histogram_PRNU_accumulated o = Ok a /\
  let b := sd_sum (bright o) in let d := sd_sum (dark o) in
  shape b = (6, 5)%nat /\ shape d = (6, 5)%nat /\ sd_L (bright o) = 2%nat /\
  ~ percent_histogram 6 5 2 (fun r c => px b r c - px d r c)%Z (a_bins a) (a_values a).
Proof. exact (conj eq_refl accumulated_not_percent). Qed.
Print Assumptions C105_percent_refuted.
