(** What the properties C103-C105 speak about: the windows of the plots. *)
From Coq Require Import Ascii String List Bool Arith ZArith QArith.
From Verif Require Import Base_Prelude Base_Num Base_Sum Model_Images Model_Results Model_Hist Model_Figure Spec_Hist.
Import ListNotations.
Open Scope nat_scope.

(** The text, or a default for no or an empty one. *)
Definition text_or (s : option string) (default : string) : string :=
  match s with Some (String a t) => String a t | _ => default end.

(** What is drawn on the subplot at position pos. *)
Definition drawn_at {D} (pos : nat) (ds : list (nat * D)) : list D :=
  map snd (filter (fun d => fst d =? pos) ds).

(** The window of one plot class, with the curves ds. *)
Definition window_of {D} (c : pclass) (ds : list (nat * D)) : figure D :=
  let lin := "linear"%string in
  match pc_layout c with
  | Plain =>
      mkFig [mkAxes 111 (text_or (pc_title c) (pc_name c)) (text_or (pc_xlabel c) "") (text_or (pc_ylabel c) "")
               (text_or (pc_xscale c) lin) (text_or (pc_yscale c) lin) (drawn_at 111 ds)] "" (pc_name c)
  | LogLog =>
      mkFig [mkAxes 111 (text_or (pc_title c) (pc_name c)) (text_or (pc_xlabel c) "") (text_or (pc_ylabel c) "")
               "log" "log" (drawn_at 111 ds)] "" (pc_name c)
  | Horizontal =>
      mkFig [mkAxes 211 "PRNU" "" "Vertical line [DN]" lin lin (drawn_at 211 ds);
             mkAxes 212 "DSNU" "Index of the line" "Vertical line [DN]" lin lin (drawn_at 212 ds)] (pc_name c) (pc_name c)
  | Vertical =>
      mkFig [mkAxes 121 "DSNU" "Vertical line [DN]" "Index of the line" lin lin (drawn_at 121 ds);
             mkAxes 122 "PRNU" "Vertical line [DN]" "" lin lin (drawn_at 122 ds)] (pc_name c) (pc_name c)
  end.

(** The subplots a plot class makes; curves are drawn on them only. *)
Definition subplots (c : pclass) : list nat :=
  match pc_layout c with Plain | LogLog => [111] | Horizontal => [211; 212] | Vertical => [121; 122] end.
Definition placed {D} (draw : pclass -> res (list (nat * D))) : Prop :=
  forall c ds, draw c = Ok ds -> Forall (fun d => In (fst d) (subplots c)) ds.

(** The windows are exactly those of the plots, numbered from 0. *)
Definition windows_of {D} (draw : pclass -> res (list (nat * D))) (plots : list pclass) (ws : windows D) : Prop :=
  length ws = length plots /\
  forall i c ds, nth_error plots i = Some c -> draw c = Ok ds -> nth_error ws i = Some (i, window_of c ds).

(** ** Labels *)
(** Numbers of pixels, of an image of n pixels. *)
Definition pixel_numbers (n : nat) (values : list Q) : Prop :=
  Forall (fun v => 0 <= v /\ v <= qn n)%Q values.

(** The accumulated histogram by the deviation of the high-pass filtered image in percent of the
    mean signal; [diff] is the difference of the summed images, L their number. *)
Definition percent_histogram (h w L : nat) (diff : nat -> nat -> Z) (bins values : list Q) : Prop :=
  let mean := (inject_Z (sumz2 h w diff) / qn (h * w) / qn L)%Q in
  accumulated_histogram (h - 4) (w - 4)
    (fun r c => 25 * diff (r + 2)%nat (c + 2)%nat - block_sum 5 diff r c)%Z
    (qn L * 25 * (mean / 100))%Q bins values.
