(** Windows of the plots: src/emva1288/process/plotting.py, the parts that do not draw curves.
    Definitions only.  pyplot keeps its open figures by number, in the order of their creation. *)
From Coq Require Import Ascii String List Bool Arith ZArith.
From Verif Require Import Base_Prelude.
Import ListNotations.
Open Scope nat_scope.

(** A subplot of a figure: position as given to add_subplot, texts, scales, and what was drawn. *)
Record axes D := mkAxes {
  ax_pos : nat; ax_title : string; ax_xlabel : string; ax_ylabel : string;
  ax_xscale : string; ax_yscale : string; ax_drawn : list D }.
Arguments mkAxes {D}. Arguments ax_pos {D}. Arguments ax_title {D}. Arguments ax_xlabel {D}. Arguments ax_ylabel {D}.
Arguments ax_xscale {D}. Arguments ax_yscale {D}. Arguments ax_drawn {D}.

Record figure D := mkFig { fg_axes : list (axes D); fg_suptitle : string; fg_window : string }.
Arguments mkFig {D}. Arguments fg_axes {D}. Arguments fg_suptitle {D}. Arguments fg_window {D}.

(** A new subplot and a new figure; pyplot calls the window "Figure" and its number, which is
    left out. *)
Definition new_axes {D} (pos : nat) : axes D := mkAxes pos "" "" "" "linear" "linear" [].
Definition new_figure {D} : figure D := mkFig [] "" "Figure".

(** figure.add_subplot(pos): older versions of matplotlib give an existing subplot at the same
    position back ([reuse]), newer ones add another one. *)
Definition add_subplot {D} (reuse : bool) (pos : nat) (f : figure D) : figure D :=
  if (reuse && existsb (fun a => ax_pos a =? pos) (fg_axes f))%bool then f
  else mkFig (fg_axes f ++ [new_axes pos]) (fg_suptitle f) (fg_window f).

(** A change of the subplot that add_subplot gave: the last one at this position. *)
Fixpoint edit_last {D} (pos : nat) (g : axes D -> axes D) (l : list (axes D)) : list (axes D) :=
  match l with
  | [] => []
  | a :: l' => if ((ax_pos a =? pos) && negb (existsb (fun b => ax_pos b =? pos) l'))%bool then g a :: l'
               else a :: edit_last pos g l'
  end.
Definition on {D} (pos : nat) (g : axes D -> axes D) (f : figure D) : figure D :=
  mkFig (edit_last pos g (fg_axes f)) (fg_suptitle f) (fg_window f).

Definition set_title {D} (s : string) (a : axes D) : axes D :=
  mkAxes (ax_pos a) s (ax_xlabel a) (ax_ylabel a) (ax_xscale a) (ax_yscale a) (ax_drawn a).
Definition set_xlabel {D} (s : string) (a : axes D) : axes D :=
  mkAxes (ax_pos a) (ax_title a) s (ax_ylabel a) (ax_xscale a) (ax_yscale a) (ax_drawn a).
Definition set_ylabel {D} (s : string) (a : axes D) : axes D :=
  mkAxes (ax_pos a) (ax_title a) (ax_xlabel a) s (ax_xscale a) (ax_yscale a) (ax_drawn a).
Definition set_xscale {D} (s : string) (a : axes D) : axes D :=
  mkAxes (ax_pos a) (ax_title a) (ax_xlabel a) (ax_ylabel a) s (ax_yscale a) (ax_drawn a).
Definition set_yscale {D} (s : string) (a : axes D) : axes D :=
  mkAxes (ax_pos a) (ax_title a) (ax_xlabel a) (ax_ylabel a) (ax_xscale a) s (ax_drawn a).
Definition draw_on {D} (d : D) (a : axes D) : axes D :=
  mkAxes (ax_pos a) (ax_title a) (ax_xlabel a) (ax_ylabel a) (ax_xscale a) (ax_yscale a) (ax_drawn a ++ [d]).

(** The class attributes; which setup_figure the class has. *)
Inductive layout := Plain | LogLog | Horizontal | Vertical.
Record pclass := mkClass {
  pc_name : string; pc_title : option string; pc_xlabel : option string; pc_ylabel : option string;
  pc_xscale : option string; pc_yscale : option string; pc_layout : layout }.

(** [if s:] *)
Definition truthy (s : option string) : option string :=
  match s with Some EmptyString => None | _ => s end.
Definition when {D} (s : option string) (g : string -> axes D -> axes D) (a : axes D) : axes D :=
  match truthy s with Some t => g t a | None => a end.

(** plotting.py:51-73 Emva1288Plot.setup_figure *)
Definition setup_plain {D} (reuse : bool) (c : pclass) (f : figure D) : figure D :=
  on 111 (fun a =>
      when (pc_yscale c) set_yscale (when (pc_xscale c) set_xscale (when (pc_ylabel c) set_ylabel
        (when (pc_xlabel c) set_xlabel
          (set_title (match truthy (pc_title c) with Some t => t | None => pc_name c end) a)))))
    (add_subplot reuse 111 f).

(** plotting.py:243-247, 740-748, 770-778: the overriding ones (loglog makes both scales
    logarithmic). *)
Definition setup_figure {D} (reuse : bool) (c : pclass) (f : figure D) : figure D :=
  match pc_layout c with
  | Plain => setup_plain reuse c f
  | LogLog => on 111 (fun a => set_yscale "log" (set_xscale "log" a)) (setup_plain reuse c f)
  | Horizontal =>
      let f := add_subplot reuse 212 (add_subplot reuse 211 f) in
      let f := mkFig (fg_axes f) (pc_name c) (fg_window f) in
      on 212 (fun a => set_ylabel "Vertical line [DN]" (set_xlabel "Index of the line" (set_title "DSNU" a)))
        (on 211 (fun a => set_ylabel "Vertical line [DN]" (set_title "PRNU" a)) f)
  | Vertical =>
      let f := add_subplot reuse 122 (add_subplot reuse 121 f) in
      let f := mkFig (fg_axes f) (pc_name c) (fg_window f) in
      on 122 (fun a => set_xlabel "Vertical line [DN]" (set_title "PRNU" a))
        (on 121 (fun a => set_ylabel "Index of the line" (set_xlabel "Vertical line [DN]" (set_title "DSNU" a))) f)
  end.

Definition newline : string := String (ascii_of_nat 10) "".
Definition presence (unit : string) : string :=
  ("Standard deviation and" ++ newline ++ "relative presence of each cycle [" ++ unit ++ "]")%string.
Definition photons_label : string := "$\mu_{p}$ [mean number of photons/pixel]".
Definition signal_label : string := "$\mu_y - \mu_{y.dark}$ [DN]".

(** plotting.py:132-790 the class attributes. *)
Definition PlotSensitivity : pclass :=
  mkClass "Sensitivity" None (Some "$\mu_p$ [mean number of photons/pixel]"%string) (Some signal_label) None None Plain.
Definition PlotUyDark : pclass :=
  mkClass "Mean gray value in dark" (Some "$\mu_{y.dark}$"%string) (Some "exposure time [ns]"%string)
    (Some "$\mu_{y.dark}$ [DN]"%string) None None Plain.
Definition PlotPTC : pclass :=
  mkClass "Photon Transfer" None (Some signal_label) (Some "$\sigma^2_y - \sigma^2_{y.dark}$ [DN$^2$]"%string) None None Plain.
Definition PlotSNR : pclass :=
  mkClass "Signal to Noise Ratio" None (Some photons_label) (Some "SNR"%string) None None LogLog.
Definition PlotLinearity : pclass := mkClass "Linearity" None (Some photons_label) (Some signal_label) None None Plain.
Definition PlotDeviationLinearity : pclass :=
  mkClass "Deviation linearity" None (Some photons_label) (Some "Linearity error LE [%]"%string) None None Plain.
Definition PlotHorizontalSpectrogramPRNU : pclass :=
  mkClass "Horizontal spectrogram PRNU" None (Some "cycles [periods/pixel]"%string) (Some (presence "%")) None (Some "log"%string) Plain.
Definition PlotHorizontalSpectrogramDSNU : pclass :=
  mkClass "Horizontal spectrogram DSNU" None (Some "cycles [periods/pixel]"%string) (Some (presence "DN")) None (Some "log"%string) Plain.
Definition PlotVerticalSpectrogramPRNU : pclass :=
  mkClass "Vertical spectrogram PRNU" None (Some "cycles [periods/pixel]"%string) (Some (presence "%")) None (Some "log"%string) Plain.
Definition PlotVerticalSpectrogramDSNU : pclass :=
  mkClass "Vertical spectrogram DSNU" None (Some "Cycles [periods/pixel]"%string) (Some (presence "DN")) None (Some "log"%string) Plain.
Definition PlotLogarithmicHistogramDSNU : pclass :=
  mkClass "Logarithmic histogram DSNU" None (Some "Dark value [DN]"%string) (Some "Number of pixels"%string) None (Some "log"%string) Plain.
Definition PlotLogarithmicHistogramPRNU : pclass :=
  mkClass "Logarithmic histogram PRNU" None (Some "Deviation from the mean [DN]"%string) (Some "Number of pixels"%string) None (Some "log"%string) Plain.
Definition PlotAccumulatedLogHistogramDSNU : pclass :=
  mkClass "Accumulated log histogram DSNU" None (Some "Minimal deviation from the mean [DN]"%string) (Some "Number of pixels"%string) None (Some "log"%string) Plain.
Definition PlotAccumulatedLogHistogramPRNU : pclass :=
  mkClass "Accumulated log histogram PRNU" None (Some "Minimal deviation from the mean [%]"%string) (Some "Number of pixels"%string) None (Some "log"%string) Plain.
Definition PlotHorizontalProfile : pclass := mkClass "Horizontal profile" None None None None None Horizontal.
Definition PlotVerticalProfile : pclass := mkClass "Vertical profile" None None None None None Vertical.

(** plotting.py:793-808 EVMA1288plots *)
Definition EVMA1288plots : list pclass :=
  [PlotPTC; PlotSNR; PlotSensitivity; PlotUyDark; PlotLinearity; PlotDeviationLinearity;
   PlotHorizontalSpectrogramPRNU; PlotHorizontalSpectrogramDSNU;
   PlotVerticalSpectrogramPRNU; PlotVerticalSpectrogramDSNU;
   PlotLogarithmicHistogramDSNU; PlotLogarithmicHistogramPRNU;
   PlotAccumulatedLogHistogramDSNU; PlotAccumulatedLogHistogramPRNU;
   PlotHorizontalProfile; PlotVerticalProfile].

(** ** The open figures *)
Definition windows D := list (nat * figure D).

(** plt.figure(i): the open figure of this number, else a new one. *)
Definition open_figure {D} (i : nat) (ws : windows D) : figure D :=
  match find (fun w => fst w =? i) ws with Some w => snd w | None => new_figure end.
(** The figure of number i is now f. *)
Fixpoint put {D} (i : nat) (f : figure D) (ws : windows D) : windows D :=
  match ws with
  | [] => [(i, f)]
  | w :: ws' => if fst w =? i then (i, f) :: ws' else w :: put i f ws'
  end.

Definition draw_all {D} (ds : list (nat * D)) (f : figure D) : figure D :=
  fold_left (fun f d => on (fst d) (draw_on (snd d)) f) ds f.

(** plotting.py:862-872 one turn of the loop: [draw c] is what the tests draw, and on which
    subplot (Model_Plot, Model_Profile; tick marks and layout, set by rearrange, are left out).
    A failure leaves the figure as it is then. *)
Definition one_plot {D} (reuse : bool) (draw : pclass -> res (list (nat * D))) (i : nat) (c : pclass) (ws : windows D)
    : windows D * res unit :=
  let f := setup_figure reuse c (open_figure i ws) in
  match draw c with
  | Err e => (put i f ws, Err e)
  | Ok ds => let f := draw_all ds f in (put i (mkFig (fg_axes f) (fg_suptitle f) (pc_name c)) ws, Ok tt)
  end.

Fixpoint plot_from {D} (reuse : bool) (draw : pclass -> res (list (nat * D))) (i : nat) (plots : list pclass) (ws : windows D)
    : windows D * res unit :=
  match plots with
  | [] => (ws, Ok tt)
  | c :: plots' =>
      match one_plot reuse draw i c ws with
      | (ws', Ok _) => plot_from reuse draw (S i) plots' ws'
      | (ws', Err e) => (ws', Err e)
      end
  end.

(** plotting.py:850-873 Plotting1288.plot.  Second component: the windows plt.show() shows, or
    the exception.  First: the figures that stay open, none if the user closes the windows
    ([closed]; show() waits for that unless the backend has no windows). *)
Definition plot {D} (reuse closed : bool) (draw : pclass -> res (list (nat * D))) (plots : list pclass) (ws : windows D)
    : windows D * res (windows D) :=
  let plots := match plots with [] => EVMA1288plots | _ => plots end in
  match plot_from reuse draw 0 plots ws with
  | (ws', Ok _) => (if closed then [] else ws', Ok ws')
  | (ws', Err e) => (ws', Err e)
  end.
