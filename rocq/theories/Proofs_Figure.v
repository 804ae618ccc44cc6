(** Proofs for C103-C105. *)
From Coq Require Import Ascii String List Bool Arith ZArith QArith Lia.
From Verif Require Import Base_Prelude Base_Num Base_Sum Model_Images Model_Results Model_Hist Model_Figure Spec_Hist Spec_Figure.
Import ListNotations.
Open Scope nat_scope.

Section D.
Context {D : Type}.
Implicit Types (f : figure D) (a : axes D) (l m : list (axes D)).

Lemma edit_app pos g l m : existsb (fun b => ax_pos b =? pos) m = true -> edit_last pos g (l ++ m) = l ++ edit_last pos g m.
Proof.
  intros H. induction l as [|a l IH]; [reflexivity|]. cbn [app edit_last].
  rewrite existsb_app, H, orb_true_r, andb_false_r, IH. reflexivity.
Qed.

(** Drawing does not move subplots. *)
Definition draw_axes (ds : list (nat * D)) l : list (axes D) :=
  fold_left (fun l d => edit_last (fst d) (draw_on (snd d)) l) ds l.
Lemma draw_all_axes ds : forall f, fg_axes (draw_all ds f) = draw_axes ds (fg_axes f) /\ fg_suptitle (draw_all ds f) = fg_suptitle f.
Proof. induction ds as [|d ds IH]; intros f; [split; reflexivity|]. cbn [draw_all draw_axes fold_left]. apply (IH (on _ _ f)). Qed.

Definition drawn_more (xs : list D) a : axes D :=
  mkAxes (ax_pos a) (ax_title a) (ax_xlabel a) (ax_ylabel a) (ax_xscale a) (ax_yscale a) (ax_drawn a ++ xs).
Lemma drawn_none a : drawn_more [] a = a.
Proof. destruct a. unfold drawn_more. cbn. rewrite app_nil_r. reflexivity. Qed.

Lemma edit_nodup pos g m : NoDup (map ax_pos m) ->
  edit_last pos g m = map (fun a => if ax_pos a =? pos then g a else a) m.
Proof.
  induction m as [|a m IH]; intros H; [reflexivity|]. cbn [map] in H. inversion H as [|x y NI ND]; subst.
  cbn [edit_last map]. destruct (Nat.eqb_spec (ax_pos a) pos) as [E|N].
  - assert (EX : existsb (fun b => ax_pos b =? pos) m = false).
    { apply not_true_is_false. intro T. apply existsb_exists in T. destruct T as (b & B & Q).
      apply Nat.eqb_eq in Q. apply NI. rewrite E, <- Q. apply in_map, B. }
    rewrite EX. cbn. f_equal. rewrite <- (map_id m) at 1. apply map_ext_in. intros b B.
    destruct (Nat.eqb_spec (ax_pos b) pos) as [Q|Q]; [|reflexivity].
    exfalso. apply NI. rewrite E, <- Q. apply in_map, B.
  - cbn [andb]. f_equal. apply IH, ND.
Qed.
Lemma pos_edit pos g m : (forall a, ax_pos (g a) = ax_pos a) ->
  map ax_pos (map (fun a => if ax_pos a =? pos then g a else a) m) = map ax_pos m.
Proof. intros H. rewrite map_map. apply map_ext. intros a. destruct (_ =? _); [apply H|reflexivity]. Qed.
Lemma exists_pos pos m : In pos (map ax_pos m) -> existsb (fun b => ax_pos b =? pos) m = true.
Proof.
  intros H. apply in_map_iff in H. destruct H as (a & E & A). apply existsb_exists. exists a. split; [exact A|]. apply Nat.eqb_eq, E.
Qed.
Lemma draw_placed ds : forall l m, NoDup (map ax_pos m) -> Forall (fun d => In (fst d) (map ax_pos m)) ds ->
  draw_axes ds (l ++ m) = l ++ map (fun a => drawn_more (drawn_at (ax_pos a) ds) a) m.
Proof.
  induction ds as [|[p d] ds IH]; intros l m ND F.
  - cbn. f_equal. rewrite <- (map_id m) at 1. apply map_ext. intros a. symmetry. apply drawn_none.
  - inversion F as [|x y P F']; subst. cbn [fst] in P. cbn [draw_axes fold_left fst snd].
    rewrite edit_app by (apply exists_pos, P). rewrite edit_nodup by exact ND.
    set (m' := map (fun a => if ax_pos a =? p then draw_on d a else a) m).
    assert (PM : map ax_pos m' = map ax_pos m) by (apply pos_edit; reflexivity).
    specialize (IH l m'). rewrite PM in IH. unfold draw_axes in IH. rewrite IH by assumption.
    f_equal. unfold m'. rewrite map_map. apply map_ext. intros a. unfold drawn_at. cbn [filter fst].
    rewrite (Nat.eqb_sym p). destruct (Nat.eqb_spec (ax_pos a) p) as [E|N]; [|reflexivity].
    unfold drawn_more, draw_on. cbn. rewrite <- app_assoc. reflexivity.
Qed.

(** The subplots of the window. *)
Definition fresh_axes (c : pclass) : list (axes D) := fg_axes (window_of c []).
Lemma fresh_pos c : map ax_pos (fresh_axes c) = subplots c.
Proof. unfold fresh_axes, window_of, subplots. destruct (pc_layout c); reflexivity. Qed.
Lemma sub_nodup c : NoDup (subplots c).
Proof. unfold subplots. destruct (pc_layout c); repeat constructor; simpl; intuition discriminate. Qed.

Lemma when_eq (g : string -> axes D -> axes D) s a : when s g a = match s with Some (String x t) => g (String x t) a | _ => a end.
Proof. unfold when, truthy. destruct s as [[|x t]|]; reflexivity. Qed.
Lemma title_eq s n : match truthy s with Some t => t | None => n end = text_or s n.
Proof. destruct s as [[|x t]|]; reflexivity. Qed.

Lemma plain_axes c pos : 
  when (pc_yscale c) set_yscale (when (pc_xscale c) set_xscale (when (pc_ylabel c) set_ylabel
        (when (pc_xlabel c) set_xlabel
          (set_title (match truthy (pc_title c) with Some t => t | None => pc_name c end) (new_axes (D:=D) pos))))) =
  mkAxes pos (text_or (pc_title c) (pc_name c)) (text_or (pc_xlabel c) "") (text_or (pc_ylabel c) "")
    (text_or (pc_xscale c) "linear") (text_or (pc_yscale c) "linear") [].
Proof.
  rewrite title_eq, !when_eq. unfold text_or.
  destruct (pc_xlabel c) as [[|? ?]|], (pc_ylabel c) as [[|? ?]|], (pc_xscale c) as [[|? ?]|], (pc_yscale c) as [[|? ?]|]; reflexivity.
Qed.

(** Setting up adds the subplots of the class, if matplotlib gives new ones. *)
Lemma setup_new c f reuse : reuse = false \/ fg_axes f = [] ->
  fg_axes (setup_figure reuse c f) = fg_axes f ++ fresh_axes c /\
  fg_suptitle (setup_figure reuse c f) =
    match pc_layout c with Plain | LogLog => fg_suptitle f | _ => pc_name c end.
Proof.
  intros H.
  assert (A1 : forall p, add_subplot reuse p f = mkFig (fg_axes f ++ [new_axes p]) (fg_suptitle f) (fg_window f)).
  { intros p. unfold add_subplot. destruct H as [->| ->]; [reflexivity|]. destruct reuse; reflexivity. }
  assert (A2 : forall p q, p <> q -> add_subplot reuse q (add_subplot reuse p f) =
     mkFig (fg_axes f ++ [new_axes p; new_axes q]) (fg_suptitle f) (fg_window f)).
  { intros p q N. rewrite A1. unfold add_subplot. cbn [fg_axes fg_suptitle fg_window]. rewrite existsb_app.
    destruct H as [->| ->].
    - cbn. rewrite <- app_assoc. reflexivity.
    - cbn. destruct (Nat.eqb_spec p q); [contradiction|]. rewrite andb_false_r. reflexivity. }
  unfold setup_figure, fresh_axes, window_of. destruct (pc_layout c).
  - unfold setup_plain, on. rewrite A1. cbn [fg_axes fg_suptitle]. split; [|reflexivity].
    rewrite edit_app by reflexivity. f_equal. cbn [edit_last new_axes ax_pos existsb Nat.eqb negb andb].
    f_equal. apply plain_axes.
  - unfold setup_plain, on. rewrite A1. cbn [fg_axes fg_suptitle]. split; [|reflexivity].
    rewrite edit_app by reflexivity. cbn [edit_last new_axes ax_pos existsb Nat.eqb negb andb].
    rewrite edit_app by (rewrite plain_axes; reflexivity). f_equal. rewrite plain_axes. reflexivity.
  - cbv zeta. rewrite A2 by discriminate. unfold on. cbn [fg_axes fg_suptitle]. split; [|reflexivity].
    rewrite edit_app by reflexivity. rewrite edit_app by reflexivity. reflexivity.
  - cbv zeta. rewrite A2 by discriminate. unfold on. cbn [fg_axes fg_suptitle]. split; [|reflexivity].
    rewrite edit_app by reflexivity. rewrite edit_app by reflexivity. reflexivity.
Qed.

Lemma window_axes c ds : fg_axes (window_of c ds) = map (fun a => drawn_more (drawn_at (ax_pos a) ds) a) (fresh_axes c).
Proof. unfold fresh_axes, window_of. destruct (pc_layout c); reflexivity. Qed.

(** ** The loop *)
Variables (reuse : bool) (draw : pclass -> res (list (nat * D))).
Hypothesis PL : placed draw.

Lemma one_plot_ok i c ds (ws : windows D) : draw c = Ok ds -> reuse = false \/ fg_axes (open_figure i ws) = [] ->
  exists f, one_plot reuse draw i c ws = (put i f ws, Ok tt) /\
  fg_axes f = fg_axes (open_figure i ws) ++ fg_axes (window_of c ds) /\ fg_window f = pc_name c /\
  (fg_suptitle (open_figure i ws) = ""%string -> fg_suptitle f = fg_suptitle (window_of c ds)).
Proof.
  intros E H. unfold one_plot. rewrite E. eexists. split; [reflexivity|]. cbn [fg_axes fg_window fg_suptitle].
  destruct (setup_new c (open_figure i ws) reuse H) as (A & S). 
  destruct (draw_all_axes ds (setup_figure reuse c (open_figure i ws))) as (B & T).
  split; [|split; [reflexivity|]].
  - rewrite B, A, window_axes. apply draw_placed; rewrite fresh_pos; [apply sub_nodup|apply PL, E].
  - intros Q. rewrite T, S. unfold window_of. destruct (pc_layout c); cbn; congruence.
Qed.

Lemma find_put i j f (ws : windows D) :
  open_figure j (put i f ws) = if j =? i then f else open_figure j ws.
Proof.
  unfold open_figure. induction ws as [|[k g] ws IH]; cbn [put find fst snd].
  - rewrite (Nat.eqb_sym i j). destruct (j =? i); reflexivity.
  - destruct (Nat.eqb_spec k i) as [->|N]; cbn [find fst snd].
    + rewrite (Nat.eqb_sym i j). destruct (j =? i); reflexivity.
    + destruct (Nat.eqb_spec k j) as [->|N'].
      * destruct (Nat.eqb_spec j i); [contradiction|]. reflexivity.
      * exact IH.
Qed.

(** Windows above the numbers used so far are as before. *)
Lemma put_new i f (ws : windows D) : ~ In i (map fst ws) -> put i f ws = ws ++ [(i, f)].
Proof.
  induction ws as [|[k g] ws IH]; intros N; [reflexivity|]. cbn [put fst]. cbn in N.
  destruct (Nat.eqb_spec k i) as [->|]; [tauto|]. rewrite IH by tauto. reflexivity.
Qed.
Lemma open_new i (ws : windows D) : ~ In i (map fst ws) -> open_figure i ws = new_figure.
Proof.
  unfold open_figure. induction ws as [|[k g] ws IH]; intros N; [reflexivity|]. cbn [find fst]. cbn in N.
  destruct (Nat.eqb_spec k i) as [->|]; [tauto|]. apply IH. tauto.
Qed.

Lemma loop_fresh plots : (forall c, In c plots -> exists ds, draw c = Ok ds) -> forall i (ws : windows D),
  (forall k, In k (map fst ws) -> k < i) ->
  exists fs, plot_from reuse draw i plots ws = (ws ++ combine (seq i (length plots)) fs, Ok tt) /\
  length fs = length plots /\
  forall k c ds, nth_error plots k = Some c -> draw c = Ok ds -> nth_error fs k = Some (window_of c ds).
Proof.
  induction plots as [|c plots IH]; intros HD i ws HW.
  - exists []. cbn. rewrite app_nil_r. split; [reflexivity|]. split; [reflexivity|]. intros [|k]; discriminate.
  - destruct (HD c (or_introl eq_refl)) as (ds & E).
    assert (NI : ~ In i (map fst ws)) by (intro H; specialize (HW i H); lia).
    destruct (one_plot_ok i c ds ws E) as (f & P & A & Wd & St); [right; rewrite open_new by exact NI; reflexivity|].
    rewrite open_new in A, St by exact NI. cbn in A. specialize (St eq_refl).
    assert (F : f = window_of c ds).
    { destruct f as [fa fs fw]. cbn in A, Wd, St. subst. unfold window_of. destruct (pc_layout c); reflexivity. }
    cbn [plot_from]. rewrite P, put_new by exact NI.
    destruct (IH (fun c' H => HD c' (or_intror H)) (S i) (ws ++ [(i, f)])) as (fs & Q & L & N).
    { intros k Hk. rewrite map_app in Hk. apply in_app_or in Hk. destruct Hk as [Hk|[<-|[]]]; [apply HW in Hk; lia|cbn; lia]. }
    exists (f :: fs). rewrite Q. cbn [length seq combine]. split; [rewrite <- app_assoc; reflexivity|].
    split; [rewrite L; reflexivity|]. intros [|k] c' ds' Hk E'; cbn in Hk |- *.
    + injection Hk as <-. rewrite E in E'. injection E' as <-. rewrite F. reflexivity.
    + apply N; assumption.
Qed.

(** What is shown for no plots: all of them. *)
Definition chosen (plots : list pclass) : list pclass := match plots with [] => EVMA1288plots | _ => plots end.

Lemma plot_fresh closed plots : (forall c, In c (chosen plots) -> exists ds, draw c = Ok ds) ->
  exists shown, plot reuse closed draw plots [] = (if closed then [] else shown, Ok shown) /\
  windows_of draw (chosen plots) shown.
Proof.
  intros HD. unfold plot. fold (chosen plots).
  destruct (loop_fresh (chosen plots) HD 0 [] ltac:(intros k [])) as (fs & P & L & N).
  rewrite P. cbn [app]. eexists. split; [reflexivity|]. split.
  - rewrite combine_length, seq_length, L. apply Nat.min_id.
  - intros i c ds Hi E. specialize (N i c ds Hi E).
    assert (Li : i < length (chosen plots)) by (apply nth_error_Some; rewrite Hi; discriminate).
    assert (X : forall (a : list nat) (b : list (figure D)) k x y, nth_error a k = Some x -> nth_error b k = Some y ->
      nth_error (combine a b) k = Some (x, y)).
    { induction a as [|a0 a IHa]; intros [|b0 b] [|k] x y; cbn; try discriminate.
      - intros [= <-] [= <-]. reflexivity.
      - apply IHa. }
    apply X; [|exact N]. rewrite (nth_error_nth' _ 0) by (rewrite seq_length; exact Li).
    rewrite seq_nth by exact Li. reflexivity.
Qed.

(** A plot that fails. *)
Lemma loop_fails plots : forall i (ws : windows D) ws' e, plot_from reuse draw i plots ws = (ws', Err e) ->
  exists c, In c plots /\ draw c = Err e.
Proof.
  induction plots as [|c plots IH]; intros i ws ws' e H; cbn [plot_from] in H; [discriminate|].
  unfold one_plot in H. destruct (draw c) as [ds|e'] eqn:E.
  - destruct (IH _ _ _ _ H) as (c' & C & Q). exists c'. split; [right; exact C|exact Q].
  - injection H as _ <-. exists c. split; [left; reflexivity|exact E].
Qed.
Lemma loop_stops plots : forall i (ws : windows D) c e, In c plots -> draw c = Err e ->
  exists ws' e', plot_from reuse draw i plots ws = (ws', Err e').
Proof.
  induction plots as [|c0 plots IH]; intros i ws c e H E; [destruct H|].
  cbn [plot_from]. unfold one_plot. destruct (draw c0) as [ds|e0] eqn:E0.
  - destruct H as [->|H]; [congruence|]. exact (IH _ _ c e H E).
  - eauto.
Qed.
Lemma plot_fails closed plots ws : (exists c e, In c (chosen plots) /\ draw c = Err e) <->
  exists ws' e, plot reuse closed draw plots ws = (ws', Err e) /\ exists c, In c (chosen plots) /\ draw c = Err e.
Proof.
  unfold plot. fold (chosen plots). split.
  - intros (c & e & C & E). destruct (loop_stops (chosen plots) 0 ws c e C E) as (ws' & e' & P). rewrite P.
    exists ws', e'. split; [reflexivity|]. exact (loop_fails _ _ _ _ _ P).
  - intros (ws' & e & _ & c & C & E). exists c, e. split; assumption.
Qed.

(** What a plot that fails leaves open, when nothing was open before. *)
Lemma plot_from_app (p : list pclass) : forall (q : list pclass) i (ws : windows D), plot_from reuse draw i (p ++ q) ws =
  match plot_from reuse draw i p ws with (ws', Ok _) => plot_from reuse draw (i + length p) q ws' | (ws', Err e) => (ws', Err e) end.
Proof.
  induction p as [|c p IH]; intros q i ws; cbn [app plot_from length].
  - rewrite Nat.add_0_r. reflexivity.
  - destruct (one_plot reuse draw i c ws) as [ws' [[]|e]]; [|reflexivity].
    rewrite IH, Nat.add_succ_r. reflexivity.
Qed.
Lemma first_failure plots : (exists c e, In c plots /\ draw c = Err e) ->
  exists before c after e, plots = before ++ c :: after /\ draw c = Err e /\ forall c', In c' before -> exists ds, draw c' = Ok ds.
Proof.
  induction plots as [|c plots IH]; intros (c0 & e0 & H & E); [destruct H|].
  destruct (draw c) as [ds|e] eqn:Ec.
  - destruct H as [->|H]; [congruence|]. destruct IH as (b & c1 & a & e & -> & E1 & B); [eauto|].
    exists (c :: b), c1, a, e. split; [reflexivity|]. split; [exact E1|]. intros c' [<-|C]; [eauto|apply B, C].
  - exists [], c, plots, e. split; [reflexivity|]. split; [exact Ec|]. intros c' [].
Qed.
Lemma plot_after_failure closed plots ws' e : plot reuse closed draw plots [] = (ws', Err e) ->
  exists k c f, nth_error (chosen plots) k = Some c /\ draw c = Err e /\ 
  ws' = firstn k ws' ++ [(k, f)] /\ map ax_pos (fg_axes f) = subplots c /\
  (forall j c', j < k -> nth_error (chosen plots) j = Some c' -> exists ds, draw c' = Ok ds) /\
  windows_of draw (firstn k (chosen plots)) (firstn k ws').
Proof.
  unfold plot. fold (chosen plots). intros H.
  destruct (plot_from reuse draw 0 (chosen plots) []) as [w [[]|e']] eqn:P; [discriminate|].
  injection H as <- <-. destruct (loop_fails _ _ _ _ _ P) as (c0 & C0 & E0).
  destruct (first_failure (chosen plots)) as (b & c & a & e & Q & E & B); [eauto|].
  rewrite Q in P |- *. rewrite plot_from_app in P.
  destruct (loop_fresh b B 0 [] ltac:(intros k [])) as (fs & R & L & N). rewrite R in P. cbn [app Nat.add] in P.
  set (w0 := combine (seq 0 (length b)) fs) in *.
  assert (L0 : length w0 = length b) by (unfold w0; rewrite combine_length, seq_length, L; apply Nat.min_id).
  assert (NI : ~ In (length b) (map fst w0)).
  { intros I. apply in_map_iff in I. destruct I as ((x & y) & X & I). apply in_combine_l in I. apply in_seq in I. cbn in X. lia. }
  cbn [plot_from] in P. unfold one_plot in P. rewrite E in P. injection P as <- <-.
  rewrite put_new, open_new by exact NI.
  exists (length b), c. eexists. split; [rewrite nth_error_app2, Nat.sub_diag by lia; reflexivity|]. split; [exact E|].
  assert (FW : forall x : list (nat * figure D), firstn (length b) (w0 ++ x) = w0).
  { intros x. rewrite <- L0, firstn_app, Nat.sub_diag, firstn_all. cbn. apply app_nil_r. }
  rewrite FW. split; [reflexivity|]. split; [|split].
  - rewrite (proj1 (setup_new c new_figure reuse (or_intror eq_refl))). cbn [new_figure fg_axes app]. apply fresh_pos.
  - intros j c' J K. rewrite nth_error_app1 in K by exact J. apply B. apply nth_error_In in K. exact K.
  - replace (firstn (length b) (b ++ c :: a)) with b by (rewrite firstn_app, Nat.sub_diag, firstn_all; cbn; symmetry; apply app_nil_r).
    split; [exact L0|]. intros i c1 ds Hi E1. specialize (N i c1 ds Hi E1).
    assert (Li : i < length b) by (apply nth_error_Some; rewrite Hi; discriminate).
    assert (X : forall (a : list nat) (b : list (figure D)) k x y, nth_error a k = Some x -> nth_error b k = Some y ->
      nth_error (combine a b) k = Some (x, y)).
    { induction a0 as [|a0 a1 IHa]; intros [|b0 b1] [|k] x y; cbn; try discriminate.
      - intros [= <-] [= <-]. reflexivity.
      - apply IHa. }
    apply X; [|exact N]. rewrite (nth_error_nth' _ 0) by (rewrite seq_length; exact Li).
    rewrite seq_nth by exact Li. reflexivity.
Qed.

(** Windows that are still open keep what they show. *)
Lemma loop_over plots : reuse = false -> (forall c, In c plots -> exists ds, draw c = Ok ds) -> forall i (ws : windows D),
  exists ws', plot_from reuse draw i plots ws = (ws', Ok tt) /\
  (forall k c ds, nth_error plots k = Some c -> draw c = Ok ds ->
     fg_axes (open_figure (i + k) ws') = fg_axes (open_figure (i + k) ws) ++ fg_axes (window_of c ds) /\
     fg_window (open_figure (i + k) ws') = pc_name c) /\
  (forall k, k < i \/ i + length plots <= k -> open_figure k ws' = open_figure k ws).
Proof.
  intros R. induction plots as [|c plots IH]; intros HD i ws.
  - exists ws. split; [reflexivity|]. split; [intros [|k]; discriminate|]. reflexivity.
  - destruct (HD c (or_introl eq_refl)) as (ds & E).
    destruct (one_plot_ok i c ds ws E (or_introl R)) as (f & P & A & Wd & _).
    cbn [plot_from]. rewrite P.
    destruct (IH (fun c' H => HD c' (or_intror H)) (S i) (put i f ws)) as (ws' & Q & N & O).
    exists ws'. split; [exact Q|]. split.
    + intros [|k] c' ds' Hk E'; cbn in Hk.
      * injection Hk as <-. rewrite E in E'. injection E' as <-. rewrite Nat.add_0_r.
        rewrite (O i) by (left; lia). rewrite find_put, Nat.eqb_refl. split; assumption.
      * specialize (N k c' ds' Hk E'). replace (S i + k) with (i + S k) in N by lia.
        rewrite find_put in N. destruct (Nat.eqb_spec (i + S k) i); [lia|]. exact N.
    + intros k Hk. cbn [length] in Hk. rewrite (O k) by lia. rewrite find_put. destruct (Nat.eqb_spec k i); [lia|reflexivity].
Qed.
Lemma plot_over closed plots ws : reuse = false -> (forall c, In c (chosen plots) -> exists ds, draw c = Ok ds) ->
  exists shown, plot reuse closed draw plots ws = (if closed then [] else shown, Ok shown) /\
  (forall k c ds, nth_error (chosen plots) k = Some c -> draw c = Ok ds ->
     fg_axes (open_figure k shown) = fg_axes (open_figure k ws) ++ fg_axes (window_of c ds) /\
     fg_window (open_figure k shown) = pc_name c) /\
  (forall k, length (chosen plots) <= k -> open_figure k shown = open_figure k ws).
Proof.
  intros R HD. unfold plot. fold (chosen plots). destruct (loop_over (chosen plots) R HD 0 ws) as (ws' & P & N & O).
  rewrite P. exists ws'. split; [reflexivity|]. split; [exact N|]. intros k Hk. apply O. right. exact Hk.
Qed.
End D.

(** One curve per plot class: its name. *)
Definition named_curve (c : pclass) : res (list (nat * string)) :=
  Ok [(match subplots c with p :: _ => p | [] => 0 end, pc_name c)].
Lemma named_placed : placed named_curve.
Proof.
  intros c ds [= <-]. constructor; [|constructor]. cbn [fst]. unfold subplots. destruct (pc_layout c); cbn; auto.
Qed.
Lemma default_names : NoDup (map pc_name EVMA1288plots) /\ length EVMA1288plots = 16.
Proof.
  split; [|reflexivity]. cbn. repeat constructor; cbn; intuition discriminate.
Qed.
Lemma second_call_mixes reuse : exists (draw : pclass -> res (list (nat * string))) first second shown ws,
  placed draw /\ snd (plot reuse false draw first []) = Ok shown /\
  snd (plot reuse false draw second (fst (plot reuse false draw first []))) = Ok ws /\
  ~ windows_of draw second ws.
Proof.
  exists named_curve, [PlotPTC], [PlotSensitivity].
  do 2 eexists. split; [exact named_placed|]. split; [reflexivity|]. split; [reflexivity|].
  intros (_ & N). specialize (N 0 PlotSensitivity _ eq_refl eq_refl). destruct reuse; discriminate N.
Qed.
