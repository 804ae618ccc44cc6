(** Generated data sets. *)
From Coq Require Import Ascii String List Bool Arith ZArith QArith Lia Lra Permutation Reals.
From Flocq Require Import Core.
From Verif Require Import Base_Prelude Base_Str Base_Num Base_Order Base_Float Model_Path Model_Parser
  Model_Camera Model_Points Model_Dataset Spec_Parser Spec_Num Spec_Dataset
  Proofs_Str Proofs_Path Proofs_Round Proofs_Num Proofs_Repr Proofs_Camera Proofs_Parser Proofs_Parser2.
Import ListNotations.
Open Scope nat_scope.

(** ** Printed numbers *)

Lemma ZnearestE_opp x : ZnearestE (- x) = (- ZnearestE x)%Z.
Proof.
  rewrite Znearest_opp. f_equal. unfold Znearest.
  replace (negb (negb (Z.even (- (Zfloor x + 1))))) with (negb (Z.even (Zfloor x))); auto.
  rewrite negb_involutive, Z.even_opp, Z.even_add. destruct (Z.even (Zfloor x)); reflexivity.
Qed.

Lemma zdiv_rne_opp n d : (0 < d)%Z -> zdiv_rne (- n) d = (- zdiv_rne n d)%Z.
Proof.
  intro H. rewrite !zdiv_rne_spec by auto. rewrite opp_IZR.
  replace (- IZR n / IZR d)%R with (- (IZR n / IZR d))%R by (unfold Rdiv; ring).
  apply ZnearestE_opp.
Qed.

Lemma fmt_fixed_reads k q : 1 <= k -> py_float (fmt_fixed k q) = Some (rnd64 (decimal k q)).
Proof.
  intro K. destruct (literal_reads _ _ (fmt_fixed_denotes k q K)) as (r & Hr & Hreads).
  rewrite Hr. f_equal.
  set (m := zdiv_rne (Z.abs (Qnum q) * 10 ^ Z.of_nat k) (Zpos (Qden q))) in *.
  assert (E : (decimal k q == inject_Z ((if (Qnum q <? 0)%Z then -1 else 1) * m) * ten_to (- Z.of_nat k))%Q).
  { unfold decimal, q_rint. cbn [Qmult inject_Z Qnum Qden]. rewrite Pos.mul_1_r.
    assert (M : zdiv_rne (Qnum q * 10 ^ Z.of_nat k) (Zpos (Qden q))
                = ((if (Qnum q <? 0)%Z then -1 else 1) * m)%Z).
    { unfold m. destruct (Z.ltb_spec (Qnum q) 0).
      - rewrite Z.abs_neq by lia. rewrite Z.mul_opp_l, zdiv_rne_opp by reflexivity. ring.
      - rewrite Z.abs_eq by lia. ring. }
    rewrite M, ten_to_neg. unfold Qdiv. apply Qmult_comp; [reflexivity|].
    assert (P : (0 < 10 ^ Z.of_nat k)%Z) by (apply Z.pow_pos_nonneg; lia).
    destruct (10 ^ Z.of_nat k)%Z eqn:T; try discriminate. reflexivity. }
  pose proof (rnd64_reads _ (decimal k q) E) as Hself.
  pose proof (reads_as_unique _ _ _ Hreads Hself) as U.
  destruct r as [v|b|], (rnd64 (decimal k q)) as [w|b'|] eqn:F; try discriminate.
  - simpl in U. apply Qeq_bool_eq in U. f_equal.
    apply red_eq; [eapply py_float_red; exact Hr|eapply rnd64_red; exact F|exact U].
  - simpl in U. apply Bool.eqb_prop in U. congruence.
Qed.

Lemma fmt_float_reads k x : 1 <= k -> py_float (fmt_float k x) = Some (as_printed k x).
Proof.
  intro K. destruct x as [q|[|]|]; [apply fmt_fixed_reads; auto| | |]; reflexivity.
Qed.

Lemma num_no_comma s : Forall num_char s -> map (fun c => if Ascii.eqb c "," then "."%char else c) s = s.
Proof.
  induction 1 as [|c s H _ IH]; simpl; auto. rewrite IH. f_equal.
  destruct (Ascii.eqb_spec c ","); auto. subst. exfalso. unfold num_char in H. simpl in H.
  repeat (destruct H as [H|H]; [discriminate|]). exact H.
Qed.

Lemma fmt_float_number k x : 1 <= k -> number_of (fmt_float k x) = Some (as_printed k x).
Proof.
  intro K. unfold number_of.
  replace (map _ (fmt_float k x)) with (fmt_float k x); [apply fmt_float_reads; auto|].
  symmetry. destruct x as [q|[|]|]; [apply num_no_comma, fmt_fixed_num| | |]; reflexivity.
Qed.

Lemma num_not_space c : num_char c -> is_space c = false.
Proof.
  unfold num_char. simpl. intro H. repeat (destruct H as [<-|H]; [reflexivity|]). contradiction.
Qed.

Lemma fmt_fixed_nonnil k q : fmt_fixed k q <> [].
Proof.
  unfold fmt_fixed. destruct (Qnum q <? 0)%Z; [discriminate|].
  intro H. apply app_eq_nil in H. destruct H. discriminate.
Qed.

Lemma fmt_float_word k x : is_word (fmt_float k x).
Proof.
  destruct x as [q|[|]|]; simpl.
  - split; [apply fmt_fixed_nonnil|]. eapply Forall_impl; [|apply fmt_fixed_num].
    intro c; apply num_not_space.
  - split; [discriminate|repeat constructor].
  - split; [discriminate|repeat constructor].
  - split; [discriminate|repeat constructor].
Qed.

Lemma dec_nonnil n : dec n <> [].
Proof. unfold dec. simpl. intro H. apply app_eq_nil in H. destruct H; discriminate. Qed.

Lemma fmt_int_word n : is_word (fmt_int n).
Proof.
  split.
  - unfold fmt_int. destruct (n <? 0)%Z; [discriminate|apply dec_nonnil].
  - eapply Forall_impl; [|apply fmt_int_num]. intro c; apply num_not_space.
Qed.

Lemma fmt_nat_reads n : py_int (fmt_int (Z.of_nat n)) = Some (Z.of_nat n).
Proof.
  unfold fmt_int. destruct (Z.ltb_spec (Z.of_nat n) 0); [lia|].
  destruct (dec_spells (Z.of_nat n)) as (ds & S1 & S2); [lia|].
  pose proof (py_int_spec [] 1 _ _ sg_none S1) as P.
  rewrite Z.mul_1_l, S2 in P. exact P.
Qed.

(** ** Texts made of words *)

Definition sp : ascii := " "%char.
Definition line_of (l : list str) : str := join_on sp l.
Definition text_of (ls : list (list str)) : str := concat (map (fun l => line_of l ++ NLS) ls).

Definition good_line (l : list str) : Prop :=
  l <> [] /\ Forall is_word l /\ hd_error (hd [] l) <> Some "#"%char.

Lemma word_no_eol w : is_word w -> no_eol w.
Proof.
  intros (_ & H) c Hc. rewrite Forall_forall in H. specialize (H c Hc).
  split; intros ->; discriminate.
Qed.

Lemma line_no_eol l : Forall is_word l -> no_eol (line_of l).
Proof.
  unfold line_of. induction 1 as [|w l H _ IH]; [intros c []|].
  destruct l as [|w2 l]; [apply word_no_eol; auto|].
  change (join_on sp (w :: w2 :: l)) with (w ++ sp :: join_on sp (w2 :: l)).
  intros c Hc. apply in_app_iff in Hc. destruct Hc as [Hc|[<-|Hc]].
  - apply (word_no_eol w); auto.
  - split; discriminate.
  - apply IH; auto.
Qed.

Lemma line_spaced l : l <> [] -> Forall is_word l -> spaced l (line_of l).
Proof.
  unfold line_of. intros N H. induction H as [|w l H _ IH]; [congruence|].
  destruct l as [|w2 l].
  - replace (join_on sp [w]) with ([] ++ w ++ []) by (simpl; apply app_nil_r).
    apply Spec_Parser.sp_one; auto; constructor.
  - change (join_on sp (w :: w2 :: l)) with ([] ++ w ++ [sp] ++ join_on sp (w2 :: l)).
    apply Spec_Parser.sp_cons; auto; try constructor; try discriminate.
    + reflexivity.
    + constructor.
    + apply IH. discriminate.
Qed.

(** Complete lines followed by a last piece without line end. *)
Lemma text_of_lines ls last : Forall good_line ls -> no_eol last ->
  text_lines (text_of ls ++ last) (map line_of ls ++ [last]).
Proof.
  intros H N. unfold text_of. induction H as [|l ls (_ & H & _) _ IH]; simpl.
  - constructor; auto.
  - rewrite <- !app_assoc. simpl. apply tl_lf; auto. apply line_no_eol; auto.
Qed.

Lemma content_app a b x y : content a x -> content b y -> content (a ++ b) (x ++ y).
Proof.
  intro H. induction H; simpl; auto.
  - intro Hb. apply ct_skip; auto.
  - intro Hb. apply ct_line; auto.
Qed.

Lemma lines_content ls : Forall good_line ls -> content (map line_of ls) ls.
Proof.
  induction 1 as [|l ls (N & W & Hh) _ IH]; simpl; [constructor|].
  destruct l as [|w ws]; [congruence|]. apply ct_line; auto. apply line_spaced; auto.
Qed.

Lemma text_of_content ls : Forall good_line ls -> text_content (text_of ls) ls.
Proof.
  intro H. exists (map line_of ls ++ [[]]). split.
  - rewrite <- (app_nil_r (text_of ls)). apply text_of_lines; auto. intros c [].
  - rewrite <- (app_nil_r ls) at 2. apply content_app; [apply lines_content; auto|].
    apply ct_skip; [left; constructor|constructor].
Qed.

(** ** Runs *)

Section Run.
  Variables (format outdir : str).
  Hypothesis Fok : extension format.

  Definition path_of (n : nat) : str := save_path outdir (image_name n format).
  Definition name_of (n : nat) : str := lit "images\" ++ image_name n format.
  Definition itoks (n : nat) : list str := [lit "i"; name_of n].
  Definition eline (l : list str) : event := EWrite (line_of l ++ NLS).

  Lemma name_word n : is_word (name_of n).
  Proof.
    split; [discriminate|]. unfold name_of, image_name. repeat (apply Forall_app; split).
    - repeat constructor.
    - repeat constructor.
    - apply (fmt_int_word (Z.of_nat n)).
    - repeat constructor.
    - eapply Forall_impl; [|exact Fok]. intros c (H & _). exact H.
  Qed.

  Lemma itoks_good n : good_line (itoks n) /\ is_image (itoks n) = true.
  Proof.
    split; [|reflexivity]. split; [discriminate|]. split; [|discriminate].
    constructor; [split; [discriminate|repeat constructor]|].
    constructor; [apply name_word|constructor].
  Qed.

  Definition no_i (l : list str) : Prop := hd_error (hd [] l) <> Some "i"%char.

  Lemma no_i_image l : no_i l -> is_image l = false.
  Proof.
    intro H. unfold is_image, cmd. destruct (str_eqb (nth 0 l []) (lit "i")) eqn:E; auto.
    apply str_eqb_eq in E. exfalso. apply H. destruct l; [discriminate|]. simpl in *. rewrite E. reflexivity.
  Qed.

  (** The events [es] write the lines [ls] and save images [n] to [m-1], each
      directly after its line. *)
  Inductive trace : nat -> list (list str) -> list event -> nat -> Prop :=
  | tr_nil n : trace n [] [] n
  | tr_line n l ls es m : good_line l -> no_i l ->
      trace n ls es m -> trace n (l :: ls) (eline l :: es) m
  | tr_image n img ls es m : trace (S n) ls es m ->
      trace n (itoks n :: ls) (eline (itoks n) :: ESave (path_of n) img :: es) m.

  Lemma trace_app n ls es m ls' es' k :
    trace n ls es m -> trace m ls' es' k -> trace n (ls ++ ls') (es ++ es') k.
  Proof.
    intro H. revert k. induction H; intros k' H'; simpl; auto.
    - apply tr_line; auto.
    - apply tr_image; auto.
  Qed.

  Definition runs (n : nat) (ls : list (list str)) (m : nat) (o : outcome nat) : Prop :=
    exists ls' m', trace n ls' (fst o) m' /\
      (forall k, snd o = Ok k -> k = m /\ m' = m /\ ls' = ls).

  Lemma runs_then n ls m ls2 k o f :
    runs n ls m o -> runs m ls2 k (f m) -> runs n (ls ++ ls2) k (then_ o f).
  Proof.
    intros (l1 & m1 & T1 & E1) (l2 & m2 & T2 & E2). destruct o as (es, [a|e]); simpl in *.
    - destruct (E1 a eq_refl) as (-> & -> & ->). destruct (f m) as (es', r). simpl in *.
      exists (ls ++ l2), m2. split; [eapply trace_app; eauto|].
      intros k' H. destruct (E2 k' H) as (-> & -> & ->). auto.
    - exists l1, m1. split; auto. intros k' H. discriminate.
  Qed.

  Fixpoint ideals {A} (ideal : A -> nat -> list (list str)) (cnt : A -> nat) (l : list A) (n : nat)
    : list (list str) :=
    match l with [] => [] | a :: l' => ideal a n ++ ideals ideal cnt l' (n + cnt a) end.
  Definition total {A} (cnt : A -> nat) (l : list A) : nat := list_sum (map cnt l).

  Lemma for_each_runs {A} (body : A -> nat -> outcome nat) ideal cnt l :
    (forall a n, In a l -> runs n (ideal a n) (n + cnt a) (body a n)) ->
    forall n, runs n (ideals ideal cnt l n) (n + total cnt l) (for_each body l n).
  Proof.
    induction l as [|a l IH]; intros H n; simpl.
    - exists [], n. split; [constructor|]. simpl. intros k E. injection E as <-.
      unfold total; simpl. repeat split; lia.
    - unfold total. simpl. rewrite Nat.add_assoc.
      apply (runs_then _ _ (n + cnt a)); [apply H; left; auto|].
      apply IH. intros; apply H; right; auto.
  Qed.

  Lemma one_image_runs c ds x n :
    runs n [itoks n] (n + 1) (one_image c ds format outdir x n).
  Proof.
    unfold one_image. destruct (grab c (ds n)) as [img|e]; simpl.
    - exists [itoks n], (S n). split; [apply (tr_image n _ [] []); constructor|].
      intros k E. injection E as <-. repeat split; lia.
    - exists [], n. split; [constructor|]. discriminate.
  Qed.

  Definition htoks (li : light) (t : pyfloat) (r : radiance) : list str :=
    if feq (l_mean li r) fzero then [lit "d"; fmt_float 1 t]
    else [lit "b"; fmt_float 1 t; fmt_float 3 (np_round 3 (l_photons li t r))].

  Lemma htoks_line li t r : write (descriptor_line li t r ++ NLS) = ([eline (htoks li t r)], Ok tt).
  Proof.
    unfold write, eline, htoks, descriptor_line, line_of. destruct (feq _ _); [reflexivity|].
    change (lit "b ") with (lit "b" ++ [sp]). change (lit " ") with [sp].
    cbn [join_on]. repeat (rewrite <- app_assoc; cbn [app]). reflexivity.
  Qed.

  Lemma lit_word x : negb (str_eqb (lit x) []) = true -> forallb (fun c => negb (is_space c)) (lit x) = true ->
    is_word (lit x).
  Proof.
    intros N H. split.
    - intro E. rewrite E in N. discriminate.
    - apply forallb_Forall_true in H. eapply Forall_impl; [|exact H]. intros c Hc.
      apply negb_true_iff in Hc. exact Hc.
  Qed.

  Lemma htoks_good li t r : good_line (htoks li t r) /\ no_i (htoks li t r) /\
    is_header (htoks li t r) = true.
  Proof.
    unfold htoks. destruct (feq _ _).
    - split; [|split; [discriminate|reflexivity]]. split; [discriminate|]. split; [|discriminate].
      constructor; [apply lit_word; reflexivity|]. constructor; [apply fmt_float_word|constructor].
    - split; [|split; [discriminate|reflexivity]]. split; [discriminate|]. split; [|discriminate].
      constructor; [apply lit_word; reflexivity|]. constructor; [apply fmt_float_word|].
      constructor; [apply fmt_float_word|constructor].
  Qed.

  Lemma ideals_images L : forall a n, ideals (fun (_ : nat) n => [itoks n]) (fun _ => 1) (seq a L) n
    = map itoks (seq n L).
  Proof. induction L; intros a n; simpl; auto. rewrite IHL, Nat.add_1_r. reflexivity. Qed.

  Lemma total_ones {A} (l : list A) : total (fun _ => 1) l = length l.
  Proof. induction l; simpl; auto. unfold total in *. simpl. lia. Qed.

  Lemma runs_line n ls m l (f : unit -> outcome nat) :
    good_line l -> no_i l -> runs n ls m (f tt) -> runs n (l :: ls) m (then_ ([eline l], Ok tt) f).
  Proof.
    intros G I (l1 & m1 & T & E). simpl. destruct (f tt) as (es, r) eqn:F. simpl in *.
    exists (l :: l1), m1. split; [constructor; auto|]. intros k H. destruct (E k H) as (-> & -> & ->). auto.
  Qed.

  Lemma one_radiance_runs li c ds L t r n :
    runs n (htoks li t r :: map itoks (seq n L)) (n + L) (one_radiance li c ds format outdir L t r n).
  Proof.
    unfold one_radiance. rewrite htoks_line. destruct (htoks_good li t r) as (G & I & _).
    apply runs_line; auto.
    pose proof (for_each_runs (one_image c ds format outdir) (fun _ n => [itoks n]) (fun _ => 1) (seq 0 L)
                  (fun a n _ => one_image_runs c ds a n) n) as R.
    rewrite ideals_images, total_ones, seq_length in R. exact R.
  Qed.

  Definition shot_toks (li : light) (L : nat) (s : shot) (n : nat) : list (list str) :=
    htoks li (s_exposure s) (s_radiance s) :: map itoks (seq n (images_in L s)).

  Lemma ideals_app {A} ideal cnt (l l' : list A) : forall n,
    ideals ideal cnt (l ++ l') n = ideals ideal cnt l n ++ ideals ideal cnt l' (n + total cnt l).
  Proof.
    induction l; intro n; simpl.
    - unfold total. simpl. rewrite Nat.add_0_r. reflexivity.
    - rewrite IHl, <- app_assoc. unfold total. simpl. rewrite Nat.add_assoc. reflexivity.
  Qed.

  Lemma total_app {A} (cnt : A -> nat) l l' : total cnt (l ++ l') = total cnt l + total cnt l'.
  Proof. unfold total. rewrite map_app, list_sum_app. reflexivity. Qed.

  Lemma ideals_map {A B} (f : A -> B) ideal cnt l : forall n,
    ideals ideal cnt (map f l) n = ideals (fun a => ideal (f a)) (fun a => cnt (f a)) l n.
  Proof. induction l; intro n; simpl; auto. rewrite IHl. reflexivity. Qed.

  Lemma total_map {A B} (f : A -> B) cnt l : total cnt (map f l) = total (fun a => cnt (f a)) l.
  Proof. unfold total. rewrite map_map. reflexivity. Qed.

  Lemma ideals_flat {A B} (f : A -> list B) ideal cnt l : forall n,
    ideals ideal cnt (flat_map f l) n = ideals (fun a => ideals ideal cnt (f a)) (fun a => total cnt (f a)) l n.
  Proof. induction l; intro n; simpl; auto. rewrite ideals_app, IHl. reflexivity. Qed.

  Lemma total_flat {A B} (f : A -> list B) cnt l : total cnt (flat_map f l) = total (fun a => total cnt (f a)) l.
  Proof. induction l; simpl; auto. rewrite total_app, IHl. reflexivity. Qed.

  Definition kind_L (L : nat) (k : kind) : nat := match k with Spatial => L | Temporal => 2 end.

  Lemma one_exposure_runs li c ds L k tr n :
    runs n (ideals (shot_toks li L) (images_in L) (map (mkShot k (fst tr)) (snd tr)) n)
      (n + total (images_in L) (map (mkShot k (fst tr)) (snd tr)))
      (one_exposure li c ds format outdir (kind_L L k) tr n).
  Proof.
    destruct tr as (t, rs). unfold one_exposure. simpl fst; simpl snd.
    rewrite ideals_map, total_map. apply for_each_runs. intros r m _.
    replace (images_in L (mkShot k t r)) with (kind_L L k) by (destruct k; reflexivity).
    unfold shot_toks. simpl s_exposure; simpl s_radiance.
    replace (images_in L (mkShot k t r)) with (kind_L L k) by (destruct k; reflexivity).
    apply one_radiance_runs.
  Qed.

  Lemma one_kind_runs li c ds L p k n :
    runs n (ideals (shot_toks li L) (images_in L) (shots_of k (points_of k p)) n)
      (n + total (images_in L) (shots_of k (points_of k p)))
      (one_kind li c ds format outdir L p k n).
  Proof.
    unfold one_kind, shots_of. rewrite ideals_flat, total_flat. apply for_each_runs.
    intros tr m _. apply (one_exposure_runs li c ds L k tr m).
  Qed.

  Lemma all_kinds_runs li c ds L p :
    runs 0 (ideals (shot_toks li L) (images_in L) (shots p) 0) (total (images_in L) (shots p))
      (for_each (one_kind li c ds format outdir L p) [Temporal; Spatial] 0).
  Proof.
    pose proof (for_each_runs (one_kind li c ds format outdir L p)
      (fun k => ideals (shot_toks li L) (images_in L) (shots_of k (points_of k p)))
      (fun k => total (images_in L) (shots_of k (points_of k p))) [Temporal; Spatial]
      (fun k n _ => one_kind_runs li c ds L p k n) 0) as R.
    unfold shots. rewrite ideals_app, total_app. cbn [ideals] in R. rewrite app_nil_r in R.
    match type of R with runs _ _ (0 + ?T) _ =>
      replace T with (total (images_in L) (shots_of Temporal (points_of Temporal p))
                      + total (images_in L) (shots_of Spatial (points_of Spatial p))) in R end.
    - exact R.
    - unfold total at 3. simpl. rewrite Nat.add_0_r. reflexivity.
  Qed.

  (** ** What a trace says *)

  Lemma trace_le n ls es m : trace n ls es m -> n <= m.
  Proof. induction 1; lia. Qed.

  Lemma trace_good n ls es m : trace n ls es m -> Forall good_line ls.
  Proof. induction 1; constructor; auto. apply itoks_good. Qed.

  Lemma trace_written n ls es m : trace n ls es m -> written es = text_of ls.
  Proof.
    induction 1; auto.
    - change (written (eline l :: es)) with ((line_of l ++ NLS) ++ written es). rewrite IHtrace. reflexivity.
    - change (written (eline (itoks n) :: ESave (path_of n) img :: es))
        with ((line_of (itoks n) ++ NLS) ++ written es).
      rewrite IHtrace. reflexivity.
  Qed.

  Lemma trace_saved n ls es m : trace n ls es m -> saved es = map path_of (seq n (m - n)).
  Proof.
    induction 1; auto.
    - rewrite Nat.sub_diag. reflexivity.
    - change (saved (eline (itoks n) :: ESave (path_of n) img :: es)) with (path_of n :: saved es).
      rewrite IHtrace. pose proof (trace_le _ _ _ _ H).
      replace (m - n) with (S (m - S n)) by lia. reflexivity.
  Qed.

  Lemma trace_named n ls es m : trace n ls es m -> named ls = map name_of (seq n (m - n)).
  Proof.
    unfold named. induction 1; auto.
    - rewrite Nat.sub_diag. reflexivity.
    - cbn [filter]. rewrite (no_i_image l H0). exact IHtrace.
    - pose proof (trace_le _ _ _ _ H). replace (m - n) with (S (m - S n)) by lia.
      change (filter is_image (itoks n :: ls)) with (itoks n :: filter is_image ls).
      cbn [map seq]. rewrite IHtrace. reflexivity.
  Qed.

  (** Stopping anywhere. *)
  Lemma trace_prefix n ls es m : trace n ls es m -> forall a b, es = a ++ b ->
    exists ls' k, n <= k /\ saved a = map path_of (seq n (k - n)) /\
      (trace n ls' a k \/
       exists ls0 a0, ls' = ls0 ++ [itoks k] /\ a = a0 ++ [eline (itoks k)] /\ trace n ls0 a0 k).
  Proof.
    induction 1 as [n|n l ls es m G I T IH|n img ls es m T IH]; intros a b E.
    - symmetry in E. apply app_eq_nil in E. destruct E as (-> & ->).
      exists [], n. rewrite Nat.sub_diag. repeat split; auto. left. constructor.
    - destruct a as [|x a].
      + exists [], n. rewrite Nat.sub_diag. repeat split; auto. left. constructor.
      + injection E as <- E. destruct (IH a b E) as (ls' & k & L & Sv & H).
        exists (l :: ls'), k. split; auto. split; [exact Sv|].
        destruct H as [H|(ls0 & a0 & -> & -> & H)].
        * left. apply tr_line; auto.
        * right. exists (l :: ls0), (eline l :: a0). split; auto. split; auto. apply tr_line; auto.
    - destruct a as [|x [|y a]].
      + exists [], n. rewrite Nat.sub_diag. repeat split; auto. left. constructor.
      + injection E as <- _. exists [itoks n], n. rewrite Nat.sub_diag. split; auto. split; auto.
        right. exists [], []. split; auto. split; auto. constructor.
      + injection E as <- <- E. destruct (IH a b E) as (ls' & k & L & Sv & H).
        exists (itoks n :: ls'), k. split; [lia|]. split.
        * change (saved (eline (itoks n) :: ESave (path_of n) img :: a)) with (path_of n :: saved a).
          rewrite Sv. replace (k - n) with (S (k - S n)) by lia. reflexivity.
        * destruct H as [H|(ls0 & a0 & -> & -> & H)].
          -- left. apply tr_image; auto.
          -- right. exists (itoks n :: ls0), (eline (itoks n) :: ESave (path_of n) img :: a0).
             split; auto. split; auto. apply tr_image; auto.
  Qed.
End Run.
