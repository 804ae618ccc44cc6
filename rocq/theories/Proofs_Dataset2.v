(** Generated descriptors parse back; stopping a run. *)
From Coq Require Import Ascii String List Bool Arith ZArith QArith Lia Permutation.
From Verif Require Import Base_Prelude Base_Str Base_Num Base_Order Base_Float Model_Path Model_Parser
  Model_Camera Model_Points Model_Dataset Spec_Parser Spec_Dataset
  Proofs_Str Proofs_Path Proofs_Repr Proofs_Parser Proofs_Parser2 Proofs_Dataset.
Import ListNotations.
Open Scope nat_scope.

Definition vtoks (version : str) : list str := [lit "v"; version].
Definition ntoks (c : camera) : list str :=
  [lit "n"; fmt_int (Z.of_nat (c_bits c)); fmt_int (Z.of_nat (c_width c)); fmt_int (Z.of_nat (c_height c))].

Lemma vtoks_good version : is_word version -> good_line (vtoks version) /\ no_i (vtoks version).
Proof.
  intro W. split; [|discriminate]. split; [discriminate|]. split; [|discriminate].
  constructor; [apply lit_word; reflexivity|]. constructor; [exact W|constructor].
Qed.

Lemma ntoks_good c : good_line (ntoks c) /\ no_i (ntoks c).
Proof.
  split; [|discriminate]. split; [discriminate|]. split; [|discriminate].
  constructor; [apply lit_word; reflexivity|]. repeat (constructor; [apply fmt_int_word|]). constructor.
Qed.

Definition all_toks (format : str) (li : light) (L : nat) (p : points) : list (list str) :=
  ideals (shot_toks format li L) (images_in L) (shots p) 0.

Lemma run_test_trace li c ds version format outdir L p es r :
  extension format -> is_word version ->
  run_test li c ds version format outdir L p = (es, r) ->
  exists ls m, trace format outdir 0 ls es m /\
    (forall f, r = Ok f -> f = descriptor_path outdir /\ m = total (images_in L) (shots p) /\
       ls = vtoks version :: ntoks c :: all_toks format li L p).
Proof.
  intros Fok Wv E. unfold run_test in E.
  replace (write (lit "v " ++ version ++ NLS)) with ([eline (vtoks version)], @Ok unit tt) in E by reflexivity.
  match type of E with context[write (lit "n " ++ ?x)] =>
    replace (write (lit "n " ++ x)) with ([eline (ntoks c)], @Ok unit tt) in E end.
  2:{ unfold write, eline, ntoks, line_of. change (lit "n ") with (lit "n" ++ [sp]). change (lit " ") with [sp].
      cbn [join_on]. repeat (rewrite <- app_assoc; cbn [app]). reflexivity. }
  destruct (all_kinds_runs format outdir li c ds L p) as (ls & m & T & R).
  destruct (for_each _ _ 0) as (es0, r0). simpl in T, R.
  destruct (vtoks_good version Wv) as (Gv & Iv). destruct (ntoks_good c) as (Gn & In_).
  destruct r0 as [k|e]; simpl in E; injection E as <- <-.
  - rewrite app_nil_r. exists (vtoks version :: ntoks c :: ls), m.
    split; [repeat (apply tr_line; auto)|]. intros f H. injection H as <-.
    destruct (R k eq_refl) as (-> & -> & ->). auto.
  - exists (vtoks version :: ntoks c :: ls), m.
    split; [repeat (apply tr_line; auto)|]. discriminate.
Qed.

(** ** Paths *)

Lemma to_sep_skip a b : ~ In SEP a -> to_sep (a ++ b) = to_sep b.
Proof.
  induction a as [|c a IH]; intro H; simpl; auto.
  destruct (chr_eqb c SEP) eqn:E; [apply chr_eqb_eq in E; subst; exfalso; apply H; left; auto|].
  apply IH. intro I. apply H. right. exact I.
Qed.

Lemma dirname_descriptor outdir : ends_with_sep outdir = false -> dirname (descriptor_path outdir) = outdir.
Proof.
  intro E. unfold descriptor_path, path_join. cbn [fold_left]. unfold path_join2.
  change (starts_with_sep (lit "EMVA1288descriptor.txt")) with false. cbn iota.
  destruct outdir as [|x o] eqn:D; [reflexivity|]. rewrite <- D in *. rewrite E.
  unfold dirname. rewrite rev_app_distr. simpl rev at 2.
  replace (to_sep ((rev (lit "EMVA1288descriptor.txt") ++ [SEP]) ++ rev outdir)) with (SEP :: rev outdir).
  2:{ rewrite <- app_assoc. rewrite to_sep_skip; [reflexivity|].
      intro I. vm_compute in I. repeat (destruct I as [I|I]; [discriminate|]). exact I. }
  simpl rev. rewrite rev_involutive.
  assert (N : rev outdir <> []).
  { rewrite D. simpl. intro H. apply app_eq_nil in H. destruct H; discriminate. }
  unfold ends_with_sep in E. destruct (rev outdir) as [|c r] eqn:R; [congruence|].
  assert (O : outdir = rev r ++ [c]) by (rewrite <- (rev_involutive outdir), R; reflexivity).
  rewrite O. replace (forallb _ _) with false.
  - unfold rstrip_sep. rewrite rev_app_distr, rev_app_distr. simpl. rewrite E.
    simpl. rewrite rev_involutive. reflexivity.
  - symmetry. rewrite !forallb_app. simpl. rewrite E. rewrite andb_false_r. reflexivity.
Qed.

Lemma image_name_chars n format c : extension format -> In c (image_name n format) -> c <> SEP /\ c <> BSL.
Proof.
  intros F H. unfold image_name in H. rewrite !in_app_iff in H. destruct H as [H|[H|[H|H]]].
  - vm_compute in H. repeat (destruct H as [<-|H]; [split; discriminate|]). contradiction.
  - pose proof (fmt_int_num (Z.of_nat n)) as G. rewrite Forall_forall in G. apply G in H.
    unfold num_char in H. simpl in H.
    repeat (destruct H as [<-|H]; [split; discriminate|]). contradiction.
  - vm_compute in H. repeat (destruct H as [<-|H]; [split; discriminate|]). contradiction.
  - unfold extension in F. rewrite Forall_forall in F. apply F in H. tauto.
Qed.

Lemma image_path_of dir n format : extension format ->
  image_path dir (name_of format n) = save_path dir (image_name n format).
Proof.
  intro F. unfold image_path, save_path. f_equal.
  assert (NS : ~ In SEP (name_of format n)).
  { intro H. unfold name_of in H. apply in_app_iff in H. destruct H as [H|H].
    - vm_compute in H. repeat (destruct H as [H|H]; [discriminate|]). contradiction.
    - apply (image_name_chars n format SEP) in H; auto. tauto. }
  rewrite normpath_nosep; [|exact NS|discriminate].
  unfold name_of. change (lit "images\") with (lit "images" ++ [BSL]). rewrite <- app_assoc.
  simpl ([BSL] ++ _). rewrite Proofs_Path.split_on_app.
  rewrite (split_on_notin BSL (lit "images")).
  - rewrite split_on_notin; [reflexivity|].
    intro H. apply (image_name_chars n format BSL) in H; auto. tauto.
  - intro H. vm_compute in H. repeat (destruct H as [H|H]; [discriminate|]). contradiction.
Qed.

Lemma found_dir outdir f p : found outdir f p -> base_dir f p = outdir.
Proof.
  intros [->|(-> & -> & H)]; simpl; auto. apply dirname_descriptor; auto.
Qed.

(** ** Blocks *)

Fixpoint shot_blocks (format : str) (li : light) (L : nat) (ss : list shot) (n : nat)
  : list (list str * list (list str)) :=
  match ss with
  | [] => []
  | s :: ss' => (htoks li (s_exposure s) (s_radiance s), map (itoks format) (seq n (images_in L s)))
                :: shot_blocks format li L ss' (n + images_in L s)
  end.

Lemma ideals_blocks format li L ss : forall n,
  ideals (shot_toks format li L) (images_in L) ss n = render_blocks (shot_blocks format li L ss n).
Proof.
  induction ss as [|s ss IH]; intro n; [reflexivity|].
  cbn [ideals shot_blocks]. rewrite IH. reflexivity.
Qed.

Lemma shot_blocks_block format li L ss : forall n, Forall is_block (shot_blocks format li L ss n).
Proof.
  induction ss as [|s ss IH]; intro n; simpl; constructor; auto.
  split; simpl.
  - apply htoks_good.
  - apply Forall_forall. intros i H. apply in_map_iff in H. destruct H as (k & <- & _). reflexivity.
Qed.

Lemma htoks_denotes li L s e path imgs :
  length imgs = images_in L s -> 3 <= L ->
  block_denotes path (htoks li (s_exposure s) (s_radiance s), imgs) e ->
  records li L s e /\ e_files e = map (fun i => image_path path (nth 1 i [])) imgs.
Proof.
  intros Len HL (E & B & D & Fl & K). split; [|exact Fl].
  unfold records, listed_exposure, listed_photons. rewrite Fl, map_length.
  assert (X : number_of (fmt_float 1 (s_exposure s)) = Some (e_exposure e)).
  { unfold htoks in E. destruct (feq _ _); exact E. }
  rewrite fmt_float_number in X by lia. injection X as X.
  split; [|split; [auto|split; [|auto]]].
  - rewrite K, Len. unfold images_in. destruct (s_kind s); [reflexivity|].
    destruct (Nat.eqb_spec L 2); [lia|reflexivity].
  - unfold htoks in B, D. destruct (feq _ _).
    + apply D. reflexivity.
    + specialize (B eq_refl). change (nth 2 _ []) with (fmt_float 3 (np_round 3 (l_photons li (s_exposure s) (s_radiance s)))) in B.
      rewrite fmt_float_number in B by lia. injection B as B. auto.
Qed.

Lemma shots_denote format li L path : extension format -> 3 <= L -> forall ss n es,
  Forall2 (block_denotes path) (shot_blocks format li L ss n) es ->
  Forall2 (records li L) ss es /\
  concat (map e_files es) = map (fun i => save_path path (image_name i format)) (seq n (total (images_in L) ss)).
Proof.
  intros F HL. induction ss as [|s ss IH]; intros n es H; inversion H; subst.
  - split; [constructor|reflexivity].
  - destruct (IH _ _ H4) as (A & B).
    destruct (htoks_denotes li L s y path (map (itoks format) (seq n (images_in L s)))) as (C & D); auto.
    { rewrite map_length, seq_length. reflexivity. }
    split; [constructor; auto|]. cbn [map concat]. rewrite B, D, map_map.
    change (total (images_in L) (s :: ss)) with (images_in L s + total (images_in L) ss).
    rewrite seq_app, map_app. f_equal. apply map_ext. intro i. apply image_path_of; auto.
Qed.

Lemma ordpairs_transfer {A B} (R : A -> B -> Prop) (P : A -> A -> Prop) (Q : B -> B -> Prop) l m :
  (forall a b x y, P a b -> R a x -> R b y -> Q x y) ->
  Forall2 R l m -> ForallOrdPairs P l -> ForallOrdPairs Q m.
Proof.
  intros H F. induction F as [|a x l m Rax F IH]; intro O; [constructor|].
  inversion O as [|? ? Pa Ol]; subst. constructor; auto. clear IH O.
  induction F as [|b y l m Rby F IHF]; [constructor|].
  inversion Pa; subst. inversion Ol; subst. constructor; eauto.
Qed.

Lemma images_in_ge L s : 3 <= L -> 2 <= images_in L s.
Proof. unfold images_in. destruct (s_kind s); lia. Qed.

Lemma shot_lines_long format li L ss : forall n,
  Forall (fun l => 2 <= length l) (render_blocks (shot_blocks format li L ss n)).
Proof.
  induction ss as [|s ss IH]; intro n; [constructor|].
  unfold render_blocks. cbn [shot_blocks flat_map fst snd app]. constructor.
  - unfold htoks. destruct (feq _ _); simpl; lia.
  - apply Forall_app. split; [|apply IH].
    apply Forall_forall. intros i H. apply in_map_iff in H. destruct H as (k & <- & _). simpl. lia.
Qed.

Lemma shot_blocks_ok format li L ss : 3 <= L -> forall n, Forall block_ok (shot_blocks format li L ss n).
Proof.
  intro HL. induction ss as [|s ss IH]; intro n; [constructor|].
  cbn [shot_blocks]. constructor; [|apply IH]. split; [|split].
  - unfold header_ok, htoks. simpl fst. destruct (feq _ _).
    + split; [discriminate|]. intros _. split; [reflexivity|]. eexists. apply fmt_float_number. lia.
    + split; [|discriminate]. intros _. split; [reflexivity|].
      split; eexists; apply fmt_float_number; lia.
  - simpl. rewrite map_length, seq_length. apply images_in_ge; auto.
  - simpl. apply Forall_forall. intros i H. apply in_map_iff in H. destruct H as (k & <- & _). reflexivity.
Qed.

Lemma shots_well_formed format li L p version c path :
  extension format -> 3 <= L -> is_word version ->
  ForallOrdPairs (fun s s' => ~ listed_alike li s s') (shots p) ->
  well_formed path (vtoks version :: ntoks c :: all_toks format li L p).
Proof.
  intros F HL Wv O. unfold all_toks. rewrite ideals_blocks.
  set (bs := shot_blocks format li L (shots p) 0).
  assert (IB : Forall is_block bs) by apply shot_blocks_block.
  assert (Bl : blocks (vtoks version :: ntoks c :: render_blocks bs) = bs).
  { change (vtoks version :: ntoks c :: render_blocks bs) with ([vtoks version; ntoks c] ++ render_blocks bs).
    rewrite blocks_pre; [apply blocks_render; auto|]. constructor; [reflexivity|]. constructor; [reflexivity|constructor]. }
  assert (Fm : format_lines (vtoks version :: ntoks c :: render_blocks bs) = [ntoks c]).
  { change (vtoks version :: ntoks c :: render_blocks bs) with ([vtoks version; ntoks c] ++ render_blocks bs).
    rewrite format_lines_app, format_lines_render by auto. reflexivity. }
  unfold well_formed. rewrite Bl, Fm.
  split; [|split; [auto|split; [|split]]].
  - constructor; [simpl; lia|]. constructor; [simpl; lia|].
    apply shot_lines_long.
  - constructor; [|constructor]. split; [reflexivity|]. simpl nth.
    repeat split; eexists; apply fmt_nat_reads.
  - apply shot_blocks_ok; auto.
  - intros es Hes. destruct (shots_denote format li L path F HL _ _ _ Hes) as (R & _).
    eapply ordpairs_transfer; [|exact R|exact O].
    intros a b x y N (K1 & E1 & P1 & _) (K2 & E2 & P2 & _) (C1 & C2 & C3). apply N.
    unfold listed_alike. rewrite <- K1, <- K2, <- E1, <- E2, <- P1, <- P2. auto.
Qed.

Lemma parses_back li c ds version format outdir L p es file f path :
  extension format -> is_word version -> 3 <= L ->
  run_test li c ds version format outdir L p = (es, Ok file) ->
  found outdir f path ->
  ForallOrdPairs (fun s s' => ~ listed_alike li s s') (shots p) ->
  exists d entries', parse_file f path (Some (written es)) = Ok d /\
    d_version d = Some version /\
    d_format d = Some (Z.of_nat (c_bits c), Z.of_nat (c_width c), Z.of_nat (c_height c)) /\
    Permutation (entries d) entries' /\
    Forall2 (records li L) (shots p) entries' /\
    concat (map e_files entries') = saved es.
Proof.
  intros F Wv HL E Hf O. destruct (run_test_trace li c ds version format outdir L p es (Ok file) F Wv E)
    as (ls & m & T & R). destruct (R file eq_refl) as (_ & -> & ->).
  pose proof (trace_good format outdir F _ _ _ _ T) as G.
  pose proof (trace_written format outdir _ _ _ _ T) as W.
  pose proof (trace_saved format outdir _ _ _ _ T) as Sv. rewrite Nat.sub_0_r in Sv.
  pose proof (text_of_content _ G) as C. rewrite <- W in C.
  destruct (proj2 (accept_iff f path (written es) _ C)
     (shots_well_formed format li L p version c (base_dir f path) F HL Wv O)) as (d & D).
  destruct (blocks_to_entries f path _ _ _ C D) as (es' & B & P).
  destruct (version_format f path _ _ _ C D) as (V & Fm & _).
  set (bs := shot_blocks format li L (shots p) 0) in *.
  assert (Et : vtoks version :: ntoks c :: all_toks format li L p = [vtoks version; ntoks c] ++ render_blocks bs).
  { unfold all_toks. rewrite ideals_blocks. reflexivity. }
  assert (IB : Forall is_block bs) by apply shot_blocks_block.
  exists d, es'. split; auto. split; [|split; [|split; auto]].
  - rewrite V, Et. change (version_of ?t) with (version_from None t).
    rewrite version_app, version_render by auto. reflexivity.
  - destruct (Fm (ntoks c)) as (b & w & h & Hb & Hw & Hh & X).
    + rewrite Et, format_lines_app. simpl. left. reflexivity.
    + simpl in Hb, Hw, Hh. rewrite fmt_nat_reads in Hb, Hw, Hh. congruence.
  - rewrite Et, blocks_pre in B by (constructor; [reflexivity|constructor; [reflexivity|constructor]]).
    rewrite blocks_render in B by auto.
    destruct (shots_denote format li L _ F HL _ _ _ B) as (R1 & R2). split; auto.
    rewrite R2, Sv. rewrite (found_dir outdir f path Hf). reflexivity.
Qed.

(** ** Stopping *)

Lemma text_of_app a b : text_of (a ++ b) = text_of a ++ text_of b.
Proof. unfold text_of. rewrite map_app, concat_app. reflexivity. Qed.

(** A prefix of a text is some complete lines and the beginning of the next. *)
Lemma text_prefix ls : forall t u, text_of ls = t ++ u ->
  exists ls1 ls2 q, ls = ls1 ++ ls2 /\ t = text_of ls1 ++ q /\
    (q = [] \/ exists l ls3 q', ls2 = l :: ls3 /\ line_of l = q ++ q').
Proof.
  induction ls as [|l ls IH]; intros t u E.
  - symmetry in E. apply app_eq_nil in E. destruct E as (-> & _). exists [], [], []. auto.
  - change (text_of (l :: ls)) with ((line_of l ++ NLS) ++ text_of ls) in E. rewrite <- app_assoc in E.
    assert (C : (exists q', line_of l = t ++ q') \/ exists t', t = line_of l ++ NLS ++ t' /\ text_of ls = t' ++ u).
    { revert t E. generalize (line_of l) as l0. induction l0 as [|c l0 IHl]; intros t E.
      - destruct t as [|x t]; [left; exists []; reflexivity|]. simpl in E. injection E as <- E.
        right. exists t. auto.
      - destruct t as [|x t]; [left; exists (c :: l0); reflexivity|]. simpl in E. injection E as <- E.
        destruct (IHl t E) as [(q' & ->)|(t' & -> & E')].
        + left. exists q'. reflexivity.
        + right. exists t'. auto. }
    destruct C as [(q' & Q)|(t' & -> & E')].
    + exists [], (l :: ls), t. split; auto. split; auto. right. exists l, ls, q'. auto.
    + destruct (IH t' u E') as (ls1 & ls2 & q & -> & -> & H).
      exists (l :: ls1), ls2, q. split; auto. split; auto.
      change (text_of (l :: ls1)) with ((line_of l ++ NLS) ++ text_of ls1). rewrite <- !app_assoc. reflexivity.
Qed.

Lemma content_one q toks : content [q] toks -> toks = [] \/ exists ws, toks = [ws] /\ spaced ws q.
Proof.
  intro H. inversion H as [| ? ? ? C R|? w ws ? ? S1 N R]; subst; inversion R; subst; auto.
  right. eexists. split; eauto.
Qed.

Lemma split_ws_first c s : is_space c = false -> exists w ws, split_ws (c :: s) = (c :: w) :: ws.
Proof.
  intro H. unfold split_ws. simpl. rewrite H.
  assert (G : forall cur, cur <> [] -> exists w ws, split_ws_aux cur s = (rev cur ++ w) :: ws).
  { clear. induction s as [|x s IH]; intros cur N; simpl.
    - destruct cur; [congruence|]. exists [], []. rewrite app_nil_r. reflexivity.
    - destruct (is_space x).
      + destruct cur; [congruence|]. exists []. rewrite app_nil_r. eexists. reflexivity.
      + destruct (IH (x :: cur)) as (w & ws & E); [discriminate|]. exists (x :: w), ws. rewrite E.
        simpl. rewrite <- app_assoc. reflexivity. }
  destruct (G [c]) as (w & ws & E); [discriminate|]. exists w, ws. exact E.
Qed.

(** The beginning of a line without an image names no image. *)
Lemma cut_no_image l q q' toks : good_line l -> no_i l -> line_of l = q ++ q' -> content [q] toks ->
  named toks = [].
Proof.
  intros (N & W & _) NI E C. destruct (content_one _ _ C) as [->|(ws & -> & S1)]; [reflexivity|].
  apply spaced_split in S1. destruct l as [|w l]; [congruence|].
  inversion W as [|? ? (Nw & Ww) _]; subst. destruct w as [|c w]; [congruence|].
  assert (Ec : exists r, q ++ q' = c :: r) by (rewrite <- E; unfold line_of; destruct l; simpl; eauto).
  clear E. destruct Ec as (r & E). destruct q as [|x q].
  - reflexivity.
  - simpl in E. injection E as -> E. inversion Ww; subst.
    destruct (split_ws_first c q) as (w' & ws' & F); auto. rewrite F.
    unfold named. cbn [filter]. replace (is_image ((c :: w') :: ws')) with false; auto.
    symmetry. apply no_i_image. intro H. apply NI. simpl in *. exact H.
Qed.

Lemma named_app a b : named (a ++ b) = named a ++ named b.
Proof. unfold named. rewrite filter_app, map_app. reflexivity. Qed.

(** Lines of a trace. *)
Definition some_line (format : str) (l : list str) : Prop :=
  good_line l /\ (no_i l \/ exists k, l = itoks format k).

Lemma trace_lines format outdir n ls es m : extension format -> trace format outdir n ls es m ->
  Forall (some_line format) ls.
Proof.
  intros F H. induction H; constructor; auto.
  - split; auto.
  - split; [apply itoks_good; auto|]. right. eauto.
Qed.

Lemma map_seq_app {A} (f : nat -> A) a b n k :
  a ++ b = map f (seq n k) -> a = map f (seq n (length a)) /\ length a + length b = k.
Proof.
  intro E. assert (L : length a + length b = k).
  { rewrite <- app_length, E, map_length, seq_length. reflexivity. }
  split; auto. rewrite <- L, seq_app, map_app in E.
  apply (f_equal (firstn (length a))) in E. rewrite firstn_app, Nat.sub_diag, firstn_all in E.
  rewrite firstn_app, map_length, seq_length, Nat.sub_diag in E. simpl in E.
  rewrite !app_nil_r in E. rewrite E at 1. rewrite firstn_all2; auto.
  rewrite map_length, seq_length. auto.
Qed.

Lemma stopped li c ds version format outdir L p es r a b t u toks :
  extension format -> is_word version ->
  run_test li c ds version format outdir L p = (es, r) ->
  es = a ++ b -> written a = t ++ u -> text_content t toks ->
  exists k m rest,
    saved a = map (fun i => save_path outdir (image_name i format)) (seq 0 k) /\
    named toks = map (fun i => lit "images\" ++ image_name i format) (seq 0 m) ++ rest /\
    (rest = [] /\ m <= S k \/ length rest = 1 /\ m <= k).
Proof.
  intros F Wv E -> W C.
  destruct (run_test_trace li c ds version format outdir L p _ r F Wv E) as (ls0 & m0 & T & _).
  destruct (trace_prefix format outdir _ _ _ _ T a b eq_refl) as (ls & k & _ & Sv & H).
  rewrite Nat.sub_0_r in Sv.
  assert (X : written a = text_of ls /\ Forall (some_line format) ls /\
              exists j, named ls = map (name_of format) (seq 0 j) /\ j <= S k).
  { destruct H as [H|(ls1 & a0 & -> & -> & H)].
    - split; [eapply trace_written; eauto|]. split; [eapply trace_lines; eauto|].
      exists k. pose proof (trace_named format outdir _ _ _ _ H) as N. rewrite Nat.sub_0_r in N. auto.
    - split; [|split].
      + rewrite text_of_app. unfold written. rewrite map_app, concat_app.
        pose proof (trace_written format outdir _ _ _ _ H) as W0. unfold written in W0. rewrite W0. reflexivity.
      + apply Forall_app. split; [eapply trace_lines; eauto|]. constructor; [|constructor].
        split; [apply itoks_good; auto|]. right. eauto.
      + exists (S k). split; auto. rewrite named_app.
        pose proof (trace_named format outdir _ _ _ _ H) as N. rewrite Nat.sub_0_r in N. rewrite N.
        rewrite seq_S, map_app. reflexivity. }
  destruct X as (W' & G & j & N & J). rewrite W' in W.
  destruct (text_prefix ls t u W) as (ls1 & ls2 & q & -> & -> & Q).
  apply Forall_app in G. destruct G as (G1 & G2). rewrite named_app in N.
  destruct (map_seq_app _ _ _ _ _ N) as (N1 & N2).
  assert (Gl : Forall good_line ls1) by (eapply Forall_impl; [|exact G1]; intros l (A & _); exact A).
  assert (NE : no_eol q).
  { destruct Q as [->|(l & ls3 & q' & -> & Ql)]; [intros x []|].
    inversion G2 as [|? ? (A & _) _]; subst. intros x Hx. apply (line_no_eol l); [apply A|].
    rewrite Ql. apply in_app_iff. left. exact Hx. }
  destruct (content_exists [q]) as (tq & Cq).
  assert (Et : toks = ls1 ++ tq).
  { eapply text_content_unique; [exact C|]. exists (map line_of ls1 ++ [q]). split.
    - apply text_of_lines; auto.
    - apply content_app; auto. apply lines_content; auto. }
  exists k. rewrite Et, named_app. fold (name_of format).
  destruct Q as [->|(l & ls3 & q' & -> & Ql)].
  - exists (length (named ls1)), []. split; auto.
    replace (named tq) with (@nil str).
    + rewrite !app_nil_r. split; auto. left. split; auto. lia.
    + inversion Cq as [|? ? ? X R|? ? ? ? ? X Y R]; subst; [inversion R; reflexivity|].
      apply spaced_split in X. discriminate.
  - inversion G2 as [|? ? (A & B) _]; subst. destruct B as [B|(i & ->)].
    + exists (length (named ls1)), []. split; auto. rewrite (cut_no_image l q q' tq A B Ql Cq).
      rewrite !app_nil_r. split; auto. left. split; auto. lia.
    + assert (Len : length (named tq) <= 1).
      { destruct (content_one _ _ Cq) as [->|(ws & -> & _)]; simpl; auto.
        unfold named. simpl. destruct (is_image ws); simpl; auto. }
      assert (Nl : length (named (itoks format i :: ls3)) = S (length (named ls3))) by reflexivity.
      exists (length (named ls1)), (named tq). split; auto. split; [exact (f_equal (fun x => x ++ named tq) N1)|].
      destruct (named tq) as [|x [|y z]] eqn:Eq; simpl in Len; [left|right|lia]; split; auto; lia.
Qed.

(** A completed run. *)
Lemma completed li c ds version format outdir L p es file toks :
  extension format -> is_word version ->
  run_test li c ds version format outdir L p = (es, Ok file) ->
  text_content (written es) toks ->
  exists k,
    saved es = map (fun i => save_path outdir (image_name i format)) (seq 0 k) /\
    named toks = map (fun i => lit "images\" ++ image_name i format) (seq 0 k) /\
    k = list_sum (map (images_in L) (shots p)).
Proof.
  intros F Wv E C.
  destruct (run_test_trace li c ds version format outdir L p _ _ F Wv E) as (ls & m & T & R).
  destruct (R file eq_refl) as (_ & Em & _).
  exists m. pose proof (trace_saved format outdir _ _ _ _ T) as S1.
  pose proof (trace_named format outdir _ _ _ _ T) as N. rewrite Nat.sub_0_r in *.
  split; auto. split; [|exact Em].
  replace toks with ls; [exact N|].
  eapply text_content_unique; [|exact C].
  rewrite (trace_written format outdir _ _ _ _ T). apply text_of_content. eapply trace_good; eauto.
Qed.

(** Names are different. *)
Lemma image_name_inj i j format : image_name i format = image_name j format -> i = j.
Proof.
  unfold image_name. intro E. apply app_inv_head in E.
  rewrite !app_assoc in E. apply app_inv_tail in E. apply app_inv_tail in E.
  assert (X : py_int (fmt_int (Z.of_nat i)) = py_int (fmt_int (Z.of_nat j))) by congruence.
  rewrite !fmt_nat_reads in X. injection X as X. lia.
Qed.

Lemma save_path_inj dir a b : starts_with_sep a = false -> starts_with_sep b = false ->
  save_path dir a = save_path dir b -> a = b.
Proof.
  intros A B. unfold save_path, path_join. cbn [fold_left].
  set (d := path_join2 dir (lit "images")). unfold path_join2. rewrite A, B.
  destruct d as [|x d'] eqn:D; auto. destruct (ends_with_sep (x :: d')); intro E.
  - apply app_inv_head in E. exact E.
  - apply app_inv_head in E. injection E as E. exact E.
Qed.

Lemma saved_once outdir format k :
  NoDup (map (fun i => save_path outdir (image_name i format)) (seq 0 k)).
Proof.
  apply FinFun.Injective_map_NoDup; [|apply seq_NoDup].
  intros i j E. apply save_path_inj in E; [|reflexivity|reflexivity].
  eapply image_name_inj; eauto.
Qed.
