(** Reports. *)
From Coq Require Import Ascii String List Bool Arith ZArith QArith Qabs Lia Lqa.
From Verif Require Import Base_Prelude Base_Str Base_Num Base_Float Model_Path Model_Dataset Model_Report
  Spec_Num Spec_Report Proofs_Str Proofs_Num Proofs_Repr Proofs_Dict Proofs_Float.
Import ListNotations.
Open Scope nat_scope.

(** ** Numbers *)

Lemma spells_digits s ds : spells s ds -> Forall num_char s -> Forall2 digit s ds.
Proof.
  induction 1; intro F; inversion F; subst; constructor; auto.
  inversion H4; subst. exfalso. unfold num_char in H5. simpl in H5.
  repeat (destruct H5 as [H5|H5]; [discriminate|]). exact H5.
Qed.

Lemma dec_digits n : (0 <= n)%Z -> exists ds, Forall2 digit (dec n) ds /\ value ds = n.
Proof.
  intro H. destruct (dec_spells n H) as (ds & A & B). exists ds. split; auto.
  apply spells_digits; auto. apply dec_num.
Qed.

Lemma dec_full n : dec n <> [].
Proof.
  unfold dec. cbn [dec_rev rev]. intro E. apply (f_equal (@length ascii)) in E.
  rewrite app_length in E. simpl in E. lia.
Qed.

Lemma half_unit (n : Z) (d : positive) (t : Z) : (0 < t)%Z ->
  (Qabs ((n # d) - inject_Z (zdiv_rne (n * t) (Zpos d)) / inject_Z t) <= (1 # 2) / inject_Z t)%Q.
Proof.
  intro T. pose proof (q_rint_near (n * t # d)) as N. unfold q_rint in N. cbn [Qnum Qden] in N.
  set (m := zdiv_rne (n * t) (Zpos d)) in *.
  assert (Tq : (0 < inject_Z t)%Q) by (change 0%Q with (inject_Z 0); rewrite <- Zlt_Qlt; exact T).
  assert (E : ((n # d) - inject_Z m / inject_Z t == (-1) * (inject_Z m - (n * t # d)) / inject_Z t)%Q).
  { assert ((n * t # d) == (n # d) * inject_Z t)%Q as -> by (unfold Qeq; simpl; rewrite Pos.mul_1_r; ring).
    field. intro F. rewrite F in Tq. discriminate. }
  rewrite E. unfold Qdiv. rewrite !Qabs_Qmult.
  assert (I : (0 <= / inject_Z t)%Q) by (apply Qlt_le_weak, Qinv_lt_0_compat; exact Tq).
  rewrite (Qabs_pos (/ inject_Z t)) by exact I.
  apply Qmult_le_compat_r; auto. change (Qabs (-1)) with 1%Q. rewrite Qmult_1_l. exact N.
Qed.

Lemma Qopp_num q : (q == - (- Qnum q # Qden q))%Q.
Proof. unfold Qeq. simpl. ring. Qed.

Lemma printed q k : written_with k q (fmt_prec k (FFin q)).
Proof.
  assert (Ht : (0 < 10 ^ Z.of_nat k)%Z) by (apply Z.pow_pos_nonneg; lia).
  set (m := zdiv_rne (Z.abs (Qnum q) * 10 ^ Z.of_nat k) (Zpos (Qden q))).
  assert (Hm : (0 <= m)%Z) by (apply zdiv_rne_nonneg; lia).
  assert (NEAR : (Qabs (q - inject_Z ((if (Qnum q <? 0)%Z then -1 else 1) * m) / inject_Z (10 ^ Z.of_nat k))
     <= (1 # 2) / inject_Z (10 ^ Z.of_nat k))%Q).
  { pose proof (half_unit (Z.abs (Qnum q)) (Qden q) _ Ht) as N. fold m in N.
    destruct (Z.ltb_spec (Qnum q) 0).
    - rewrite Z.abs_neq in N by lia.
      rewrite <- Qabs_opp in N. eapply Qle_trans; [|exact N].
      apply Qle_lteq. right. apply Qabs_wd. rewrite (Qopp_num q) at 1. rewrite inject_Z_mult. change (inject_Z (-1)) with (-1)%Q.
      field. intro F. unfold Qeq in F. simpl in F. lia.
    - rewrite Z.abs_eq in N by lia. rewrite Z.mul_1_l. destruct q as [a b]. exact N. }
  destruct k as [|k].
  - destruct (dec_digits m Hm) as (ds & D & V).
    exists (Qnum q <? 0)%Z, (dec m), ds, [], []. split; [|split; [|split; [|split; [|split]]]]; auto.
    + cbn [fmt_prec]. unfold m. change (10 ^ Z.of_nat 0)%Z with 1%Z. rewrite Z.mul_1_r, app_nil_r.
      destruct (Qnum q <? 0)%Z; reflexivity.
    + apply dec_full.
    + rewrite app_nil_r, V. exact NEAR.
  - destruct (dec_digits (m / 10 ^ Z.of_nat (S k))) as (ds & D & V); [apply Z.div_pos; lia|].
    destruct (decpad_spells k (m mod 10 ^ Z.of_nat (S k))) as (es & Hes & Hev & Hl);
      [apply Z.mod_pos_bound; lia|].
    rewrite Z.mod_mod in Hev by lia.
    set (f := rev (decpad_rev (S k) (m mod 10 ^ Z.of_nat (S k)))) in *.
    assert (F2 : Forall2 digit f es).
    { apply spells_digits; auto. apply Forall_rev, decpad_num. }
    exists (Qnum q <? 0)%Z, (dec (m / 10 ^ Z.of_nat (S k))), ds, f, es.
    split; [|split; [|split; [|split; [|split]]]]; auto.
    + cbn [fmt_prec fmt_float]. unfold fmt_fixed. fold m. fold f.
      destruct (Qnum q <? 0)%Z; reflexivity.
    + apply dec_full.
    + rewrite <- Hl. clear - F2. induction F2; simpl; auto.
    + rewrite value_app, V, Hev, Hl.
      replace (m / 10 ^ Z.of_nat (S k) * 10 ^ Z.of_nat (S k) + m mod 10 ^ Z.of_nat (S k))%Z with m; auto.
      rewrite (Z.div_mod m (10 ^ Z.of_nat (S k))) at 1 by lia. ring.
Qed.

Lemma shown_number k x b q : x = FFin q -> exists t, missingnumber k (VFloat x b) = Ok t /\ written_with k q t.
Proof.
  intros ->. exists (fmt_prec k (FFin q)). split; [reflexivity|apply printed].
Qed.

Lemma shown_missing k v : v = VNone \/ v = VFloat FNan true -> missingnumber k v = Ok (lit "-").
Proof. intros [->| ->]; reflexivity. Qed.

Lemma shown_int k n : (Z.abs n < 2 ^ 53)%Z ->
  exists t, missingnumber k (VInt n) = Ok t /\ written_with k (inject_Z n) t.
Proof.
  intro B. destruct (f_int_exact n B) as (v & E & V).
  cbn [missingnumber in_missing]. rewrite E. exists (fmt_prec k (FFin v)). split; [reflexivity|].
  destruct (printed v k) as (m & s & ds & f & fs & A1 & A2 & A3 & A4 & A5 & A6).
  exists m, s, ds, f, fs. repeat (split; [assumption|]). rewrite <- V. exact A6.
Qed.

(** ** The points of a report *)

Lemma dec_rev_head f : forall n, (0 < n < 2 ^ Z.of_nat f)%Z ->
  exists c l, rev (dec_rev f n) = c :: l /\ c <> "0"%char.
Proof.
  induction f as [|f IH]; intros n [L U].
  - change (2 ^ Z.of_nat 0)%Z with 1%Z in U. lia.
  - cbn [dec_rev rev]. destruct (Z.eqb_spec (n / 10) 0) as [E|E].
    + assert (S : (n < 10)%Z).
      { destruct (Z.lt_ge_cases n 10); auto. exfalso.
        assert (1 <= n / 10)%Z by (apply Z.div_le_lower_bound; lia). lia. }
      exists (digit_chr (n mod 10)), []. split; [reflexivity|].
      rewrite Z.mod_small by lia.
      assert (C : (n = 1 \/ n = 2 \/ n = 3 \/ n = 4 \/ n = 5 \/ n = 6 \/ n = 7 \/ n = 8 \/ n = 9)%Z) by lia.
      repeat (destruct C as [->|C]; [discriminate|]). subst. discriminate.
    + assert (P : (0 <= n / 10)%Z) by (apply Z.div_pos; lia).
      destruct (IH (n / 10)%Z) as (c & l & R & N).
      * split; [lia|]. rewrite Nat2Z.inj_succ, Z.pow_succ_r in U by lia.
        apply Z.div_lt_upper_bound; [lia|]. lia.
      * rewrite R. exists c, (l ++ [digit_chr (n mod 10)]). split; auto.
Qed.

Lemma label_digits n : op_label n (lit "OP" ++ fmt_int (Z.of_nat n)).
Proof.
  unfold fmt_int. destruct (Z.ltb_spec (Z.of_nat n) 0); [lia|].
  destruct (dec_digits (Z.of_nat n)) as (ds & D & V); [lia|].
  exists (dec (Z.of_nat n)), ds. split; [reflexivity|]. split; [|split; [exact D|split; [exact V|]]].
  - apply dec_full.
  - destruct n as [|n]; [right; reflexivity|left].
    unfold dec in D.
    destruct (dec_rev_head (S (Z.to_nat (Z.log2 (Z.of_nat (S n))))) (Z.of_nat (S n))) as (c & l & R & N).
    { assert (P : (0 < Z.of_nat (S n))%Z) by lia. revert P. generalize (Z.of_nat (S n)). intros z P.
      split; [lia|]. rewrite Nat2Z.inj_succ, Z2Nat.id by apply Z.log2_nonneg. apply Z.log2_spec. lia. }
    rewrite R in D. inversion D; subst. simpl. intros ->. apply N. inversion H2. reflexivity.
Qed.

Definition label (n : nat) : str := lit "OP" ++ fmt_int (Z.of_nat n).

Lemma label_no_sep n : ~ In SEP (label n).
Proof.
  unfold label. intro H. apply in_app_or in H as [H|H].
  - simpl in H. repeat (destruct H as [H|H]; [discriminate|]). exact H.
  - pose proof (fmt_int_num (Z.of_nat n)) as G. rewrite Forall_forall in G. apply G in H.
    unfold num_char in H. simpl in H. repeat (destruct H as [H|H]; [discriminate|]). exact H.
Qed.

Lemma label_inj n m : label n = label m -> n = m.
Proof.
  intro E. unfold label in E. apply app_inv_head in E.
  pose proof (fmt_int_denotes (Z.of_nat n)) as A. pose proof (fmt_int_denotes (Z.of_nat m)) as B.
  unfold fmt_int in E. destruct (Z.ltb_spec (Z.of_nat n) 0); [lia|]. destruct (Z.ltb_spec (Z.of_nat m) 0); [lia|].
  destruct (dec_digits (Z.of_nat n)) as (ds & D & V); [lia|].
  destruct (dec_digits (Z.of_nat m)) as (es & D' & V'); [lia|].
  rewrite E in D. enough (ds = es) by (subst; lia).
  clear - D D'. revert es D'. induction D; intros es D'; inversion D'; subst; auto.
  f_equal; auto. clear - H H2. destruct H; inversion H2; reflexivity.
Qed.

Lemma ends_no_sep s : s <> [] -> ~ In SEP s -> ends_with_sep s = false.
Proof.
  intros N H. unfold ends_with_sep. destruct (rev s) as [|c l] eqn:E; auto.
  apply chr_eqb_neq. intros ->. apply H. apply in_rev. rewrite E. left. reflexivity.
Qed.

Lemma starts_no_sep s : ~ In SEP s -> starts_with_sep s = false.
Proof.
  intro H. destruct s as [|c s]; auto. simpl. apply chr_eqb_neq. intros ->. apply H. left. reflexivity.
Qed.

Lemma label_nonnil n : label n <> [].
Proof. discriminate. Qed.

(** os.path.join with a plain name is a name in that directory. *)
Lemma join_inside dir name : ~ In SEP name -> path_join dir [name] = inside dir name.
Proof.
  intro H. unfold path_join. cbn [fold_left]. unfold path_join2, inside, ends_with_sep.
  rewrite starts_no_sep by auto. destruct dir as [|c d]; [reflexivity|].
  destruct (rev (c :: d)) as [|e l] eqn:E; [|reflexivity].
  apply (f_equal (@length ascii)) in E. rewrite rev_length in E. discriminate.
Qed.

Lemma inside_plain dir name : dir <> [] -> ~ In SEP dir -> inside dir name = dir ++ lit "/" ++ name.
Proof.
  intros N H. unfold inside. destruct (rev dir) as [|c l] eqn:E.
  - apply (f_equal (@rev ascii)) in E. rewrite rev_involutive in E. contradiction.
  - destruct (chr_eqb c "/") eqn:F; [|reflexivity]. exfalso. apply chr_eqb_eq in F. subst.
    apply H. apply in_rev. rewrite E. left. reflexivity.
Qed.

Lemma plot_fname c : In c plot_names -> ~ In SEP (c ++ lit ".pdf").
Proof.
  intros I. assert (F : Forall (fun c => forallb (fun x => negb (chr_eqb x SEP)) (c ++ lit ".pdf") = true) plot_names)
    by (repeat (constructor; [vm_compute; reflexivity|]); constructor).
  rewrite Forall_forall in F. specialize (F c I). rewrite forallb_forall in F. intro H.
  specialize (F SEP H). discriminate.
Qed.

Lemma plot_names_nodup : NoDup plot_names.
Proof.
  unfold plot_names. repeat (constructor; [simpl; intro H; repeat (destruct H as [H|H]; [discriminate|]); exact H|]).
  constructor.
Qed.

(** [inside dir] puts something before the name that depends on the directory only. *)
Lemma inside_prefix dir : exists pre, forall name, inside dir name = pre ++ name.
Proof.
  unfold inside. destruct (rev dir) as [|c l]; [exists []; reflexivity|].
  destruct (chr_eqb c "/"); [exists dir; reflexivity|]. exists (dir ++ lit "/").
  intro. rewrite <- app_assoc. reflexivity.
Qed.

Lemma inside_nested dir a f : a <> [] -> ~ In SEP a -> exists pre,
  (forall b g, b <> [] -> ~ In SEP b -> inside (inside dir b) g = pre ++ b ++ lit "/" ++ g) /\
  inside (inside dir a) f = pre ++ a ++ lit "/" ++ f.
Proof.
  intros NA HA. destruct (inside_prefix dir) as [pre P]. exists pre.
  assert (G : forall b g, b <> [] -> ~ In SEP b -> inside (inside dir b) g = pre ++ b ++ lit "/" ++ g).
  { intros b g N H. rewrite P. unfold inside. rewrite rev_app_distr.
    destruct (rev b) as [|c l] eqn:E.
    - apply (f_equal (@rev ascii)) in E. rewrite rev_involutive in E. contradiction.
    - cbn [app]. destruct (chr_eqb c "/") eqn:F.
      + exfalso. apply chr_eqb_eq in F. subst. apply H. apply in_rev. rewrite E. left. reflexivity.
      + rewrite <- app_assoc. reflexivity. }
  split; auto.
Qed.

Lemma app_sep_inj a b f g : ~ In SEP a -> ~ In SEP b -> a ++ SEP :: f = b ++ SEP :: g -> a = b.
Proof.
  revert b. induction a as [|x a IH]; intros [|y b] A B E; simpl in *; auto.
  - inversion E. subst. exfalso. apply B. left. reflexivity.
  - inversion E. subst. exfalso. apply A. left. reflexivity.
  - inversion E. f_equal. apply IH; auto.
Qed.

Definition plot_path (outdir : str) (n : nat) (c : str) : str :=
  path_join (path_join outdir [label n]) [c ++ lit ".pdf"].

Lemma plot_path_inside outdir n c : In c plot_names ->
  plot_path outdir n c = inside (inside outdir (label n)) (c ++ lit ".pdf").
Proof.
  intro I. unfold plot_path. rewrite join_inside by (apply plot_fname; auto).
  rewrite join_inside by apply label_no_sep. reflexivity.
Qed.

Lemma plot_path_inj outdir n m c c' : In c plot_names -> In c' plot_names ->
  plot_path outdir n c = plot_path outdir m c' -> n = m.
Proof.
  intros I I' E. rewrite !plot_path_inside in E by auto.
  destruct (inside_nested outdir (label n) (c ++ lit ".pdf") (label_nonnil n) (label_no_sep n)) as (pre & G & A).
  rewrite A, (G _ _ (label_nonnil m) (label_no_sep m)) in E. apply app_inv_head in E.
  apply app_sep_inj in E; try apply label_no_sep. apply label_inj; auto.
Qed.

Section History.
Context {R : Type}.
Implicit Types (st : report R) (k : call R).

Lemma draw_spec outdir n k cls : forall files names files' r,
  incl cls plot_names ->
  draw_all outdir (label n) k cls files names = (files', r) ->
  (forall p, (forall c, In c plot_names -> p <> plot_path outdir n c) ->
     dget str_eqb p files' = dget str_eqb p files) /\
  (forall p, dget str_eqb p files = Some (k_op k) -> dget str_eqb p files' = Some (k_op k)) /\
  ((exists names', r = Ok names') <-> forall c, In c cls -> exists u, k_draw k c = Ok u) /\
  (forall names', r = Ok names' ->
     (forall c, In c cls -> dget str_eqb (plot_path outdir n c) files' = Some (k_op k)) /\
     (NoDup (map fst names ++ cls) ->
      names' = names ++ map (fun c => (c, path_join (label n) [c ++ lit ".pdf"])) cls)).
Proof.
  induction cls as [|c cls IH]; intros files names files' r I E; cbn [draw_all] in E.
  - inversion E; subst. split; [auto|split; [auto|split]].
    + split; [intros _ c []|eauto].
    + intros names' F. inversion F; subst. split; [intros c []|]. intros _. symmetry. apply app_nil_r.
  - destruct (k_draw k c) as [u|e] eqn:D.
    + apply IH in E as (E1 & E2 & E3 & E4); [|intros x X; apply I; right; exact X].
      change (path_join (path_join outdir [label n]) [c ++ lit ".pdf"]) with (plot_path outdir n c) in *.
      split; [|split; [|split]].
      * intros p H. rewrite E1 by exact H. apply sget_sset_other. apply H. apply I. left. reflexivity.
      * intros p H. apply E2. destruct (str_eq_dec p (plot_path outdir n c)) as [->|N].
        -- apply sget_sset_same.
        -- rewrite sget_sset_other by exact N. exact H.
      * rewrite E3. split.
        -- intros H x [<-|X]; eauto.
        -- intros H x X. apply H. right. exact X.
      * intros names' F. destruct (E4 _ F) as (A & B). split.
        -- intros x [<-|X]; auto. apply E2. apply sget_sset_same.
        -- intro ND. rewrite B.
           ++ rewrite sset_new.
              ** rewrite <- app_assoc. reflexivity.
              ** apply NoDup_remove_2 in ND. intro X. apply ND. apply in_or_app. left. exact X.
           ++ rewrite sset_new.
              ** rewrite map_app, <- app_assoc. exact ND.
              ** apply NoDup_remove_2 in ND. intro X. apply ND. apply in_or_app. left. exact X.
    + inversion E; subst. split; [auto|split; [auto|split]].
      * split; [intros (? & F); discriminate|]. intro H. destruct (H c) as [u U]; [left; reflexivity|congruence].
      * intros names' F. discriminate.
Qed.

Definition names_for (n : nat) : dict str str :=
  map (fun c => (c, path_join (label n) [c ++ lit ".pdf"])) plot_names.

Lemma names_for_in n c p : dget str_eqb c (names_for n) = Some p -> p = label n ++ lit "/" ++ c ++ lit ".pdf".
Proof.
  intro H. apply sget_some_in in H. unfold names_for in H. apply in_map_iff in H as (x & E & I).
  assert (P : p = path_join (label n) [x ++ lit ".pdf"]) by congruence. assert (x = c) by congruence. subst x.
  rewrite P. rewrite join_inside by (apply plot_fname; auto).
  apply inside_plain; [apply label_nonnil|apply label_no_sep].
Qed.

Lemma plots_spec outdir n k files files' r :
  plots_of outdir (label n) k files = (files', r) ->
  (forall p, (forall c, In c plot_names -> p <> plot_path outdir n c) ->
     dget str_eqb p files' = dget str_eqb p files) /\
  ((exists names', r = Ok names') <->
   (k_mkdir k = Ok tt \/ k_mkdir k = Err FileExistsError) /\
   forall c, In c plot_names -> exists u, k_draw k c = Ok u) /\
  (forall names', r = Ok names' ->
     names' = names_for n /\
     forall c, In c plot_names -> dget str_eqb (plot_path outdir n c) files' = Some (k_op k)).
Proof.
  unfold plots_of. intro E.
  assert (C : (k_mkdir k = Ok tt \/ k_mkdir k = Err FileExistsError) /\
              draw_all outdir (label n) k plot_names files [] = (files', r)
           \/ (k_mkdir k <> Ok tt /\ k_mkdir k <> Err FileExistsError) /\ files' = files /\ exists e, r = Err e).
  { destruct (k_mkdir k) as [[]|[]]; try (left; split; [auto|exact E]); right; inversion E; subst;
      (split; [split; discriminate|split; [reflexivity|eauto]]). }
  clear E. destruct C as [(M & E)|(M & -> & e & ->)].
  - apply draw_spec in E as (E1 & E2 & E3 & E4); [|apply incl_refl].
    split; [exact E1|split].
    + rewrite E3. tauto.
    + intros names' F. destruct (E4 _ F) as (A & B). split; [|exact A].
      rewrite B; [reflexivity|]. exact plot_names_nodup.
  - split; [auto|split].
    + split; [intros (? & F); discriminate|]. intros ([F|F] & _); tauto.
    + intros ? F. discriminate.
Qed.

(** One call. *)
Lemma add_spec st k st' r :
  add st k = (st', r) ->
  let n := S (length (r_ops st)) in
  let d0 := r_heap st (k_op k) in
  r_outdir st' = r_outdir st /\
  (forall x, x <> k_op k -> r_heap st' x = r_heap st x) /\
  (forall p, (forall c, In c plot_names -> p <> plot_path (r_outdir st) n c) ->
     dget str_eqb p (r_files st') = dget str_eqb p (r_files st)) /\
  (r = Ok tt <-> works d0 k) /\
  (r <> Ok tt -> r_ops st' = r_ops st) /\
  (r = Ok tt -> r_ops st' = r_ops st ++ [k_op k] /\
     (exists x, k_results k = Ok x /\ presented (label n) d0 x (r_heap st' (k_op k))) /\
     forall c, In c plot_names -> dget str_eqb (plot_path (r_outdir st) n c) (r_files st') = Some (k_op k)).
Proof.
  intros E n d0. unfold add in E. fold n in E. change (lit "OP" ++ fmt_int (Z.of_nat n)) with (label n) in E.
  fold d0 in E. unfold oget, oset in E.
  assert (HS : forall d x, x <> k_op k -> hset (r_heap st) (k_op k) d x = r_heap st x).
  { intros d x N. unfold hset. apply Nat.eqb_neq in N. rewrite N. reflexivity. }
  assert (HK : forall d, hset (r_heap st) (k_op k) d (k_op k) = d).
  { intro d. unfold hset. rewrite Nat.eqb_refl. reflexivity. }
  rewrite sget_sset_other in E by discriminate.
  destruct (dget str_eqb (lit "name") d0) as [v|] eqn:NM.
  2:{ inversion E; subst; clear E. cbn [r_outdir r_heap r_ops r_files].
      split; [reflexivity|split; [exact (HS _)|split; [auto|split; [|split; [auto|discriminate]]]]].
      split; [discriminate|]. intros ((v & V) & _). congruence. }
  set (d1 := if truthy v then _ else _) in E.
  destruct (k_results k) as [x|e] eqn:RS.
  2:{ inversion E; subst; clear E. cbn [r_outdir r_heap r_ops r_files].
      split; [reflexivity|split; [exact (HS _)|split; [auto|split; [|split; [auto|discriminate]]]]].
      split; [discriminate|]. intros (_ & (w & V) & _). congruence. }
  destruct (plots_of (r_outdir st) (label n) k (r_files st)) as [files p] eqn:PL.
  apply plots_spec in PL as (P1 & P2 & P3).
  assert (W : (exists names', p = Ok names') <-> works d0 k).
  { rewrite P2. unfold works. rewrite NM, RS. split.
    - intros (A & B). eauto 6.
    - intros (_ & _ & A & B). auto. }
  destruct p as [names|e].
  - destruct (P3 _ eq_refl) as (-> & P4). inversion E; subst; clear E.
    cbn [r_outdir r_heap r_ops r_files].
    split; [reflexivity|split; [exact (HS _)|split; [exact P1|split; [|split; [congruence|]]]]].
    { split; [intros _; apply W; eauto|reflexivity]. }
    intros _. split; [reflexivity|]. split; [|exact P4].
    exists x. split; [reflexivity|]. rewrite HK. unfold presented.
    split; [|split; [|split; [|split; [|split]]]].
    + rewrite !sget_sset_other by discriminate. unfold d1.
      destruct (truthy v); [|rewrite sget_sset_other by discriminate]; apply sget_sset_same.
    + intros w Hw U. rewrite Hw in NM. inversion NM; subst w.
      rewrite !sget_sset_other by discriminate. unfold d1.
      destruct U as [->| ->]; cbn [truthy]; apply sget_sset_same.
    + intros c s Hs. rewrite Hs in NM. inversion NM; subst v.
      rewrite !sget_sset_other by discriminate. unfold d1. cbn [truthy].
      rewrite sget_sset_other by discriminate. exact Hs.
    + rewrite sget_sset_other by discriminate. apply sget_sset_same.
    + exists (names_for n). split; [apply sget_sset_same|]. split.
      * unfold names_for. rewrite map_map. cbn [fst]. apply map_id.
      * apply names_for_in.
    + intros key K1 K2 K3 K4. rewrite !sget_sset_other by assumption. unfold d1.
      destruct (truthy v); rewrite !sget_sset_other by assumption; reflexivity.
  - inversion E; subst; clear E. cbn [r_outdir r_heap r_ops r_files].
    split; [reflexivity|split; [exact (HS _)|split; [exact P1|split; [|split; [auto|discriminate]]]]].
    split; [discriminate|]. intro X. apply W in X as (? & X). discriminate.
Qed.

Lemma add_all_snoc st ks k : add_all st (ks ++ [k]) = fst (add (add_all st ks) k).
Proof. unfold add_all. rewrite fold_left_app. reflexivity. Qed.

Lemma kept_snoc_yes {A} (P : A -> Prop) l l' x : kept P l l' -> P x -> kept P (l ++ [x]) (l' ++ [x]).
Proof. induction 1; intro H1; simpl; repeat (constructor; auto). Qed.
Lemma kept_snoc_no {A} (P : A -> Prop) l l' x : kept P l l' -> ~ P x -> kept P (l ++ [x]) l'.
Proof. induction 1; intro H1; simpl; repeat (constructor; auto). Qed.
Lemma kept_incl {A} (P : A -> Prop) l l' : kept P l l' -> incl l' l.
Proof.
  induction 1; intros y Y; simpl in *; auto; try tauto.
  destruct Y as [->|Y]; auto.
Qed.

Lemma label_of n s : s = label n -> op_label n s.
Proof. intros ->. apply label_digits. Qed.

Lemma history outdir heap ks :
  NoDup (map k_op ks) ->
  let st := add_all (mkReport outdir heap [] []) ks in
  r_outdir st = outdir /\
  (forall x, ~ In x (map k_op ks) -> r_heap st x = heap x) /\
  exists done, kept (fun k => works (heap (k_op k)) k) ks done /\
    r_ops st = map k_op done /\
    forall i k, nth_error done i = Some k ->
      (exists x, k_results k = Ok x /\ presented (label (S i)) (heap (k_op k)) x (r_heap st (k_op k))) /\
      forall c, In c plot_names -> dget str_eqb (plot_path outdir (S i) c) (r_files st) = Some (k_op k).
Proof.
  induction ks as [|k ks IH] using rev_ind; intro ND.
  - cbn. split; [reflexivity|split; [auto|]]. exists []. split; [constructor|split; [reflexivity|]].
    intros [|i] k H; discriminate.
  - rewrite map_app in ND. cbn [map] in ND.
    assert (ND' : NoDup (map k_op ks)) by (apply NoDup_remove_1 in ND; rewrite app_nil_r in ND; exact ND).
    assert (NI : ~ In (k_op k) (map k_op ks)) by (apply NoDup_remove_2 in ND; rewrite app_nil_r in ND; exact ND).
    specialize (IH ND'). cbv zeta. rewrite add_all_snoc.
    set (st := add_all (mkReport outdir heap [] []) ks) in *. cbv zeta in IH.
    destruct IH as (O & HP & done & KP & OPS & EACH).
    destruct (add st k) as [st' r] eqn:A. cbn [fst].
    apply add_spec in A as (A1 & A2 & A3 & A4 & A5 & A6).
    rewrite (HP _ NI) in A4, A6. rewrite O in A3, A6.
    split; [congruence|]. split.
    { intros x X. rewrite map_app in X. rewrite A2.
      - apply HP. intro Y. apply X. apply in_or_app. left. exact Y.
      - intros ->. apply X. apply in_or_app. right. left. reflexivity. }
    assert (OLD : forall i j, nth_error done i = Some j ->
      (exists x, k_results j = Ok x /\ presented (label (S i)) (heap (k_op j)) x (r_heap st' (k_op j))) /\
      forall c, In c plot_names -> dget str_eqb (plot_path outdir (S i) c) (r_files st') = Some (k_op j)).
    { intros i j H. destruct (EACH _ _ H) as (E1 & E2). split.
      - rewrite A2; [exact E1|]. intro X. apply NI. rewrite <- X.
        apply in_map. eapply kept_incl; [exact KP|]. eapply nth_error_In. exact H.
      - intros c C. rewrite A3; [apply E2; exact C|]. intros c' C' X.
        apply plot_path_inj in X; auto. assert (L : nth_error done i <> None) by congruence.
        apply nth_error_Some in L. rewrite OPS, map_length in X. lia. }
    assert (DEC : r = Ok tt \/ r <> Ok tt) by (destruct r as [[]|e]; [left; reflexivity|right; discriminate]).
    destruct DEC as [Y|N].
    + destruct (A6 Y) as (B1 & B2 & B3). exists (done ++ [k]). split; [|split].
      * apply kept_snoc_yes; auto. apply A4; exact Y.
      * rewrite B1, OPS, map_app. reflexivity.
      * intros i j H. destruct (Nat.lt_ge_cases i (length done)) as [L|L].
        -- rewrite nth_error_app1 in H by exact L. apply OLD; exact H.
        -- rewrite nth_error_app2 in H by exact L.
           destruct (i - length done) as [|z] eqn:Z; [|destruct z; discriminate].
           inversion H; subst j. assert (i = length done) by lia. subst i.
           rewrite OPS, map_length in B2, B3. split; auto.
    + exists done. split; [|split].
      * apply kept_snoc_no; auto. intro W. apply N, A4, W.
      * rewrite A5 by exact N. exact OPS.
      * exact OLD.
Qed.

Lemma points_in_order outdir heap ks :
  NoDup (map k_op ks) ->
  let st := add_all (mkReport outdir heap [] []) ks in
  exists done, kept (fun k => works (heap (k_op k)) k) ks done /\
    r_ops st = map k_op done /\
    forall i k, nth_error done i = Some k ->
      exists id x, op_label (S i) id /\ k_results k = Ok x /\
        presented id (heap (k_op k)) x (r_heap st (k_op k)) /\
        forall c, In c plot_names ->
          dget str_eqb (inside (inside outdir id) (c ++ lit ".pdf")) (r_files st) = Some (k_op k).
Proof.
  intros ND st. destruct (history outdir heap ks ND) as (_ & _ & done & K & O & E).
  exists done. split; [exact K|split; [exact O|]]. intros i k H.
  destruct (E _ _ H) as ((x & X & P) & F). exists (label (S i)), x.
  split; [apply label_digits|]. split; [exact X|split; [exact P|]].
  intros c C. rewrite <- plot_path_inside by exact C. apply F; exact C.
Qed.

Lemma only_failures st k : snd (add st k) = Ok tt <-> works (r_heap st (k_op k)) k.
Proof. destruct (add st k) as [st' r] eqn:A. apply add_spec in A. cbn [snd]. tauto. Qed.
End History.
