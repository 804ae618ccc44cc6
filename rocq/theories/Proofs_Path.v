From Coq Require Import Ascii String List Bool Arith Lia.
From Verif Require Import Base_Prelude Base_Str Model_Path Model_Parser Spec_Path.
Import ListNotations.

Lemma walk_app h a b : walk h (a ++ b) = walk (walk h a) b.
Proof. apply fold_left_app. Qed.

Lemma step_nil h : step h [] = h.
Proof. reflexivity. Qed.

Lemma split_on_nonnil c s : split_on c s <> [].
Proof.
  destruct s; simpl; [discriminate|]. destruct (chr_eqb a c); [discriminate|].
  destruct (split_on c s); discriminate.
Qed.

Lemma split_on_app c a b :
  split_on c (a ++ c :: b) = split_on c a ++ split_on c b.
Proof.
  induction a as [|x a IH]; simpl.
  - rewrite chr_eqb_refl. reflexivity.
  - rewrite IH. destruct (chr_eqb x c); [reflexivity|].
    destruct (split_on c a) eqn:E; [exfalso; apply (split_on_nonnil c a E)|]. reflexivity.
Qed.

Lemma split_on_notin c s : ~ In c s -> split_on c s = [s].
Proof.
  induction s as [|x s IH]; simpl; intro H; auto.
  destruct (chr_eqb x c) eqn:E.
  - apply chr_eqb_eq in E. exfalso. apply H. left. auto.
  - rewrite IH by tauto. reflexivity.
Qed.

Lemma split_on_pieces c s p : In p (split_on c s) -> ~ In c p.
Proof.
  revert p; induction s as [|x s IH]; simpl; intros p H.
  - destruct H as [<-|[]]. auto.
  - destruct (chr_eqb x c) eqn:E.
    + destruct H as [<-|H]; auto.
    + destruct (split_on c s) as [|q qs] eqn:Es.
      * destruct H as [<-|[]]. apply chr_eqb_neq in E. intros [F|[]]. auto.
      * destruct H as [<-|H].
        -- intros [F|F]; [apply chr_eqb_neq in E; auto|].
           apply (IH q); [left; reflexivity|exact F].
        -- apply IH. right. auto.
Qed.

Lemma split_on_join c ps :
  ps <> [] -> (forall p, In p ps -> ~ In c p) -> split_on c (join_on c ps) = ps.
Proof.
  induction ps as [|p ps IH]; intros Hn H; [contradiction|].
  destruct ps as [|q ps].
  - simpl. apply split_on_notin. apply H. left. auto.
  - change (join_on c (p :: q :: ps)) with (p ++ c :: join_on c (q :: ps)).
    rewrite split_on_app, split_on_notin by (apply H; left; auto).
    rewrite IH; [reflexivity|discriminate|]. intros r Hr. apply H. right. auto.
Qed.

Lemma resolve_rel cwd p : starts_with_sep p = false -> resolve cwd p = walk cwd (split_on SEP p).
Proof. destruct p as [|c p]; simpl; auto. unfold SEP. intros ->. reflexivity. Qed.

Lemma resolve_abs cwd p : starts_with_sep p = true -> resolve cwd p = walk [] (split_on SEP p).
Proof. destruct p as [|c p]; simpl; [discriminate|]. unfold SEP. intros ->. reflexivity. Qed.

Definition start (cwd : list str) (p : str) : list str :=
  if starts_with_sep p then [] else cwd.

Lemma resolve_start cwd p : resolve cwd p = walk (start cwd p) (split_on SEP p).
Proof.
  unfold start. destruct (starts_with_sep p) eqn:E.
  - apply resolve_abs; auto.
  - apply resolve_rel; auto.
Qed.

Lemma ends_with_sep_true a : ends_with_sep a = true -> exists b, a = b ++ [SEP].
Proof.
  unfold ends_with_sep. destruct (rev a) as [|c r] eqn:E; [discriminate|].
  intro H. apply chr_eqb_eq in H. subst. exists (rev r).
  rewrite <- (rev_involutive a), E. reflexivity.
Qed.

Lemma starts_app a b : a <> [] -> starts_with_sep (a ++ b) = starts_with_sep a.
Proof. destruct a; simpl; [contradiction|reflexivity]. Qed.

Lemma resolve_join2_rel cwd a b :
  starts_with_sep b = false ->
  resolve cwd (path_join2 a b) = walk (resolve cwd a) (split_on SEP b).
Proof.
  intro Hb. unfold path_join2. rewrite Hb. destruct a as [|c a].
  - simpl. apply resolve_rel; auto.
  - destruct (ends_with_sep (c :: a)) eqn:E.
    + destruct (ends_with_sep_true _ E) as (p & Hp). rewrite !resolve_start.
      unfold start. rewrite starts_app by discriminate. rewrite Hp.
      rewrite <- app_assoc. simpl app. rewrite !split_on_app, !walk_app. reflexivity.
    + rewrite !resolve_start. unfold start. rewrite starts_app by discriminate.
      rewrite split_on_app, walk_app. reflexivity.
Qed.

Lemma resolve_join2_abs cwd a b :
  starts_with_sep b = true ->
  resolve cwd (path_join2 a b) = resolve cwd b.
Proof. intro Hb. unfold path_join2. rewrite Hb. reflexivity. Qed.

Lemma resolve_join_rel cwd bs : forall a,
  Forall (fun b => starts_with_sep b = false) bs ->
  resolve cwd (path_join a bs) = walk (resolve cwd a) (concat (map (split_on SEP) bs)).
Proof.
  unfold path_join. induction bs as [|b bs IH]; intros a H; simpl; auto.
  inversion H; subst. rewrite IH by auto. rewrite resolve_join2_rel by auto.
  rewrite walk_app. reflexivity.
Qed.

Lemma split_both s :
  concat (map (split_on SEP) (split_on BSL s)) = split_on SEP (replace_chr BSL SEP s).
Proof.
  induction s as [|x s IH]; [reflexivity|].
  unfold replace_chr in *. cbn [map split_on].
  destruct (chr_eqb x BSL) eqn:E.
  - rewrite chr_eqb_refl. cbn [map concat]. rewrite IH. reflexivity.
  - destruct (split_on BSL s) as [|p ps] eqn:Es; [exfalso; apply (split_on_nonnil BSL s Es)|].
    cbn [map concat split_on] in *. destruct (chr_eqb x SEP) eqn:F.
    + rewrite <- IH. reflexivity.
    + rewrite <- IH. destruct (split_on SEP p) eqn:Ep.
      * exfalso. apply (split_on_nonnil SEP p Ep).
      * reflexivity.
Qed.

(** image_path, in terms of the normalised name only. *)
Definition first_starts (ps : list str) : bool :=
  match ps with p :: _ => starts_with_sep p | [] => false end.

Lemma image_path_walk cwd dir q :
  Forall (fun b => starts_with_sep b = false) (tl (split_on BSL q)) ->
  resolve cwd (path_join dir (split_on BSL q)) =
  walk (if first_starts (split_on BSL q) then [] else resolve cwd dir) (names_of q).
Proof.
  intro H. unfold names_of. change "\"%char with BSL. change "/"%char with SEP.
  rewrite <- split_both. destruct (split_on BSL q) as [|p ps]; [reflexivity|].
  simpl in H. unfold first_starts. destruct (starts_with_sep p) eqn:E.
  - change (path_join dir (p :: ps)) with (path_join (path_join2 dir p) ps).
    rewrite resolve_join_rel by auto. rewrite resolve_join2_abs by auto.
    rewrite resolve_abs by auto. cbn [map concat]. rewrite walk_app. reflexivity.
  - apply resolve_join_rel. constructor; auto.
Qed.

(** ** normpath *)

Lemma norm_acc_walk initial comps : forall acc h,
  (initial = true -> h = []) ->
  (initial = true -> Forall (fun c => c <> lit "..") acc) ->
  (* every kept component either is ".." with only ".." below it, or is a name *)
  Forall (fun c => c <> [] /\ c <> lit ".") acc ->
  (forall u v, acc = u ++ lit ".." :: v -> Forall (fun c => c = lit "..") v) ->
  walk h (norm_comps initial acc comps) = walk (walk h (rev acc)) comps.
Proof.
  induction comps as [|c cs IH]; intros acc h Hi Hd Hn Hb.
  - reflexivity.
  - cbn [norm_comps]. change (walk (walk h (rev acc)) (c :: cs))
      with (walk (step (walk h (rev acc)) c) cs).
    destruct (str_eqb c [] || str_eqb c (lit ".")) eqn:E1.
    { unfold step. rewrite E1. apply IH; auto. }
    destruct (str_eqb c (lit "..")) eqn:E2; simpl negb; cbv iota.
    + apply str_eqb_eq in E2. subst c.
      destruct acc as [|top acc'].
      * destruct initial.
        -- rewrite IH by auto. simpl. rewrite (Hi eq_refl). reflexivity.
        -- rewrite IH; auto.
           ++ intro; discriminate.
           ++ constructor; [split; discriminate|constructor].
           ++ intros u v Heq. destruct u as [|a u]; injection Heq as Heq'.
              ** subst. constructor.
              ** destruct u; discriminate.
      * destruct (str_eqb top (lit "..")) eqn:E3.
        -- apply str_eqb_eq in E3. subst top.
           assert (Hall : Forall (fun c => c = lit "..") acc') by (apply (Hb [] acc'); reflexivity).
           rewrite IH; auto.
           ++ cbn [rev]. rewrite !walk_app. reflexivity.
           ++ intro Ht. specialize (Hd Ht). inversion Hd. congruence.
           ++ constructor; [split; discriminate|]. auto.
           ++ intros u v Heq. destruct u as [|a u]; injection Heq as Heq'.
              ** subst. constructor; auto.
              ** destruct u as [|b u]; injection H as Heq''; subst; auto.
                 rewrite Forall_forall in Hall |- *. intros x Hx. apply Hall.
                 apply in_or_app. right. right. auto.
        -- apply str_eqb_neq in E3. rewrite IH; auto.
           ++ cbn [rev]. rewrite walk_app.
              inversion Hn as [|? ? (N1 & N2) N3]; subst.
              assert (Hs : step (walk h (rev acc')) top = top :: walk h (rev acc')).
              { unfold step. rewrite (proj2 (str_eqb_neq top []) N1).
                rewrite (proj2 (str_eqb_neq top (lit ".")) N2).
                rewrite (proj2 (str_eqb_neq top (lit "..")) E3). reflexivity. }
              change (walk (walk h (rev acc')) [top]) with (step (walk h (rev acc')) top).
              rewrite Hs. reflexivity.
           ++ intro Ht. specialize (Hd Ht). inversion Hd; auto.
           ++ inversion Hn; auto.
           ++ intros u v Heq. apply (Hb (top :: u) v). simpl. rewrite Heq. reflexivity.
    + apply orb_false_iff in E1. destruct E1 as (Ea & Eb).
      apply str_eqb_neq in Ea, Eb, E2. rewrite IH; auto.
      * cbn [rev]. rewrite walk_app. reflexivity.
      * intros u v Heq. destruct u as [|a u]; injection Heq as Heq'; [congruence|].
        subst. apply (Hb u v). reflexivity.
Qed.

Lemma norm_walk initial comps h :
  (initial = true -> h = []) ->
  walk h (norm_comps initial [] comps) = walk h comps.
Proof.
  intro H. rewrite norm_acc_walk; auto. intros u v E. destruct u; discriminate.
Qed.

Lemma norm_comps_sub initial comps : forall acc c,
  In c (norm_comps initial acc comps) ->
  (In c acc \/ In c comps) .
Proof.
  induction comps as [|d cs IH]; intros acc c; cbn [norm_comps].
  - rewrite <- in_rev. auto.
  - destruct (str_eqb d [] || str_eqb d (lit ".")).
    { intro H. apply IH in H. simpl. tauto. }
    destruct (negb (str_eqb d (lit ".."))).
    { intro H. apply IH in H. simpl in *. tauto. }
    destruct acc as [|top acc'].
    + destruct initial; intro H; apply IH in H; simpl in *; tauto.
    + destruct (str_eqb top (lit "..")); intro H; apply IH in H; simpl in *; tauto.
Qed.

Lemma walk_nils h k : walk h (repeat [] k) = h.
Proof. induction k; simpl; auto. Qed.

Lemma normpath_eq s :
  s <> [] ->
  normpath s =
  (let body := join_on SEP (norm_comps (starts_with_sep s) [] (split_on SEP s)) in
   let r := if startswith (lit "//") s && negb (startswith (lit "///") s)
            then SEP :: SEP :: body
            else if starts_with_sep s then SEP :: body else body in
   match r with [] => lit "." | _ => r end).
Proof. destruct s; [contradiction|]. reflexivity. Qed.

(** Components of a normalised path: the kept components after some empty ones, or ".". *)
Lemma split_normpath s :
  s <> [] ->
  let cs := norm_comps (starts_with_sep s) [] (split_on SEP s) in
  exists k, starts_with_sep (normpath s) = starts_with_sep s /\
  ((split_on SEP (normpath s) = repeat [] k ++ cs /\ cs <> [] /\
     normpath s = repeat SEP k ++ join_on SEP cs) \/
   (cs = [] /\ ((starts_with_sep s = false /\ normpath s = lit ".") \/
                (starts_with_sep s = true /\ normpath s = repeat SEP k)))).
Proof.
  intros Hs cs. rewrite (normpath_eq s Hs). cbv zeta. fold cs.
  assert (Hc : forall p, In p cs -> ~ In SEP p).
  { intros p Hp. apply norm_comps_sub in Hp. destruct Hp as [[]|Hp].
    eapply split_on_pieces; eauto. }
  assert (Hne : forall initial comps acc, Forall (fun c => c <> []) acc ->
            Forall (fun c => c <> []) (norm_comps initial acc comps)).
  { clear. induction comps as [|d l IH]; intros acc H; cbn [norm_comps].
    - apply Forall_rev. auto.
    - destruct (str_eqb d [] || str_eqb d (lit ".")) eqn:E; auto.
      apply orb_false_iff in E. destruct E as (E & _). apply str_eqb_neq in E.
      destruct (negb (str_eqb d (lit ".."))); auto.
      destruct acc as [|top acc']; [destruct initial; auto|].
      destruct (str_eqb top (lit "..")); auto. apply IH. inversion H; auto. }
  assert (Hcs : Forall (fun c => c <> []) cs) by (apply Hne; constructor).
  clearbody cs.
  assert (Hjs : cs <> [] -> starts_with_sep (join_on SEP cs) = false /\ join_on SEP cs <> []).
  { intro Hn. destruct cs as [|c cs']; [contradiction|].
    assert (c <> []) by (inversion Hcs; auto). destruct c as [|x c]; [contradiction|].
    assert (x <> SEP).
    { intro F. apply (Hc (x :: c)); [left; auto|left; auto]. }
    destruct cs'; simpl; (split; [apply chr_eqb_neq; auto|discriminate]). }
  assert (Hrep : forall k, cs <> [] ->
     split_on SEP (repeat SEP k ++ join_on SEP cs) = repeat [] k ++ cs).
  { intros k Hn. induction k as [|k IHk].
    - simpl. apply split_on_join; auto.
    - simpl. rewrite IHk. reflexivity. }
  set (two := startswith (lit "//") s && negb (startswith (lit "///") s)).
  set (initial := starts_with_sep s) in *.
  assert (Htwo : two = true -> initial = true).
  { unfold two, initial. destruct s as [|c0 s0]; [contradiction|]. cbn.
    rewrite andb_true_iff. intros (H & _). apply andb_true_iff in H. destruct H as (H & _). apply chr_eqb_eq in H. subst. reflexivity. }
  destruct two eqn:E2.
  - specialize (Htwo eq_refl). exists 2. rewrite Htwo. split; [reflexivity|].
    destruct cs as [|c cs'] eqn:Ecs.
    + right. split; [reflexivity|]. right. split; reflexivity.
    + left. split; [|split; [discriminate|reflexivity]].
      rewrite <- (Hrep 2) by discriminate. reflexivity.
  - destruct initial eqn:Ei.
    + exists 1. split; [reflexivity|].
      destruct cs as [|c cs'] eqn:Ecs.
      * right. split; [reflexivity|]. right. split; reflexivity.
      * left. split; [|split; [discriminate|reflexivity]].
        rewrite <- (Hrep 1) by discriminate. reflexivity.
    + exists 0. destruct cs as [|c cs'] eqn:Ecs.
      * split; [reflexivity|]. right. split; [reflexivity|]. left. split; reflexivity.
      * destruct (Hjs ltac:(discriminate)) as (J1 & J2).
        destruct (join_on SEP (c :: cs')) as [|j js] eqn:Ej; [contradiction|].
        split; [exact J1|]. left. split; [|split; [discriminate|exact (eq_sym Ej) || reflexivity]].
        rewrite <- (Hrep 0) by discriminate. reflexivity.
Qed.

Lemma replace_notin a b s : ~ In a s -> replace_chr a b s = s.
Proof.
  unfold replace_chr. induction s as [|x s IH]; simpl; intro H; auto.
  destruct (chr_eqb x a) eqn:E.
  - apply chr_eqb_eq in E. exfalso. apply H. auto.
  - f_equal. apply IH. tauto.
Qed.

Lemma in_join c ps x : In x (join_on c ps) -> x = c \/ exists p, In p ps /\ In x p.
Proof.
  induction ps as [|p ps IH]; [simpl; tauto|]. destruct ps as [|q ps].
  - simpl. intro. right. exists p. auto.
  - change (join_on c (p :: q :: ps)) with (p ++ c :: join_on c (q :: ps)).
    intro H. apply in_app_or in H. destruct H as [H|[H|H]]; auto.
    + right. exists p. simpl. auto.
    + destruct (IH H) as [?|(r & ? & ?)]; auto. right. exists r. simpl in *. auto.
Qed.

Lemma in_split_on c s p x : In p (split_on c s) -> In x p -> In x s.
Proof.
  revert p; induction s as [|y s IH]; simpl; intros p H Hx.
  - destruct H as [<-|[]]. auto.
  - destruct (chr_eqb y c).
    + destruct H as [<-|H]; [destruct Hx|]. right. eapply IH; eauto.
    + destruct (split_on c s) as [|q qs] eqn:E.
      * destruct H as [<-|[]]. destruct Hx as [<-|[]]. auto.
      * destruct H as [<-|H].
        -- destruct Hx as [<-|Hx]; auto. right. apply (IH q); auto. left. auto.
        -- right. apply (IH p); auto. right. auto.
Qed.

Lemma in_normpath x s : In x (normpath s) -> x = SEP \/ x = "."%char \/ In x s.
Proof.
  destruct s as [|c s'].
  - simpl. intros [H|[]]. auto.
  - intro H. destruct (split_normpath (c :: s') ltac:(discriminate)) as (k & _ & [(_ & _ & E)|(_ & [(_ & E)|(_ & E)])]);
      rewrite E in H.
    + apply in_app_or in H. destruct H as [H|H].
      * apply repeat_spec in H. auto.
      * apply in_join in H. destruct H as [?|(p & Hp & Hx)]; auto.
        apply norm_comps_sub in Hp. destruct Hp as [[]|Hp]. right. right.
        eapply in_split_on; eauto.
    + destruct H as [<-|[]]. auto.
    + apply repeat_spec in H. auto.
Qed.

(** Walking a name and walking its normal form. *)
Lemma walk_normpath h s :
  s <> [] -> (starts_with_sep s = true -> h = []) ->
  walk h (split_on SEP (normpath s)) = walk h (split_on SEP s).
Proof.
  intros Hs Hh.
  rewrite <- (norm_walk (starts_with_sep s) (split_on SEP s) h Hh).
  destruct (split_normpath s Hs) as (k & _ & [(E & _ & _)|(E & [(_ & E')|(_ & E')])]).
  - rewrite E, walk_app, walk_nils. reflexivity.
  - rewrite E, E'. reflexivity.
  - rewrite E, E'. clear. induction k; simpl in *; auto.
Qed.

Lemma first_starts_split q :
  starts_with_sep q = first_starts (split_on BSL q).
Proof.
  destruct q as [|c q]; simpl; auto. destruct (chr_eqb c BSL) eqn:E; simpl.
  - apply chr_eqb_eq in E. subst. reflexivity.
  - destruct (split_on BSL q) eqn:Es; [exfalso; apply (split_on_nonnil BSL q Es)|]. reflexivity.
Qed.

(** No "\/": pieces after the first do not start with '/'. *)
Lemma no_bs_sep_pieces q :
  (forall u v, q <> u ++ BSL :: SEP :: v) ->
  Forall (fun b => starts_with_sep b = false) (tl (split_on BSL q)).
Proof.
  induction q as [|c q IH]; intro H; simpl; auto.
  assert (Hq : forall u v, q <> u ++ BSL :: SEP :: v).
  { intros u v F. apply (H (c :: u) v). simpl. rewrite F. reflexivity. }
  specialize (IH Hq). destruct (chr_eqb c BSL) eqn:E.
  - apply chr_eqb_eq in E. subst c. simpl.
    destruct (split_on BSL q) as [|p ps] eqn:Es; [exfalso; apply (split_on_nonnil BSL q Es)|].
    constructor; auto.
    pose proof (first_starts_split q) as F. rewrite Es in F. simpl in F. rewrite <- F.
    destruct q as [|d q]; auto. simpl. apply chr_eqb_neq. intros ->.
    apply (H [] q). reflexivity.
  - destruct (split_on BSL q) as [|p ps] eqn:Es; [exfalso; apply (split_on_nonnil BSL q Es)|].
    exact IH.
Qed.

Lemma notin_no_bs_sep q : ~ In BSL q -> forall u v, q <> u ++ BSL :: SEP :: v.
Proof. intros H u v E. apply H. rewrite E. apply in_or_app. right. left. auto. Qed.

Lemma notin_no_bs_sep' q : ~ In SEP q -> forall u v, q <> u ++ BSL :: SEP :: v.
Proof. intros H u v E. apply H. rewrite E. apply in_or_app. right. right. left. auto. Qed.

(** Without "..", norm_comps is a filter. *)
Definition real_name (c : str) : bool := negb (str_eqb c [] || str_eqb c (lit ".")).

Lemma norm_filter initial comps : forall acc,
  ~ In (lit "..") comps ->
  norm_comps initial acc comps = rev acc ++ filter real_name comps.
Proof.
  induction comps as [|c cs IH]; intros acc H; cbn [norm_comps filter].
  - rewrite app_nil_r. reflexivity.
  - unfold real_name at 1. destruct (str_eqb c [] || str_eqb c (lit ".")); simpl negb; cbv iota.
    + apply IH. simpl in H. tauto.
    + assert (c <> lit "..") by (intros ->; apply H; left; auto).
      rewrite (proj2 (str_eqb_neq _ _) H0). simpl negb. cbv iota.
      rewrite IH by (simpl in H; tauto). simpl. rewrite <- app_assoc. reflexivity.
Qed.

(** No component but the last ends with a backslash. *)
Definition ends_bs (c : str) : Prop := exists d, c = d ++ [BSL].
Fixpoint bs_last (cs : list str) : Prop :=
  match cs with
  | [] => True
  | c :: cs' => (cs' <> [] -> ~ ends_bs c) /\ bs_last cs'
  end.

Lemma bs_last_filter f cs : bs_last cs -> bs_last (filter f cs).
Proof.
  induction cs as [|c cs IH]; simpl; auto. intros (H1 & H2).
  destruct (f c); simpl; auto. split; auto. intro Hn. apply H1.
  intros ->. apply Hn. reflexivity.
Qed.

Lemma bs_last_split s :
  (forall u v, s <> u ++ BSL :: SEP :: v) -> bs_last (split_on SEP s).
Proof.
  intro H.
  assert (G : forall cs, cs <> [] -> forall pre, pre ++ join_on SEP cs = s ->
     (forall p, In p cs -> ~ In SEP p) -> bs_last cs).
  { clear - H. induction cs as [|c cs IH]; intros Hn pre E Hc; [exact I|].
    destruct cs as [|d cs].
    - simpl. split; auto.
    - change (join_on SEP (c :: d :: cs)) with (c ++ SEP :: join_on SEP (d :: cs)) in E.
      split.
      + intros _ (e & ->). apply (H (pre ++ e) (join_on SEP (d :: cs))).
        rewrite <- E. rewrite <- !app_assoc. reflexivity.
      + apply (IH ltac:(discriminate) (pre ++ c ++ [SEP])).
        * rewrite <- !app_assoc. exact E.
        * intros. apply Hc. right. auto. }
  apply (G (split_on SEP s) (split_on_nonnil _ _) []).
  - simpl. clear. induction s as [|x s IH]; auto. simpl. destruct (chr_eqb x SEP) eqn:E.
    + apply chr_eqb_eq in E. subst.
      destruct (split_on SEP s) as [|l l0] eqn:Es; [exfalso; apply (split_on_nonnil SEP s Es)|].
      change (join_on SEP ([] :: l :: l0)) with (SEP :: join_on SEP (l :: l0)).
      rewrite IH. reflexivity.
    + destruct (split_on SEP s) as [|p ps] eqn:Es; [exfalso; apply (split_on_nonnil SEP s Es)|].
      destruct ps; simpl in *; rewrite IH; reflexivity.
  - intros. eapply split_on_pieces; eauto.
Qed.

Lemma app_split_mid {A} (a b u v : list A) (x : A) :
  a ++ b = u ++ x :: v ->
  (exists w, a = u ++ x :: w /\ v = w ++ b) \/ (exists w, u = a ++ w /\ b = w ++ x :: v).
Proof.
  revert u; induction a as [|y a IH]; intros u E; simpl in *.
  - right. exists u. auto.
  - destruct u as [|z u]; simpl in E; injection E as -> E.
    + left. exists a. auto.
    + destruct (IH u E) as [(w & -> & ->)|(w & -> & ->)]; [left|right]; exists w; auto.
Qed.

Lemma bs_last_join cs :
  bs_last cs -> (forall p, In p cs -> ~ In SEP p) -> Forall (fun c => c <> []) cs ->
  forall u v, join_on SEP cs <> u ++ BSL :: SEP :: v.
Proof.
  induction cs as [|c cs IH]; intros Hb Hc Hn u v E.
  - destruct u; discriminate.
  - destruct cs as [|d cs].
    + simpl in E. apply (Hc c); [left; auto|]. rewrite E. apply in_or_app. right. right. left. auto.
    + change (join_on SEP (c :: d :: cs)) with (c ++ SEP :: join_on SEP (d :: cs)) in E.
      destruct Hb as (Hb1 & Hb2). inversion Hn as [|? ? N1 N2]; subst.
      destruct (app_split_mid _ _ _ _ _ E) as [(w & Hw & Hv)|(w & Hu & Hv)].
      * destruct w as [|y w].
        -- apply Hb1; [discriminate|]. exists u. exact Hw.
        -- injection Hv as Hy _. apply (Hc c); [left; auto|]. rewrite Hw.
           apply in_or_app. right. right. left. auto.
      * destruct w as [|y w]; injection Hv as Hy Hv; [discriminate|].
        apply (IH Hb2 (fun p Hp => Hc p (or_intror Hp)) N2 w v). exact Hv.
Qed.


Lemma split_first c s : forall p ps, split_on c s = p :: ps ->
  (exists v, s ++ [c] = p ++ c :: v) /\
  (forall d, In d ps -> exists u v, s ++ [c] = u ++ c :: d ++ c :: v).
Proof.
  induction s as [|x s IH]; intros p ps E; simpl in E.
  - injection E as <- <-. split; [exists []; reflexivity|]. intros d [].
  - destruct (split_on c s) as [|q qs] eqn:Es; [exfalso; apply (split_on_nonnil c s Es)|].
    destruct (IH q qs eq_refl) as ((v1 & H1) & H2).
    destruct (chr_eqb x c) eqn:Ex; injection E as <- <-.
    + apply chr_eqb_eq in Ex. subst x. split; [exists (s ++ [c]); reflexivity|].
      intros d [<-|Hd].
      * exists [], v1. simpl. rewrite H1. reflexivity.
      * destruct (H2 d Hd) as (u & v & Huv).
        exists (c :: u), v. simpl. rewrite Huv. reflexivity.
    + split.
      * exists v1. simpl. rewrite H1. reflexivity.
      * intros d Hd. destruct (H2 d Hd) as (u & v & Huv).
        exists (x :: u), v. simpl. rewrite Huv. reflexivity.
Qed.

Lemma in_split_bounded c s d :
  In d (split_on c s) -> exists u v, c :: s ++ [c] = u ++ c :: d ++ c :: v.
Proof.
  intro H. destruct (split_on c s) as [|p ps] eqn:E; [destruct H|].
  destruct (split_first c s p ps E) as ((v1 & H1) & H2).
  destruct H as [<-|H].
  - exists [], v1. simpl. rewrite H1. reflexivity.
  - destruct (H2 d H) as (u & v & Huv). exists (c :: u), v. simpl. rewrite Huv. reflexivity.
Qed.

Lemma bounded_in_split c s d u v :
  ~ In c d -> c :: s ++ [c] = u ++ c :: d ++ c :: v -> In d (split_on c s).
Proof.
  intros Hd E. apply (f_equal (split_on c)) in E.
  change (c :: s ++ [c]) with ([] ++ c :: (s ++ c :: [])) in E.
  rewrite !split_on_app in E. rewrite (split_on_notin c d Hd) in E. simpl in E.
  destruct (split_on c u) as [|p0 us] eqn:Eu; [exfalso; apply (split_on_nonnil c u Eu)|].
  simpl in E. injection E as _ E.
  apply (f_equal (@removelast str)) in E. rewrite removelast_last in E. rewrite E.
  change (us ++ d :: split_on c v) with (us ++ [d] ++ split_on c v).
  rewrite app_assoc, removelast_app by apply split_on_nonnil.
  apply in_or_app. left. apply in_or_app. right. left. auto.
Qed.

Lemma names_no_dotdot n : ~ In (lit "..") (names_of n) -> ~ In (lit "..") (split_on SEP n).
Proof.
  intros H F. apply H. unfold names_of. change "\"%char with BSL. change "/"%char with SEP.
  destruct (in_split_bounded _ _ _ F) as (u & v & E).
  apply (bounded_in_split SEP _ _ (replace_chr BSL SEP u) (replace_chr BSL SEP v)).
  - intros [G|[G|[]]]; discriminate.
  - apply (f_equal (replace_chr BSL SEP)) in E. unfold replace_chr in *.
    cbn [map] in E. rewrite !map_app in E. exact E.
Qed.

(** Replacing backslashes and normalising: without "..". *)
Lemma real_name_step h c : real_name c = false -> step h c = h.
Proof. unfold real_name, step. intro E. apply negb_false_iff in E. rewrite E. reflexivity. Qed.

Lemma walk_filter_names h cs :
  walk h (concat (map (split_on BSL) (filter real_name cs))) =
  walk h (concat (map (split_on BSL) cs)).
Proof.
  revert h; induction cs as [|c cs IH]; intro h; auto. cbn [filter map concat].
  destruct (real_name c) eqn:E.
  - cbn [map concat]. rewrite !walk_app. apply IH.
  - rewrite walk_app, IH. f_equal. unfold real_name in E. apply negb_false_iff in E.
    apply orb_true_iff in E. destruct E as [E|E]; apply str_eqb_eq in E; subst; reflexivity.
Qed.

(** The names of [s], separators in the other order. *)
Lemma names_by_sep s :
  names_of s = concat (map (split_on BSL) (split_on SEP s)).
Proof.
  unfold names_of. change "\"%char with BSL. change "/"%char with SEP.
  unfold replace_chr. induction s as [|x s IH]; [reflexivity|]. cbn [map split_on].
  destruct (chr_eqb x SEP) eqn:E.
  - apply chr_eqb_eq in E. subst x. change (chr_eqb SEP BSL) with false. cbv iota.
    rewrite chr_eqb_refl. cbn [map concat split_on app]. rewrite IH. reflexivity.
  - destruct (split_on SEP s) as [|p ps] eqn:Es; [exfalso; apply (split_on_nonnil SEP s Es)|].
    destruct (chr_eqb x BSL) eqn:F.
    + rewrite chr_eqb_refl, IH. cbn [map concat split_on]. rewrite F. reflexivity.
    + rewrite E, IH. cbn [map concat split_on]. rewrite F.
      destruct (split_on BSL p) eqn:Ep; [exfalso; apply (split_on_nonnil BSL p Ep)|]. reflexivity.
Qed.

Lemma names_notin_bs s : ~ In BSL s -> names_of s = split_on SEP s.
Proof.
  intro H. unfold names_of. change "\"%char with BSL. change "/"%char with SEP.
  rewrite replace_notin; auto.
Qed.

(** A name without '/' is its own normal form (except the empty one). *)
Lemma normpath_nosep s : ~ In SEP s -> s <> [] -> normpath s = s.
Proof.
  intros H Hn.
  assert (Hst : starts_with_sep s = false).
  { destruct s as [|c s]; auto. simpl. apply chr_eqb_neq. intros ->. apply H. left. auto. }
  destruct (str_eq_dec s (lit ".")) as [->|Hd]; [reflexivity|].
  destruct s as [|c s'] eqn:Es; [contradiction|]. unfold normpath. rewrite <- Es in *.
  assert (Hcs : norm_comps (starts_with_sep s) [] (split_on SEP s) = [s]).
  { rewrite split_on_notin by auto. cbn [norm_comps].
    rewrite (proj2 (str_eqb_neq s []) Hn), (proj2 (str_eqb_neq s (lit ".")) Hd).
    simpl orb. cbv iota. rewrite Hst. destruct (negb (str_eqb s (lit ".."))); reflexivity. }
  rewrite Hcs.
  assert (Htwo : startswith (lit "//") s = false).
  { rewrite Es in *. simpl in Hst. change (startswith (lit "//") (c :: s'))
      with (chr_eqb "/" c && startswith (lit "/") s').
    destruct (chr_eqb "/" c) eqn:E; auto. apply chr_eqb_eq in E. subst c. discriminate. }
  rewrite Htwo, Hst. simpl. rewrite Es. reflexivity.
Qed.

Lemma concat_repeat_nil k : concat (map (split_on BSL) (repeat [] k)) = repeat [] k.
Proof. induction k as [|k IH]; [reflexivity|]. cbn [repeat map concat]. rewrite IH. reflexivity. Qed.

(** The full statement. *)
Lemma image_path_location cwd dir n :
  plain_name n ->
  resolve cwd (image_path dir n) =
  walk (if starts_with_sep n then [] else resolve cwd dir) (names_of n).
Proof.
  intro Hp. unfold image_path. destruct (str_eq_dec n []) as [->|Hn].
  { simpl normpath. simpl starts_with_sep.
    rewrite image_path_walk; [reflexivity|]. simpl. constructor. }
  assert (Hst : starts_with_sep (normpath n) = starts_with_sep n).
  { destruct (split_normpath n Hn) as (k & H & _). exact H. }
  destruct Hp as [Hp|[Hp|(Hp1 & Hp2)]].
  - (* no backslash *)
    assert (Hb : ~ In BSL (normpath n)).
    { intro F. apply in_normpath in F. destruct F as [F|[F|F]]; try discriminate. auto. }
    rewrite image_path_walk.
    + rewrite <- first_starts_split, Hst. rewrite !names_notin_bs by auto.
      apply walk_normpath; auto. intros ->. reflexivity.
    + rewrite split_on_notin by auto. simpl. constructor.
  - (* no slash *)
    rewrite normpath_nosep by auto. rewrite image_path_walk.
    + rewrite <- first_starts_split. reflexivity.
    + apply no_bs_sep_pieces. apply notin_no_bs_sep'. auto.
  - (* both, without ".." and "\/" *)
    pose proof (names_no_dotdot n Hp1) as Hdd.
    pose proof (bs_last_split n Hp2) as Hbs.
    assert (Hcs : norm_comps (starts_with_sep n) [] (split_on SEP n) =
                  filter real_name (split_on SEP n)).
    { rewrite norm_filter by auto. reflexivity. }
    assert (Hsub : forall p, In p (filter real_name (split_on SEP n)) -> ~ In SEP p).
    { intros p Hpp. apply filter_In in Hpp. eapply split_on_pieces. apply Hpp. }
    assert (Hno : forall u v, normpath n <> u ++ BSL :: SEP :: v).
    { destruct (split_normpath n Hn) as (k & _ & [(_ & _ & E)|(_ & [(_ & E)|(_ & E)])]); rewrite E.
      - rewrite Hcs. clear E. intros u v E.
        assert (J : forall k u, repeat SEP k ++ join_on SEP (filter real_name (split_on SEP n))
                    = u ++ BSL :: SEP :: v -> False).
        { clear k u E. intro k. induction k as [|k IH]; intros u E.
          - simpl in E. revert E. apply bs_last_join.
            + apply bs_last_filter. auto.
            + auto.
            + rewrite Forall_forall. intros x Hx. apply filter_In in Hx.
              destruct Hx as (_ & Hx). unfold real_name in Hx. intros ->. discriminate.
          - destruct u as [|y u]; simpl in E; injection E as E1 E2; [discriminate|].
            eapply IH; eauto. }
        eapply J; eauto.
      - intros u v F. destruct u as [|? [|]]; discriminate.
      - intros u v F. assert (In BSL (repeat SEP k)).
        { rewrite F. apply in_or_app. right. left. auto. }
        apply repeat_spec in H. discriminate. }
    rewrite image_path_walk by (apply no_bs_sep_pieces; auto).
    rewrite <- first_starts_split, Hst. rewrite !names_by_sep.
    destruct (split_normpath n Hn) as (k & _ & [(E & _ & _)|(E & [(E0 & E')|(E0 & E')])]).
    + rewrite E, Hcs, map_app, concat_app, concat_repeat_nil, walk_app, walk_nils.
      apply walk_filter_names.
    + rewrite E'. rewrite Hcs in E.
      rewrite <- (walk_filter_names _ (split_on SEP n)), E. reflexivity.
    + rewrite E'. rewrite Hcs in E.
      rewrite <- (walk_filter_names _ (split_on SEP n)), E.
      assert (R : split_on SEP (repeat SEP k) = repeat [] (S k)).
      { clear. induction k; simpl in *; auto. rewrite IHk. reflexivity. }
      rewrite R, concat_repeat_nil, walk_nils. reflexivity.
Qed.

Lemma absolute_starts n : absolute n <-> starts_with_sep n = true.
Proof.
  split.
  - intros (r & ->). reflexivity.
  - destruct n as [|c n]; simpl; [discriminate|]. intro H. apply chr_eqb_eq in H. subst.
    exists n. reflexivity.
Qed.

Lemma image_path_location_cases cwd dir n :
  plain_name n ->
  (absolute n -> resolve cwd (image_path dir n) = walk [] (names_of n)) /\
  (~ absolute n -> resolve cwd (image_path dir n) = walk (resolve cwd dir) (names_of n)).
Proof.
  intro H. rewrite (image_path_location cwd dir n H). rewrite absolute_starts.
  destruct (starts_with_sep n); split; intro F; auto; [contradiction F; auto|discriminate].
Qed.

Lemma bs_slash_escapes :
  exists cwd dir n, ~ absolute n /\
  resolve cwd (image_path dir n) <> walk (resolve cwd dir) (names_of n).
Proof.
  exists [], (lit "/data"), (lit "images\/a.png"). split.
  - rewrite absolute_starts. vm_compute. discriminate.
  - vm_compute. discriminate.
Qed.

Lemma mixed_dotdot_wrong :
  exists cwd dir n, ~ absolute n /\ (forall u v, n <> u ++ "\"%char :: "/"%char :: v) /\
  resolve cwd (image_path dir n) <> walk (resolve cwd dir) (names_of n).
Proof.
  exists [], (lit "/data"), (lit "a\b/../c"). split; [|split].
  - rewrite absolute_starts. vm_compute. discriminate.
  - intros u v E. vm_compute in E.
    do 8 (destruct u as [|? u]; simpl in E; [discriminate|injection E as _ E]).
    destruct u; discriminate.
  - vm_compute. discriminate.
Qed.
