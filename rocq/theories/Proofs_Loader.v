From Coq Require Import Ascii String List Bool Arith ZArith QArith Lia Permutation.
From Verif Require Import Base_Prelude Base_Str Base_Num Base_Sum Model_Path Model_Parser
  Model_Images Model_Loader Spec_Images Spec_Loader Proofs_Images.
Import ListNotations.
Open Scope nat_scope.

Definition compat (sh : nat * nat) (shapes : list (nat * nat)) : Prop :=
  shapes = [] \/ shapes = [sh].

Lemma shape_eqb_refl s : shape_eqb s s = true.
Proof. apply shape_eqb_eq. auto. Qed.

Lemma add_shape_compat sh shapes : compat sh shapes -> add_shape sh shapes = [sh].
Proof.
  intros [-> | ->]; unfold add_shape; simpl; auto. rewrite shape_eqb_refl. reflexivity.
Qed.

Lemma add_shape_cases s shapes :
  length shapes <= 1 ->
  (compat s shapes /\ add_shape s shapes = [s]) \/
  (exists sh, sh <> s /\ shapes = [sh] /\ length (add_shape s shapes) = 2).
Proof.
  intro H. destruct shapes as [|sh [|? ?]]; [left|..|simpl in H; lia].
  - split; [left; auto|reflexivity].
  - unfold add_shape. simpl. destruct (shape_eqb s sh) eqn:E.
    + apply shape_eqb_eq in E. subst. left. split; [right; auto|reflexivity].
    + right. exists sh. split; [|auto]. intros ->. rewrite shape_eqb_refl in E. discriminate.
Qed.

(** Outcome of loading one list of files. *)
Inductive loads (fs : fsys) (path : str) (shapes : list (nat * nat)) (fnames : list str)
  : res (list image * list (nat * nat)) -> Prop :=
| ld_ok ims s :
    series fs path fnames ims -> length s <= 1 ->
    (forall im, In im ims -> s = [shape im]) ->
    (shapes <> [] -> s = shapes) -> (ims = [] -> s = shapes) ->
    loads fs path shapes fnames (Ok (ims, s))
| ld_missing f : In f fnames -> found fs path f = None ->
    loads fs path shapes fnames (Err IOError)
| ld_shape :
    (forall sh, compat sh shapes ->
       exists f im, In f fnames /\ found fs path f = Some im /\ shape im <> sh) ->
    loads fs path shapes fnames (Err ValueError).

Lemma load_imgs_loads fs path : forall fnames shapes,
  length shapes <= 1 -> loads fs path shapes fnames (load_imgs fs path shapes fnames).
Proof.
  induction fnames as [|f rest IH]; intros shapes Hl; cbn [load_imgs].
  - apply ld_ok; auto. + constructor. + intros im [].
  - destruct (fs (path_join path [f])) as [im|] eqn:E.
    2:{ apply (ld_missing _ _ _ _ f); [left; auto|exact E]. }
    destruct (add_shape_cases (shape im) shapes Hl) as [(C & ->)|(sh & Hne & -> & El)].
    + simpl. specialize (IH [shape im] ltac:(simpl; lia)).
      inversion IH as [ims s Hs Hls Hi H1 H2 Heq|g Hg Hf Heq|Hx Heq]; subst; simpl.
      * assert (Es : s = [shape im]) by (apply H1; discriminate). subst s.
        apply ld_ok; auto.
        -- constructor; auto.
        -- intros x [<-|Hx]; auto.
        -- intro Hn. destruct C as [->| ->]; [contradiction|reflexivity].
        -- discriminate.
      * apply (ld_missing _ _ _ _ g); [right; auto|auto].
      * apply ld_shape. intros sh0 C0. destruct (shape_eqb (shape im) sh0) eqn:Es.
        -- apply shape_eqb_eq in Es. subst sh0.
           destruct (Hx (shape im)) as (g & im' & Hg & Hf & Hne); [right; auto|].
           exists g, im'. split; [right; auto|auto].
        -- exists f, im. split; [left; auto|]. split; auto. intro Q.
           rewrite Q, shape_eqb_refl in Es. discriminate.
    + rewrite El. simpl. apply ld_shape. intros sh0 [C0|C0]; [discriminate|].
      injection C0 as <-. exists f, im. split; [left; auto|]. split; auto.
Qed.

Lemma get_int_one_shape ims s :
  (forall im, In im ims -> s = [shape im]) -> exists r, get_int_imgs ims = Ok r.
Proof.
  destruct ims as [|im ims]; intro H.
  - unfold get_int_imgs. simpl. eauto.
  - assert (Hs : same_shape (ih im) (iw im) (im :: ims)).
    { unfold same_shape. apply Forall_forall. intros x Hx.
      pose proof (H x Hx) as E1. rewrite (H im (or_introl eq_refl)) in E1.
      unfold shape in E1. injection E1. auto. }
    destruct (get_int_ok _ _ (im :: ims) ltac:(discriminate) Hs) as (r & E & _). eauto.
Qed.

(** ** All files of a group of items *)
Section Build.
Context {D : Type} (build : int_imgs -> D) (fs : fsys) (path : str).

Definition good_point (p : pyfloat * list str) (y : pyfloat * D) : Prop :=
  fst y = fst p /\
  exists ims r, series fs path (snd p) ims /\ get_int_imgs ims = Ok r /\ snd y = build r.

(** Shape bookkeeping for a list of files. *)
Definition after (shapes s : list (nat * nat)) (files : list str) : Prop :=
  length s <= 1 /\ (shapes <> [] -> s = shapes) /\ (files = [] -> s = shapes) /\
  (forall f im, In f files -> found fs path f = Some im -> s = [shape im]).

Definition bad (shapes : list (nat * nat)) (files : list str) (e : exn) : Prop :=
  (e = IOError /\ exists f, In f files /\ found fs path f = None) \/
  (e = ValueError /\ forall sh, compat sh shapes ->
     exists f im, In f files /\ found fs path f = Some im /\ shape im <> sh).

Lemma series_all_found fnames ims :
  series fs path fnames ims -> Forall (fun f => found fs path f <> None) fnames.
Proof. unfold series. induction 1 as [|f im l l' H H' IH]; constructor; auto. congruence. Qed.

Lemma series_in fnames ims f im :
  series fs path fnames ims -> In f fnames -> found fs path f = Some im -> In im ims.
Proof.
  unfold series. induction 1 as [|g x l l' H H' IH]; simpl; [tauto|]. intros [->|Hf] E.
  - left. congruence.
  - right. auto.
Qed.

Lemma point_outcome shapes fnames :
  length shapes <= 1 ->
  (exists d s, get_imgs_data build fs path shapes fnames = Ok (d, s) /\
     good_point (FNan, fnames) (FNan, d) /\ Forall (fun f => found fs path f <> None) fnames /\
     after shapes s fnames) \/
  (exists e, get_imgs_data build fs path shapes fnames = Err e /\ bad shapes fnames e).
Proof.
  intro Hl. unfold get_imgs_data. pose proof (load_imgs_loads fs path fnames shapes Hl) as H.
  inversion H as [ims s Hs Hls Hi H1 H2 Heq|g Hg Hf Heq|Hx Heq]; subst; simpl.
  - destruct (get_int_one_shape ims s Hi) as (r & Er). rewrite Er. simpl. left.
    exists (build r), s. split; [reflexivity|]. split; [|split].
    + split; [reflexivity|]. exists ims, r. simpl. auto.
    + eapply series_all_found; eauto.
    + split; auto. split; auto. split.
      * intros ->. inversion Hs; subst. auto.
      * intros f im Hin Hfd. apply Hi. eapply series_in; eauto.
  - right. exists IOError. split; [reflexivity|]. left. split; auto. eauto.
  - right. exists ValueError. split; [reflexivity|]. right. auto.
Qed.

Lemma after_app a b c f g :
  after a b f -> after b c g -> after a c (f ++ g).
Proof.
  intros (A1 & A2 & A3 & A4) (B1 & B2 & B3 & B4). split; auto. split; [|split].
  - intro Hn. rewrite B2; auto. rewrite A2; auto.
  - intro E. apply app_eq_nil in E. destruct E as (-> & ->). rewrite B3; auto.
  - intros x im Hx E. apply in_app_or in Hx. destruct Hx as [Hx|Hx].
    + rewrite B2.
      * eapply A4; eauto.
      * rewrite (A4 x im Hx E). discriminate.
    + eapply B4; eauto.
Qed.

Lemma bad_later a b f g e :
  after a b f -> length a <= 1 -> Forall (fun x => found fs path x <> None) f ->
  bad b g e -> bad a (f ++ g) e.
Proof.
  intros (A1 & A2 & A3 & A4) Hl Hall [(-> & x & Hx & E)|(-> & H)].
  - left. split; auto. exists x. split; auto. apply in_or_app. auto.
  - right. split; auto. intros sh C.
    assert (Hb : compat sh b \/ exists sh', b = [sh'] /\ sh' <> sh).
    { destruct b as [|sh' [|? ?]]; [left; left; auto| |simpl in A1; lia].
      destruct (shape_eqb sh' sh) eqn:E.
      - apply shape_eqb_eq in E. subst. left. right. auto.
      - right. exists sh'. split; auto. intros ->. rewrite shape_eqb_refl in E. discriminate. }
    destruct Hb as [Hb|(sh' & -> & Hne)].
    + destruct (H sh Hb) as (x & im & Hx & E & N). exists x, im. split; auto.
      apply in_or_app. auto.
    + destruct f as [|x f].
      * rewrite <- A3 in C by auto. destruct C as [C|C]; [discriminate|].
        injection C as <-. contradiction.
      * inversion Hall as [|? ? Hx Hr]; subst. destruct (found fs path x) as [im|] eqn:E; [|contradiction].
        exists x, im. split; [left; auto|]. split; auto.
        pose proof (A4 x im (or_introl eq_refl) E) as F. injection F as F. congruence.
Qed.

Lemma bad_prefix a f g e : bad a f e -> bad a (f ++ g) e.
Proof.
  intros [(-> & x & Hx & E)|(-> & H)].
  - left. split; auto. exists x. split; auto. apply in_or_app. auto.
  - right. split; auto. intros sh C. destruct (H sh C) as (x & im & Hx & E & N).
    exists x, im. split; auto. apply in_or_app. auto.
Qed.

Lemma points_outcome : forall items shapes,
  length shapes <= 1 ->
  (exists d s, load_points build fs path shapes items = Ok (d, s) /\
     Forall2 good_point items d /\
     Forall (fun f => found fs path f <> None) (flat_map snd items) /\
     after shapes s (flat_map snd items)) \/
  (exists e, load_points build fs path shapes items = Err e /\ bad shapes (flat_map snd items) e).
Proof.
  induction items as [|[p fnames] rest IH]; intros shapes Hl; simpl.
  - left. exists [], shapes. split; [reflexivity|]. split; [constructor|]. split; [constructor|].
    split; auto. split; auto. split; auto. intros f im [].
  - destruct (point_outcome shapes fnames Hl) as [(d & s & E & G & Af & A)|(e & E & B)]; rewrite E; simpl.
    + destruct (IH s (proj1 A)) as [(ds & s' & E' & G' & Af' & A')|(e & E' & B')]; rewrite E'; simpl.
      * left. exists ((p, d) :: ds), s'. split; [reflexivity|]. split; [|split].
        -- constructor; auto. destruct G as (_ & G). split; [reflexivity|exact G].
        -- apply Forall_app. auto.
        -- eapply after_app; eauto.
      * right. exists e. split; [reflexivity|]. eapply bad_later; eauto.
    + right. exists e. split; [reflexivity|]. apply bad_prefix. auto.
Qed.

Lemma existsb_dark inner : existsb (feq fzero) (map fst inner) = true <-> has_dark inner.
Proof. unfold has_dark. rewrite existsb_exists. reflexivity. Qed.

Lemma exposures_outcome : forall items shapes,
  length shapes <= 1 ->
  (exists d s, load_exposures build fs path shapes items = Ok (d, s) /\
     holds build fs path items d /\ all_complete items /\
     all_found fs path items /\ after shapes s (files_of items)) \/
  (exists e, load_exposures build fs path shapes items = Err e /\
     (bad shapes (files_of items) e \/ (e = ValueError /\ ~ all_complete items))).
Proof.
  induction items as [|[e inner] rest IH]; intros shapes Hl; cbn [load_exposures].
  - left. exists [], shapes. split; [reflexivity|]. split; [constructor|]. split; [constructor|].
    split; [constructor|]. split; auto. split; auto. split; auto. intros f im [].
  - destruct (existsb (feq fzero) (map fst inner)) eqn:Ed; simpl negb; cbv iota.
    2:{ right. exists ValueError. split; [reflexivity|]. right. split; auto.
        intro C. inversion C as [|? ? (Hd & _)]; subst. apply existsb_dark in Hd. simpl in *. congruence. }
    rewrite map_length. destruct (length inner <? 2) eqn:E2.
    { right. exists ValueError. split; [reflexivity|]. right. split; auto.
      intro C. inversion C as [|? ? (_ & Hd)]; subst. simpl in Hd. apply Nat.ltb_lt in E2. lia. }
    apply Nat.ltb_ge in E2. apply existsb_dark in Ed.
    destruct (points_outcome inner shapes Hl) as [(ds & s & E & G & Af & A)|(x & E & B)]; rewrite E; simpl bind.
    + destruct (IH s (proj1 A)) as [(es & s' & E' & G' & C' & Af' & A')|(x & E' & B')]; rewrite E'; simpl bind.
      * left. exists ((e, ds) :: es), s'. split; [reflexivity|]. split; [|split; [|split]].
        -- constructor; auto.
        -- constructor; auto. split; auto.
        -- unfold all_found, files_of in *. simpl. apply Forall_app. auto.
        -- unfold files_of in *. simpl. eapply after_app; eauto.
      * right. exists x. split; [reflexivity|]. destruct B' as [B'|(-> & N)].
        -- left. unfold files_of. simpl. eapply bad_later; eauto.
        -- right. split; auto. intro C. inversion C; auto.
    + right. exists x. split; [reflexivity|]. left. unfold files_of. simpl. apply bad_prefix. auto.
Qed.

Lemma series_fun fnames a b : series fs path fnames a -> series fs path fnames b -> a = b.
Proof.
  unfold series. intro H. revert b. induction H as [|f im l l' E H IH]; intros b Hb; inversion Hb; subst; auto.
  f_equal; [congruence|]. auto.
Qed.

Lemma holds_fun es a : holds build fs path es a -> forall b, holds build fs path es b -> a = b.
Proof.
  induction 1 as [|[e inner] [e' d] l l' (E & H) H' IH]; intros b Hb; inversion Hb; subst; auto.
  f_equal; auto. destruct y as (e2 & d2). destruct H2 as (E2 & H2). simpl in *. subst. f_equal.
  clear - H H2. revert d2 H2. induction H as [|[p f] [p' x] l l' (E & ims & r & S & R & X) H IH];
    intros d2 Hd; inversion Hd; subst; auto.
  destruct y as (p2 & x2). destruct H2 as (E2 & ims2 & r2 & S2 & R2 & X2). simpl in *. subst.
  rewrite (series_fun _ _ _ S2 S) in R2. rewrite R in R2. injection R2 as <-. f_equal. auto.
Qed.

Lemma holds_perm es es' d : Permutation es es' -> holds build fs path es d ->
  exists d', Permutation d d' /\ holds build fs path es' d'.
Proof. intros P H. unfold holds in *. eapply Permutation_Forall2; eauto. Qed.
End Build.

Lemma files_of_app a b : files_of (a ++ b) = files_of a ++ files_of b.
Proof. unfold files_of. apply flat_map_app. Qed.

Lemma files_perm a b f : Permutation a b -> In f (files_of a) -> In f (files_of b).
Proof.
  intros P H. unfold files_of in *. apply in_flat_map in H. destruct H as (x & Hx & Hf).
  apply in_flat_map. exists x. split; auto. eapply Permutation_in; eauto.
Qed.

(** The four conditions for a successful load. *)
Definition loadable (fs : fsys) (path : str) (ot os : exposures) : Prop :=
  all_complete (ot ++ os) /\ all_found fs path (ot ++ os) /\
  (exists sh, all_shape fs path sh (ot ++ os)) /\ files_of (ot ++ os) <> [].

Lemma load_outcome fs path ot os :
  (exists d, load_data fs path ot os = Ok d /\ loadable fs path ot os /\
     holds temporal_summary fs path ot (l_temporal d) /\
     holds (fun r => r) fs path os (l_spatial d) /\
     all_shape fs path (l_height d, l_width d) (ot ++ os)) \/
  (exists e, load_data fs path ot os = Err e /\
     ((e = IOError /\ ~ all_found fs path (ot ++ os)) \/
      (e = ValueError /\ (~ all_complete (ot ++ os) \/
           ~ exists sh, all_shape fs path sh (ot ++ os))) \/
      (e = KeyError /\ files_of (ot ++ os) = []))).
Proof.
  unfold load_data, loadable, all_complete, all_found, all_shape. rewrite !files_of_app.
  destruct (exposures_outcome temporal_summary fs path ot [] ltac:(simpl; lia))
    as [(t & s1 & E & H1 & C1 & F1 & A1)|(e & E & B)]; rewrite E; simpl bind.
  2:{ right. exists e. split; [reflexivity|].
      destruct B as [[(-> & f & Hf & En)|(-> & Hx)]|(-> & N)].
      - left. split; auto. rewrite Forall_forall. intro G. apply (G f); auto. apply in_or_app. auto.
      - right. left. split; auto. right. intros (sh & G).
        destruct (Hx sh) as (f & im & Hf & Ef & N); [left; auto|].
        apply N. apply (G f); auto. apply in_or_app. auto.
      - right. left. split; auto. left. intro C. apply Forall_app in C. tauto. }
  destruct (exposures_outcome (fun r => r) fs path os s1 (proj1 A1))
    as [(s & s2 & E' & H2 & C2 & F2 & A2)|(e & E' & B)]; rewrite E'; simpl bind.
  2:{ right. exists e. split; [reflexivity|].
      destruct B as [B|(-> & N)].
      - pose proof (bad_later fs path [] s1 (files_of ot) (files_of os) e A1 ltac:(simpl; lia) F1 B) as B'.
        destruct B' as [(-> & f & Hf & En)|(-> & Hx)].
        + left. split; auto. rewrite Forall_forall. intro G. apply (G f); auto.
        + right. left. split; auto. right. intros (sh & G).
          destruct (Hx sh) as (f & im & Hf & Ef & N); [left; auto|]. apply N. apply (G f); auto.
      - right. left. split; auto. left. intro C. apply Forall_app in C. tauto. }
  pose proof (after_app fs path [] s1 s2 _ _ A1 A2) as A.
  destruct s2 as [|sh s2'].
  - right. exists KeyError. split; [reflexivity|]. right. right. split; auto.
    destruct (files_of ot ++ files_of os) as [|f fl] eqn:Ef; auto. exfalso.
    assert (Hf : Forall (fun f => found fs path f <> None) (files_of ot ++ files_of os))
      by (apply Forall_app; split; auto).
    rewrite Ef in Hf. inversion Hf as [|? ? Hx]; subst.
    destruct (found fs path f) as [im|] eqn:Em; [|contradiction].
    destruct A as (_ & _ & _ & A). specialize (A f im).
    specialize (A (or_introl eq_refl) Em). discriminate.
  - left. eexists. split; [reflexivity|]. cbn [l_temporal l_spatial l_height l_width].
    assert (S : forall f im, In f (files_of ot ++ files_of os) -> found fs path f = Some im -> shape im = sh).
    { intros f im Hf Em. destruct A as (_ & _ & _ & A). specialize (A f im Hf Em). congruence. }
    repeat split; auto.
    + apply Forall_app. auto.
    + apply Forall_app. auto.
    + exists sh. auto.
    + intro En. destruct A as (_ & _ & A & _). specialize (A En). discriminate.
    + intros f im Hf Em. destruct sh. simpl. apply (S f); auto.
Qed.

Lemma load_success_iff fs path ot os :
  (exists d, load_data fs path ot os = Ok d) <-> loadable fs path ot os.
Proof.
  destruct (load_outcome fs path ot os) as [(d & E & L & _)|(e & E & B)]; split; eauto.
  - intros (d & F). congruence.
  - intros (L1 & L2 & L3 & L4). exfalso. destruct B as [(_ & N)|[(_ & [N|N])|(_ & N)]]; auto.
Qed.

Lemma load_error_class fs path ot os e :
  load_data fs path ot os = Err e ->
  (e = IOError /\ ~ all_found fs path (ot ++ os)) \/
  (e = ValueError /\ (~ all_complete (ot ++ os) \/
       ~ exists sh, all_shape fs path sh (ot ++ os))) \/
  (e = KeyError /\ files_of (ot ++ os) = []).
Proof.
  intro H. destruct (load_outcome fs path ot os) as [(d & E & _)|(e' & E & B)]; [congruence|].
  rewrite H in E. injection E as <-. auto.
Qed.

Lemma load_shape fs path ot os d :
  load_data fs path ot os = Ok d -> all_shape fs path (l_height d, l_width d) (ot ++ os).
Proof.
  intro H. destruct (load_outcome fs path ot os) as [(d' & E & _ & _ & _ & S)|(e' & E & B)]; [|congruence].
  rewrite H in E. injection E as <-. auto.
Qed.

Lemma load_holds fs path ot os d :
  load_data fs path ot os = Ok d ->
  holds temporal_summary fs path ot (l_temporal d) /\ holds (fun r => r) fs path os (l_spatial d).
Proof.
  intro H. destruct (load_outcome fs path ot os) as [(d' & E & _ & H1 & H2 & S)|(e' & E & B)]; [|congruence].
  rewrite H in E. injection E as <-. auto.
Qed.

Lemma load_mismatch fs path ot os f g a b :
  In f (files_of (ot ++ os)) -> In g (files_of (ot ++ os)) ->
  found fs path f = Some a -> found fs path g = Some b -> shape a <> shape b ->
  exists e, load_data fs path ot os = Err e.
Proof.
  intros Hf Hg Ea Eb N.
  destruct (load_outcome fs path ot os) as [(d' & E & _ & _ & _ & S)|(e' & E & B)]; eauto.
  exfalso. apply N. rewrite (S f a Hf Ea), (S g b Hg Eb). reflexivity.
Qed.

Lemma loadable_perm fs path ot os ot' os' :
  Permutation ot ot' -> Permutation os os' -> loadable fs path ot os -> loadable fs path ot' os'.
Proof.
  intros Pt Ps (L1 & L2 & (sh & L3) & L4).
  pose proof (Permutation_app Pt Ps) as P.
  assert (In_f : forall f, In f (files_of (ot' ++ os')) -> In f (files_of (ot ++ os))).
  { intros f. apply files_perm. apply Permutation_sym. auto. }
  split; [|split; [|split]].
  - unfold all_complete in *. eapply Permutation_Forall; eauto.
  - unfold all_found in *. rewrite Forall_forall in *. auto.
  - exists sh. unfold all_shape in *. eauto.
  - intro E. destruct (files_of (ot ++ os)) as [|f l] eqn:F; [contradiction|].
    assert (G : In f (files_of (ot' ++ os'))).
    { eapply files_perm; [exact P|]. rewrite F. left. auto. }
    rewrite E in G. destruct G.
Qed.

Lemma load_order fs path ot os ot' os' d :
  Permutation ot ot' -> Permutation os os' ->
  load_data fs path ot os = Ok d ->
  exists d', load_data fs path ot' os' = Ok d' /\
    Permutation (l_temporal d) (l_temporal d') /\ Permutation (l_spatial d) (l_spatial d') /\
    l_height d' = l_height d /\ l_width d' = l_width d.
Proof.
  intros Pt Ps H.
  assert (L : loadable fs path ot os) by (apply load_success_iff; eauto).
  pose proof (loadable_perm _ _ _ _ _ _ Pt Ps L) as L'.
  destruct (proj2 (load_success_iff fs path ot' os') L') as (d' & H').
  exists d'. split; auto.
  destruct (load_holds _ _ _ _ _ H) as (T & S). destruct (load_holds _ _ _ _ _ H') as (T' & S').
  destruct (holds_perm _ _ _ _ _ _ Pt T) as (t2 & P2 & T2).
  destruct (holds_perm _ _ _ _ _ _ Ps S) as (s2 & Q2 & S2).
  rewrite (holds_fun _ _ _ _ _ T' _ T2), (holds_fun _ _ _ _ _ S' _ S2).
  split; auto. split; auto.
  pose proof (load_shape _ _ _ _ _ H) as A. pose proof (load_shape _ _ _ _ _ H') as A'.
  destruct L' as (_ & F' & _ & N'). destruct (files_of (ot' ++ os')) as [|f l] eqn:Ef; [contradiction|].
  unfold all_found in F'. rewrite Ef in F'. inversion F' as [|? ? Hx]; subst.
  destruct (found fs path f) as [im|] eqn:Em; [|contradiction].
  assert (E1 : shape im = (l_height d', l_width d')).
  { apply (A' f); auto. rewrite Ef. left. auto. }
  assert (E2 : shape im = (l_height d, l_width d)).
  { apply (A f); auto. eapply files_perm; [apply Permutation_sym, (Permutation_app Pt Ps)|].
    rewrite Ef. left. auto. }
  rewrite E1 in E2. injection E2. auto.
Qed.

(** ** Forms used in the property file *)
Lemma one_shape_reported fs path ot os d f im :
  load_data fs path ot os = Ok d ->
  In f (files_of ot) \/ In f (files_of os) -> fs (path_join path [f]) = Some im ->
  ih im = l_height d /\ iw im = l_width d.
Proof.
  intros H Hf E. pose proof (load_shape _ _ _ _ _ H f im) as S. rewrite files_of_app in S.
  specialize (S (in_or_app _ _ _ Hf) E). unfold shape in S. injection S. auto.
Qed.

Lemma not_all_found fs path es :
  ~ all_found fs path es -> exists f, In f (files_of es) /\ found fs path f = None.
Proof.
  unfold all_found. induction (files_of es) as [|f l IH]; intro H.
  - exfalso. apply H. constructor.
  - destruct (found fs path f) as [im|] eqn:E.
    + destruct IH as (g & Hg & Eg).
      * intro F. apply H. constructor; auto. congruence.
      * exists g. split; [right|]; auto.
    + exists f. split; [left|]; auto.
Qed.

Lemma different_shapes_raise fs path ot os f g a b :
  In f (files_of ot ++ files_of os) -> In g (files_of ot ++ files_of os) ->
  fs (path_join path [f]) = Some a -> fs (path_join path [g]) = Some b ->
  (ih a, iw a) <> (ih b, iw b) ->
  exists e, load_data fs path ot os = Err e /\ (e = IOError \/ e = ValueError).
Proof.
  rewrite <- files_of_app. intros Hf Hg Ea Eb N.
  destruct (load_mismatch fs path ot os f g a b Hf Hg Ea Eb N) as (e & E).
  exists e. split; auto.
  destruct (load_error_class _ _ _ _ _ E) as [(-> & _)|[(-> & _)|(_ & En)]]; auto.
  rewrite En in Hf. destruct Hf.
Qed.

Lemma visiting_order fs path ot os ot' os' :
  Permutation ot ot' -> Permutation os os' ->
  (exists d d', load_data fs path ot os = Ok d /\ load_data fs path ot' os' = Ok d' /\
     Permutation (l_temporal d) (l_temporal d') /\
     Permutation (l_spatial d) (l_spatial d') /\
     l_height d' = l_height d /\ l_width d' = l_width d) \/
  (exists e e', load_data fs path ot os = Err e /\ load_data fs path ot' os' = Err e').
Proof.
  intros Pt Ps. destruct (load_data fs path ot os) as [d|e] eqn:E.
  - left. destruct (load_order _ _ _ _ _ _ _ Pt Ps E) as (d' & H). exists d, d'. tauto.
  - right. exists e. destruct (load_data fs path ot' os') as [d'|e'] eqn:E'.
    + destruct (load_order _ _ _ _ _ _ _ (Permutation_sym Pt) (Permutation_sym Ps) E')
        as (d & H & _). congruence.
    + eauto.
Qed.

Lemma success_iff fs path ot os :
  (exists d, load_data fs path ot os = Ok d) <->
  (all_complete ot /\ all_complete os) /\
  (forall f, In f (files_of ot ++ files_of os) -> exists im, fs (path_join path [f]) = Some im) /\
  (exists h w, forall f im, In f (files_of ot ++ files_of os) ->
     fs (path_join path [f]) = Some im -> ih im = h /\ iw im = w) /\
  files_of ot ++ files_of os <> [].
Proof.
  rewrite load_success_iff. unfold loadable. rewrite <- files_of_app.
  unfold all_complete. rewrite Forall_app. unfold all_found, all_shape, found. split.
  - intros (C & F & (sh & S) & N). split; auto. split; [|split; auto].
    + intros f Hf. rewrite Forall_forall in F. specialize (F f Hf). destruct (fs (path_join path [f])); eauto. congruence.
    + exists (fst sh), (snd sh). intros f im Hf E. rewrite <- (S f im Hf E). auto.
  - intros (C & F & (h & w & S) & N). split; auto. split; [|split; auto].
    + apply Forall_forall. intros f Hf. destruct (F f Hf) as (im & ->). discriminate.
    + exists (h, w). intros f im Hf E. destruct (S f im Hf E) as (<- & <-). reflexivity.
Qed.

Lemma exception_class fs path ot os e :
  load_data fs path ot os = Err e ->
  (e = IOError /\ exists f, In f (files_of ot ++ files_of os) /\ fs (path_join path [f]) = None) \/
  (e = ValueError /\
     (~ (all_complete ot /\ all_complete os) \/
      ~ exists sh, all_shape fs path sh (ot ++ os))) \/
  (e = KeyError /\ files_of ot ++ files_of os = []).
Proof.
  intro H. rewrite <- files_of_app.
  destruct (load_error_class _ _ _ _ _ H) as [(-> & N)|[(-> & [N|N])|N]]; auto.
  - left. split; auto. apply not_all_found. auto.
  - right. left. split; auto. left. unfold all_complete in *. rewrite <- Forall_app. auto.
Qed.
