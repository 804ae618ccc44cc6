(** Reading texts that are known up to some unknown ordinary parts. *)
From Coq Require Import Ascii String List Bool Arith Lia.
From Verif Require Import Base_Prelude Base_Str Spec_Sheet.
Import ListNotations.
Open Scope nat_scope.

Section Sym.
Context {P : Type} (ev : P -> str).

Inductive sym : Type :=
| C (c : ascii)
| V (p : P).

Definition ex1 (x : sym) : str := match x with C c => [c] | V p => ev p end.
Definition expand (l : list sym) : str := flat_map ex1 l.

Lemma expand_app a b : expand (a ++ b) = expand a ++ expand b.
Proof. apply flat_map_app. Qed.

Lemma expand_text s : expand (map C s) = s.
Proof. induction s; cbn; [reflexivity|]. f_equal. exact IHs. Qed.

Fixpoint vars (l : list sym) : list P :=
  match l with
  | [] => []
  | C _ :: l' => vars l'
  | V p :: l' => p :: vars l'
  end.

Lemma vars_app a b : vars (a ++ b) = vars a ++ vars b.
Proof. induction a as [|[c|p] a IH]; cbn; rewrite ?IH; reflexivity. Qed.

Definition plain (l : list sym) : Prop := Forall (fun p => ordinary (ev p)) (vars l).

Lemma plain_app a b : plain (a ++ b) <-> plain a /\ plain b.
Proof. unfold plain. rewrite vars_app. apply Forall_app. Qed.

(** ** Comments *)

Fixpoint svis (comment : bool) (l : list sym) : option (bool * list sym) :=
  match l with
  | [] => Some (comment, [])
  | C c :: l' =>
      if comment then svis (negb (chr_eqb c NL)) l'
      else if chr_eqb c "%" then svis true l'
      else if chr_eqb c "\" then
        match l' with
        | C d :: l'' => match svis false l'' with Some (b, r) => Some (b, C c :: C d :: r) | None => None end
        | _ => None
        end
      else match svis false l' with Some (b, r) => Some (b, C c :: r) | None => None end
  | V p :: l' =>
      if comment then None
      else match svis false l' with Some (b, r) => Some (b, V p :: r) | None => None end
  end.

Lemma ordinary_cons c s : ordinary (c :: s) ->
  chr_eqb c "%" = false /\ chr_eqb c "\" = false /\ chr_eqb c "&" = false /\
  chr_eqb c "{" = false /\ chr_eqb c "}" = false /\ ordinary s.
Proof.
  intros H. inversion H as [|x y H1 H2]; subst.
  assert (forall d, In d special -> chr_eqb c d = false).
  { intros d Hd. apply not_true_iff_false. intros E. apply chr_eqb_eq in E. subst. exact (H1 Hd). }
  do 5 (split; [apply H0; vm_compute; tauto|]). exact H2.
Qed.

Lemma visible_ordinary s rest : ordinary s ->
  visible_from false (s ++ rest) = s ++ visible_from false rest.
Proof.
  induction s as [|c s IH]; intros H; [reflexivity|].
  destruct (ordinary_cons _ _ H) as (E1 & E2 & _ & _ & _ & H').
  cbn [app visible_from]. rewrite E1, E2, IH by exact H'. reflexivity.
Qed.

Lemma svis_ok n : forall l b b' l', length l <= n -> plain l -> svis b l = Some (b', l') ->
  plain l' /\ forall rest, visible_from b (expand l ++ rest) = expand l' ++ visible_from b' rest.
Proof.
  induction n as [|n IH]; intros l b b' l' Hn Hp.
  { destruct l; [|cbn in Hn; lia]. cbn. intros H. injection H as <- <-. split; [exact Hp|reflexivity]. }
  destruct l as [|[c|p] l]; cbn [svis].
  - intros H. injection H as <- <-. split; [exact Hp|reflexivity].
  - cbn in Hn. destruct b.
    { intros H. apply IH in H; [|lia|exact Hp]. destruct H as [H1 H2]. split; [exact H1|].
      intros rest. cbn [expand flat_map ex1 app visible_from]. apply H2. }
    destruct (chr_eqb c "%") eqn:E1.
    { intros H. apply IH in H; [|lia|exact Hp]. destruct H as [H1 H2]. split; [exact H1|].
      intros rest. cbn [expand flat_map ex1 app visible_from]. rewrite E1. apply H2. }
    destruct (chr_eqb c "\") eqn:E2.
    { destruct l as [|[d|p] l]; try discriminate.
      destruct (svis false l) as [[bb r]|] eqn:E; try discriminate.
      intros H. injection H as <- <-. cbn in Hn.
      apply IH in E; [|lia|exact Hp]. destruct E as [H1 H2]. split; [exact H1|].
      intros rest. cbn [expand flat_map ex1 app visible_from]. rewrite E1, E2.
      fold (expand l) (expand r). rewrite H2. reflexivity. }
    destruct (svis false l) as [[bb r]|] eqn:E; try discriminate.
    intros H. injection H as <- <-.
    apply IH in E; [|lia|exact Hp]. destruct E as [H1 H2]. split; [exact H1|].
    intros rest. cbn [expand flat_map ex1 app visible_from]. rewrite E1, E2.
    fold (expand l) (expand r). rewrite H2. reflexivity.
  - destruct b; try discriminate.
    destruct (svis false l) as [[bb r]|] eqn:E; try discriminate.
    intros H. injection H as <- <-. cbn in Hn. inversion Hp as [|x y Hp1 Hp2]; subst.
    apply IH in E; [|lia|exact Hp2]. destruct E as [H1 H2].
    split; [constructor; assumption|].
    intros rest. cbn [expand flat_map ex1]. fold (expand l) (expand r).
    rewrite <- !app_assoc, visible_ordinary by exact Hp1. f_equal. apply H2.
Qed.

(** ** Prefixes and marks *)

(** [None]: cannot be told. *)
Fixpoint safter (p : str) (l : list sym) : option (option (list sym)) :=
  match p, l with
  | [], _ => Some (Some l)
  | a :: p', C b :: l' => if chr_eqb a b then safter p' l' else Some None
  | _ :: _, _ => None
  end.

Lemma safter_ok p : forall l o, safter p l = Some o -> plain l ->
  match o with
  | Some r => plain r /\ length r <= length l /\
              forall rest, after p (expand l ++ rest) = Some (expand r ++ rest)
  | None => forall rest, after p (expand l ++ rest) = None
  end.
Proof.
  induction p as [|a p IH]; intros l o; cbn [safter].
  - intros H Hp. injection H as <-. repeat split; [exact Hp|lia].
  - destruct l as [|[b|v] l]; try discriminate.
    destruct (chr_eqb a b) eqn:E.
    + intros H Hp. specialize (IH _ _ H Hp). destruct o as [r|].
      * destruct IH as (H1 & H2 & H3). repeat split; [exact H1|cbn; lia|].
        intros rest. cbn [expand flat_map ex1 app after]. rewrite E. apply H3.
      * intros rest. cbn [expand flat_map ex1 app after]. rewrite E. apply IH.
    + intros H Hp. injection H as <-. intros rest. cbn [expand flat_map ex1 app after]. rewrite E. reflexivity.
Qed.

Definition marks (p : str) : bool :=
  match p with c :: _ => existsb (chr_eqb c) special | [] => false end.

Lemma after_ordinary p c s : marks p = true -> ordinary [c] -> after p (c :: s) = None.
Proof.
  destruct p as [|a p]; [discriminate|]. cbn. intros H Hc.
  destruct (chr_eqb a c) eqn:E; [|reflexivity]. exfalso. apply chr_eqb_eq in E. subst a.
  inversion Hc as [|x y H1 H2]; subst. apply H1. apply existsb_exists in H.
  destruct H as (d & Hd & E). apply chr_eqb_eq in E. subst. exact Hd.
Qed.

Fixpoint suntil (p : str) (l : list sym) : option (list sym * list sym) :=
  match safter p l with
  | Some (Some r) => Some ([], r)
  | _ =>
      match l with
      | C c :: l' =>
          match safter p l with
          | Some None => match suntil p l' with Some (a, b) => Some (C c :: a, b) | None => None end
          | _ => None
          end
      | V v :: l' => match suntil p l' with Some (a, b) => Some (V v :: a, b) | None => None end
      | [] => None
      end
  end.

Lemma until_ordinary p s : marks p = true -> ordinary s -> forall rest a b,
  until p rest = Some (a, b) -> until p (s ++ rest) = Some (s ++ a, b).
Proof.
  intros Hp. induction s as [|c s IH]; intros Hs rest a b H; [exact H|].
  inversion Hs as [|x y H1 H2]; subst. cbn [app until].
  rewrite after_ordinary; [|exact Hp|constructor; [exact H1|constructor]].
  rewrite (IH H2 _ _ _ H). reflexivity.
Qed.

Lemma suntil_ok p : marks p = true -> forall l a b, suntil p l = Some (a, b) -> plain l ->
  plain a /\ plain b /\
  forall rest, until p (expand l ++ rest) = Some (expand a, expand b ++ rest).
Proof.
  intros Hm. induction l as [|x l IH]; intros a b.
  - cbn. destruct p as [|c p]; [discriminate|]. discriminate.
  - destruct x as [c|v].
    + cbn [suntil]. destruct (safter p (C c :: l)) as [[r|]|] eqn:E.
      * intros H Hp. injection H as <- <-. destruct (safter_ok _ _ _ E Hp) as (H1 & _ & H3).
        repeat split; [constructor|exact H1|]. intros rest. cbn [expand flat_map ex1 app] in *.
        cbn [until]. rewrite H3. reflexivity.
      * destruct (suntil p l) as [[a' b']|] eqn:E2; try discriminate.
        intros H Hp. injection H as <- <-. destruct (IH _ _ eq_refl Hp) as (H1 & H2 & H3).
        pose proof (safter_ok _ _ _ E Hp) as H4.
        repeat split; [exact H1|exact H2|]. intros rest. cbn [expand flat_map ex1 app] in *.
        cbn [until]. rewrite H4. fold (expand l) (expand a') in *. rewrite H3. reflexivity.
      * discriminate.
    + cbn [suntil]. destruct p as [|c p]; [discriminate|]. cbn [safter].
      destruct (suntil (c :: p) l) as [[a' b']|] eqn:E2; try discriminate.
      intros H Hp. injection H as <- <-. inversion Hp as [|x y Hp1 Hp2]; subst.
      destruct (IH _ _ eq_refl Hp2) as (H1 & H2 & H3).
      repeat split; [constructor; assumption|exact H2|]. intros rest.
      cbn [expand flat_map ex1]. fold (expand l) (expand a'). rewrite <- app_assoc.
      rewrite (until_ordinary (c :: p) (ev v) Hm Hp1 _ _ _ (H3 rest)). reflexivity.
Qed.

(** ** Every position *)

Section Scan.
Context {A B : Type} (f : str -> list A) (fs : list sym -> option (list B)) (g : B -> A).
(** [fs] decides [f] at a known character; [f] finds nothing at an ordinary one. *)
Hypothesis fs_ok : forall l o, plain l -> fs l = Some o -> forall rest, f (expand l ++ rest) = map g o.
Hypothesis f_ordinary : forall c s, ordinary [c] -> f (c :: s) = [].

Fixpoint sscan (l : list sym) : option (list B) :=
  match l with
  | [] => Some []
  | C _ :: l' =>
      match fs l, sscan l' with Some a, Some b => Some (a ++ b) | _, _ => None end
  | V _ :: l' => sscan l'
  end.

Lemma scan_ordinary s rest : ordinary s -> everywhere f (s ++ rest) = everywhere f rest.
Proof using f_ordinary.
  induction s as [|c s IH]; intros H; [reflexivity|]. inversion H as [|x y H1 H2]; subst.
  cbn [app everywhere]. rewrite f_ordinary by (constructor; [exact H1|constructor]). apply IH, H2.
Qed.

Lemma sscan_ok l o : plain l -> sscan l = Some o ->
  forall rest, everywhere f (expand l ++ rest) = map g o ++ everywhere f rest.
Proof using fs_ok f_ordinary.
  revert o. induction l as [|x l IH]; intros o Hp.
  - cbn. intros H. injection H as <-. reflexivity.
  - destruct x as [c|p].
    + cbn [sscan]. destruct (fs (C c :: l)) as [a|] eqn:E; try discriminate.
      destruct (sscan l) as [b|]; try discriminate. intros H. injection H as <-.
      intros rest. rewrite map_app, <- app_assoc, <- (IH b Hp eq_refl rest).
      rewrite <- (fs_ok _ _ Hp E rest). cbn [expand flat_map ex1 app everywhere]. reflexivity.
    + cbn [sscan]. intros H rest. inversion Hp as [|y z Hp1 Hp2]; subst.
      cbn [expand flat_map ex1]. fold (expand l). rewrite <- app_assoc, scan_ordinary by exact Hp1.
      apply IH; assumption.
Qed.
End Scan.

(** ** Pictures *)

Definition sgraphic (l : list sym) : option (list (list sym)) :=
  match safter (lit "\includegraphics[") l with
  | Some (Some r) =>
      match suntil (lit "{") r with
      | Some (_, r) => match suntil (lit "}") r with Some (f, _) => Some [f] | None => None end
      | None => None
      end
  | Some None => Some []
  | None => None
  end.

Lemma sgraphic_ok l o : plain l -> sgraphic l = Some o ->
  forall rest, graphic_at (expand l ++ rest) = map expand o.
Proof.
  unfold sgraphic, graphic_at. intros Hp. destruct (safter _ l) as [[r|]|] eqn:E; try discriminate.
  - destruct (safter_ok _ _ _ E Hp) as (H1 & _ & H3).
    destruct (suntil (lit "{") r) as [[x r2]|] eqn:E2; try discriminate.
    destruct (suntil_ok (lit "{") eq_refl _ _ _ E2 H1) as (_ & H4 & H5).
    destruct (suntil (lit "}") r2) as [[f r3]|] eqn:E3; try discriminate.
    destruct (suntil_ok (lit "}") eq_refl _ _ _ E3 H4) as (_ & _ & H6).
    intros H. injection H as <-. intros rest. rewrite H3, H5, H6. reflexivity.
  - intros H. injection H as <-. intros rest. rewrite (safter_ok _ _ _ E Hp). reflexivity.
Qed.

Lemma graphic_ordinary c s : ordinary [c] -> graphic_at (c :: s) = [].
Proof. intros H. unfold graphic_at. rewrite after_ordinary; [reflexivity|reflexivity|exact H]. Qed.

(** ** Entries *)

Definition sentry (l : list sym) : option (list (list sym * list sym)) :=
  match safter (lit "\textsl{") l with
  | Some (Some r) =>
      match suntil (lit "}") r with
      | Some (label, r) =>
          match safter (lit " \hfill ") r with
          | Some (Some r) => match suntil (lit "\\") r with Some (v, _) => Some [(label, v)] | None => None end
          | Some None => Some []
          | None => None
          end
      | None => None
      end
  | Some None => Some []
  | None => None
  end.

Definition entry_text (e : list sym * list sym) : str * str := (expand (fst e), strip (expand (snd e))).

Lemma sentry_ok l o : plain l -> sentry l = Some o ->
  forall rest, entry_at (expand l ++ rest) = map entry_text o.
Proof.
  unfold sentry, entry_at. intros Hp. destruct (safter _ l) as [[r|]|] eqn:E; try discriminate.
  - destruct (safter_ok _ _ _ E Hp) as (H1 & _ & H3).
    destruct (suntil (lit "}") r) as [[label r2]|] eqn:E2; try discriminate.
    destruct (suntil_ok (lit "}") eq_refl _ _ _ E2 H1) as (_ & H4 & H5).
    destruct (safter (lit " \hfill ") r2) as [[r3|]|] eqn:E3; try discriminate.
    + destruct (safter_ok _ _ _ E3 H4) as (H6 & _ & H7).
      destruct (suntil (lit "\\") r3) as [[v r4]|] eqn:E4; try discriminate.
      destruct (suntil_ok (lit "\\") eq_refl _ _ _ E4 H6) as (_ & _ & H8).
      intros H. injection H as <-. intros rest. rewrite H3, H5, H7, H8. reflexivity.
    + intros H. injection H as <-. intros rest. rewrite H3, H5, (safter_ok _ _ _ E3 H4). reflexivity.
  - intros H. injection H as <-. intros rest. rewrite (safter_ok _ _ _ E Hp). reflexivity.
Qed.

Lemma entry_ordinary c s : ordinary [c] -> entry_at (c :: s) = [].
Proof. intros H. unfold entry_at. rewrite after_ordinary; [reflexivity|reflexivity|exact H]. Qed.

(** ** Tables *)

Fixpoint srows (l : list sym) : option (list (list sym)) :=
  let push t rs := match rs with r :: rs' => (t ++ r) :: rs' | [] => [t] end in
  match l with
  | [] => Some [[]]
  | C c :: l' =>
      if chr_eqb c "\" then
        match l' with
        | C d :: l'' =>
            match srows l'' with
            | Some rs => Some (if chr_eqb d "\" then [] :: rs else push [C c; C d] rs)
            | None => None
            end
        | _ => None
        end
      else option_map (push [C c]) (srows l')
  | V p :: l' => option_map (push [V p]) (srows l')
  end.

Definition push (t : str) (rs : list str) : list str :=
  match rs with r :: rs' => (t ++ r) :: rs' | [] => [t] end.

Lemma rows_ordinary s rest : ordinary s -> rows (s ++ rest) = push s (rows rest).
Proof.
  induction s as [|c s IH]; intros H.
  - cbn. destruct (rows rest) eqn:E; [|reflexivity]. exfalso.
    revert E. clear. destruct rest as [|c s]; cbn; [discriminate|].
    destruct (chr_eqb c "\"); [destruct s as [|d s]; [discriminate|destruct (chr_eqb d "\"); [discriminate|]]|];
      destruct (rows s); discriminate.
  - destruct (ordinary_cons _ _ H) as (_ & E2 & _ & _ & _ & H').
    cbn [app rows]. rewrite E2, IH by exact H'. unfold push. destruct (rows rest); reflexivity.
Qed.

Lemma srows_ok n : forall l rs, length l <= n -> plain l -> srows l = Some rs -> rows (expand l) = map expand rs.
Proof.
  induction n as [|n IH]; intros l rs Hn Hp.
  { destruct l; [|cbn in Hn; lia]. cbn. intros H. injection H as <-. reflexivity. }
  destruct l as [|[c|p] l]; cbn [srows].
  - intros H. injection H as <-. reflexivity.
  - cbn in Hn. destruct (chr_eqb c "\") eqn:E.
    + destruct l as [|[d|p] l]; try discriminate.
      destruct (srows l) as [rs'|] eqn:E2; try discriminate. cbn in Hn.
      apply IH in E2; [|lia|exact Hp]. intros H. injection H as <-.
      cbn [expand flat_map ex1 app rows]. rewrite E. fold (expand l). rewrite E2.
      destruct (chr_eqb d "\"); [reflexivity|]. destruct rs' as [|r rs']; reflexivity.
    + destruct (srows l) as [rs'|] eqn:E2; try discriminate.
      apply IH in E2; [|lia|exact Hp]. cbn [option_map]. intros H. injection H as <-.
      cbn [expand flat_map ex1 app rows]. rewrite E. fold (expand l). rewrite E2.
      destruct rs' as [|r rs']; reflexivity.
  - cbn in Hn. inversion Hp as [|y z Hp1 Hp2]; subst.
    destruct (srows l) as [rs'|] eqn:E2; try discriminate.
    apply IH in E2; [|lia|exact Hp2]. cbn [option_map]. intros H. injection H as <-.
    cbn [expand flat_map ex1]. fold (expand l). rewrite rows_ordinary by exact Hp1. rewrite E2.
    destruct rs' as [|r rs']; cbn; rewrite ?app_nil_r; reflexivity.
Qed.

(** Only texts without a variable are looked into. *)
Fixpoint text_of (l : list sym) : option str :=
  match l with
  | [] => Some []
  | C c :: l' => option_map (cons c) (text_of l')
  | V _ :: _ => None
  end.

Lemma text_of_ok l s : text_of l = Some s -> expand l = s.
Proof.
  revert s. induction l as [|[c|p] l IH]; cbn; intros s H; try discriminate.
  - injection H as <-. reflexivity.
  - destruct (text_of l) as [t|]; try discriminate. injection H as <-. f_equal. apply IH. reflexivity.
Qed.

(** A row's optional argument. *)
Fixpoint sbracket (l : list sym) : option (list sym) :=
  match l with
  | C c :: l' => if chr_eqb c "]" then Some l' else sbracket l'
  | _ => None
  end.
Definition sdrop (l : list sym) : option (list sym) :=
  match l with
  | C c :: l' => if chr_eqb c "[" then sbracket l' else Some l
  | [] => Some l
  | V _ :: _ => None
  end.

Lemma sbracket_ok l r : sbracket l = Some r -> exists a, until (lit "]") (expand l) = Some (a, expand r).
Proof.
  induction l as [|[c|p] l IH]; cbn [sbracket]; try discriminate.
  destruct (chr_eqb c "]") eqn:E.
  - intros H. injection H as <-. apply chr_eqb_eq in E. subst c. exists []. reflexivity.
  - intros H. destruct (IH H) as [a Ha]. exists (c :: a).
    change (expand (C c :: l)) with (c :: expand l). change (lit "]") with ["]"%char] in *.
    cbn [until after].
    assert (E' : chr_eqb "]" c = false).
    { apply not_true_iff_false. intros X. apply chr_eqb_eq in X. subst c.
      discriminate E. }
    rewrite E', Ha. reflexivity.
Qed.

Lemma sdrop_ok l r : sdrop l = Some r -> drop_option (expand l) = expand r.
Proof.
  unfold sdrop, drop_option. destruct l as [|[c|p] l]; try discriminate.
  - intros H. injection H as <-. reflexivity.
  - destruct (chr_eqb c "[") eqn:E.
    + intros H. apply chr_eqb_eq in E. subst c. destruct (sbracket_ok _ _ H) as [a Ha].
      change (after (lit "[") (expand (C "[" :: l))) with (Some (expand l)). cbv beta iota. rewrite Ha. reflexivity.
    + intros H. injection H as <-. change (expand (C c :: l)) with (c :: expand l).
      change (lit "[") with ["["%char]. cbn [after].
      assert (E' : chr_eqb "[" c = false).
      { apply not_true_iff_false. intros X. apply chr_eqb_eq in X. subst c. discriminate E. }
      rewrite E'. reflexivity.
Qed.

Fixpoint ssplit (l : list sym) : list (list sym) :=
  match l with
  | [] => [[]]
  | C c :: l' =>
      if chr_eqb c "&" then [] :: ssplit l'
      else match ssplit l' with r :: rs => (C c :: r) :: rs | [] => [[C c]] end
  | V p :: l' => match ssplit l' with r :: rs => (V p :: r) :: rs | [] => [[V p]] end
  end.

Lemma ssplit_ordinary s rest : ordinary s ->
  split_on "&" (s ++ rest) = push s (split_on "&" rest).
Proof.
  induction s as [|c s IH]; intros H.
  - cbn. destruct (split_on "&" rest) eqn:E; [|reflexivity]. exfalso. revert E. clear.
    destruct rest as [|c s]; cbn; [discriminate|].
    destruct (chr_eqb c "&"); [discriminate|]. destruct (split_on "&" s); discriminate.
  - destruct (ordinary_cons _ _ H) as (_ & _ & E2 & _ & _ & H').
    cbn [app split_on]. rewrite E2, IH by exact H'. unfold push.
    destruct (split_on "&" rest); reflexivity.
Qed.

Lemma ssplit_ok l : plain l -> split_on "&" (expand l) = map expand (ssplit l).
Proof.
  induction l as [|[c|p] l IH]; intros Hp; [reflexivity| |].
  - cbn [expand flat_map ex1 app split_on ssplit]. fold (expand l).
    destruct (chr_eqb c "&"); rewrite (IH Hp); [reflexivity|].
    destruct (ssplit l) as [|r rs]; reflexivity.
  - inversion Hp as [|y z Hp1 Hp2]; subst. cbn [expand flat_map ex1 ssplit]. fold (expand l).
    rewrite ssplit_ordinary by exact Hp1. rewrite (IH Hp2).
    destruct (ssplit l) as [|r rs]; cbn; rewrite ?app_nil_r; reflexivity.
Qed.

Definition scells (row : list sym) : option (list (list sym)) := option_map ssplit (sdrop row).

Lemma plain_sub a b : incl (vars a) (vars b) -> plain b -> plain a.
Proof. intros H Hb. unfold plain in *. rewrite Forall_forall in *. intros x Hx. apply Hb, H, Hx. Qed.

Lemma sbracket_vars l r : sbracket l = Some r -> vars r = vars l.
Proof.
  induction l as [|[c|p] l IH]; cbn; try discriminate. destruct (chr_eqb c "]").
  - intros H. injection H as <-. reflexivity.
  - exact IH.
Qed.

Lemma sdrop_vars l r : sdrop l = Some r -> vars r = vars l.
Proof.
  unfold sdrop. destruct l as [|[c|p] l]; try discriminate.
  - intros H. injection H as <-. reflexivity.
  - destruct (chr_eqb c "["); [intros H; exact (sbracket_vars _ _ H)|]. intros H. injection H as <-. reflexivity.
Qed.

Lemma scells_ok row cs : plain row -> scells row = Some cs ->
  cells (expand row) = map (fun c => strip (expand c)) cs.
Proof.
  unfold scells, cells. intros Hp. destruct (sdrop row) as [r|] eqn:E; try discriminate.
  cbn [option_map]. intros H. injection H as <-. rewrite (sdrop_ok _ _ E).
  rewrite ssplit_ok by (unfold plain; rewrite (sdrop_vars _ _ E); exact Hp). rewrite map_map. reflexivity.
Qed.

Fixpoint seach {X Y} (f : X -> option Y) (l : list X) : option (list Y) :=
  match l with
  | [] => Some []
  | x :: l' => match f x, seach f l' with Some y, Some ys => Some (y :: ys) | _, _ => None end
  end.

Definition stable (l : list sym) : option (list (list (list (list sym)))) :=
  match safter (lit "\begin{tabular}{lr@{\hspace{1.4mm}}l}") l with
  | Some (Some r) =>
      match suntil (lit "\end{tabular}") r with
      | Some (body, _) =>
          match srows body with
          | Some rs => option_map (fun t => [filter (fun r => 1 <? length r) t]) (seach scells rs)
          | None => None
          end
      | None => None
      end
  | Some None => Some []
  | None => None
  end.

Definition table_text (t : list (list (list sym))) : list (list str) :=
  map (map (fun c => strip (expand c))) t.

Lemma srows_vars n : forall l rs, length l <= n -> srows l = Some rs ->
  forall r, In r rs -> incl (vars r) (vars l).
Proof.
  induction n as [|n IH]; intros l rs Hn.
  { destruct l; [|cbn in Hn; lia]. cbn. intros H. injection H as <-. intros r [<-|[]]. apply incl_refl. }
  destruct l as [|[c|p] l]; cbn [srows].
  - intros H. injection H as <-. intros r [<-|[]]. apply incl_refl.
  - cbn in Hn. destruct (chr_eqb c "\").
    + destruct l as [|[d|p] l]; try discriminate.
      destruct (srows l) as [rs'|] eqn:E2; try discriminate. cbn in Hn.
      assert (H2 := fun Q => IH _ _ Q E2); specialize (H2 ltac:(lia)). intros H. injection H as <-. cbn [vars].
      destruct (chr_eqb d "\").
      * intros r [<-|Hr]; [intros x []|apply H2, Hr].
      * destruct rs' as [|r0 rs']; intros r [<-|Hr]; cbn; try (intros x []; fail).
        -- destruct Hr.
        -- apply H2. left. reflexivity.
        -- apply H2. right. exact Hr.
    + destruct (srows l) as [rs'|] eqn:E2; try discriminate.
      assert (H2 := fun Q => IH _ _ Q E2); specialize (H2 ltac:(lia)). cbn [option_map]. intros H. injection H as <-. cbn [vars].
      destruct rs' as [|r0 rs']; intros r [<-|Hr]; cbn; try (intros x []; fail).
      * destruct Hr.
      * apply H2. left. reflexivity.
      * apply H2. right. exact Hr.
  - cbn in Hn. destruct (srows l) as [rs'|] eqn:E2; try discriminate.
    assert (H2 := fun Q => IH _ _ Q E2); specialize (H2 ltac:(lia)). cbn [option_map]. intros H. injection H as <-. cbn [vars].
    destruct rs' as [|r0 rs']; intros r [<-|Hr]; cbn.
    + intros x [<-|[]]. left. reflexivity.
    + destruct Hr.
    + intros x [<-|Hx]; [left; reflexivity|]. right. apply (H2 r0); [left; reflexivity|exact Hx].
    + intros x Hx. right. apply (H2 r); [right; exact Hr|exact Hx].
Qed.

Lemma seach_cells rs : (forall r, In r rs -> plain r) -> forall t, seach scells rs = Some t ->
  map cells (map expand rs) = table_text t.
Proof.
  induction rs as [|r rs IH]; intros Hp t; cbn [seach].
  - intros H. injection H as <-. reflexivity.
  - destruct (scells r) as [cs|] eqn:E; try discriminate.
    destruct (seach scells rs) as [t'|]; try discriminate. intros H. injection H as <-.
    cbn [map table_text]. rewrite (scells_ok _ _ (Hp r (or_introl eq_refl)) E).
    f_equal. apply IH; [|reflexivity]. intros x Hx. apply Hp. right. exact Hx.
Qed.

Lemma filter_table t : filter (fun r => 1 <? length r) (table_text t)
  = table_text (filter (fun r => 1 <? length r) t).
Proof.
  induction t as [|r t IH]; [reflexivity|]. cbn [table_text map filter]. rewrite map_length.
  unfold table_text in *. destruct (1 <? length r); cbn [map]; rewrite IH; reflexivity.
Qed.

Lemma stable_ok l o : plain l -> stable l = Some o ->
  forall rest, table_at (expand l ++ rest) = map table_text o.
Proof.
  unfold stable, table_at. intros Hp. destruct (safter _ l) as [[r|]|] eqn:E; try discriminate.
  - destruct (safter_ok _ _ _ E Hp) as (H1 & _ & H3).
    destruct (suntil (lit "\end{tabular}") r) as [[body r2]|] eqn:E2; try discriminate.
    destruct (suntil_ok (lit "\end{tabular}") eq_refl _ _ _ E2 H1) as (H4 & _ & H5).
    destruct (srows body) as [rs|] eqn:E3; try discriminate.
    destruct (seach scells rs) as [t|] eqn:E4; try discriminate. cbn [option_map].
    intros H. injection H as <-. intros rest. rewrite H3, H5.
    rewrite (srows_ok _ _ _ (le_n _) H4 E3).
    rewrite (seach_cells rs) with (t := t); [|intros x Hx|exact E4].
    + rewrite filter_table. reflexivity.
    + apply (plain_sub x body); [|exact H4]. exact (srows_vars _ _ _ (le_n _) E3 x Hx).
  - intros H. injection H as <-. intros rest. rewrite (safter_ok _ _ _ E Hp). reflexivity.
Qed.

Lemma table_ordinary c s : ordinary [c] -> table_at (c :: s) = [].
Proof. intros H. unfold table_at. rewrite after_ordinary; [reflexivity|reflexivity|exact H]. Qed.

(** ** All readings of a piece of text *)

Definition sread (l : list sym)
  : option (list (list sym) * list (list sym * list sym) * list (list (list (list sym)))) :=
  match svis false l with
  | Some (false, l') =>
      match sscan sgraphic l', sscan sentry l', sscan stable l' with
      | Some g, Some e, Some t => Some (g, e, t)
      | _, _, _ => None
      end
  | _ => None
  end.

End Sym.
Arguments sym : clear implicits.

(** Where a text stands in a report does not matter for what is read in it. *)
Definition reads (t : str) (g : list str) (e : list (str * str)) (ts : list (list (list str))) : Prop :=
  exists t',
    (forall rest, visible (t ++ rest) = t' ++ visible rest) /\
    (forall rest, everywhere graphic_at (t' ++ rest) = g ++ everywhere graphic_at rest) /\
    (forall rest, everywhere entry_at (t' ++ rest) = e ++ everywhere entry_at rest) /\
    (forall rest, everywhere table_at (t' ++ rest) = ts ++ everywhere table_at rest).

Lemma reads_nil : reads [] [] [] [].
Proof. exists []. repeat split. Qed.

Lemma reads_app a b g1 e1 t1 g2 e2 t2 : reads a g1 e1 t1 -> reads b g2 e2 t2 ->
  reads (a ++ b) (g1 ++ g2) (e1 ++ e2) (t1 ++ t2).
Proof.
  intros (a' & A1 & A2 & A3 & A4) (b' & B1 & B2 & B3 & B4). exists (a' ++ b').
  repeat split; intros rest; rewrite <- !app_assoc.
  - rewrite A1, B1. reflexivity.
  - rewrite A2, B2. reflexivity.
  - rewrite A3, B3. reflexivity.
  - rewrite A4, B4. reflexivity.
Qed.

Lemma reads_concat {X} (f : X -> str) (g : X -> list str) e t l :
  (forall x, In x l -> reads (f x) (g x) (e x) (t x)) ->
  reads (concat (map f l)) (concat (map g l)) (concat (map e l)) (concat (map t l)).
Proof.
  induction l as [|x l IH]; intros H; [apply reads_nil|]. cbn. apply reads_app.
  - apply H. left. reflexivity.
  - apply IH. intros y Hy. apply H. right. exact Hy.
Qed.

Lemma reads_all t g e ts : reads t g e ts -> graphics t = g /\ entries t = e /\ tables t = ts.
Proof.
  intros (t' & A1 & A2 & A3 & A4). unfold graphics, entries, tables.
  specialize (A1 []). rewrite !app_nil_r in A1. rewrite A1.
  specialize (A2 []). specialize (A3 []). specialize (A4 []). cbn in A2, A3, A4.
  rewrite !app_nil_r in *. repeat split; assumption.
Qed.

Lemma sread_ok {P} (ev : P -> str) l g e t : plain ev l -> sread l = Some (g, e, t) ->
  reads (expand ev l) (map (expand ev) g) (map (entry_text ev) e) (map (table_text ev) t).
Proof.
  unfold sread. intros Hp. destruct (svis false l) as [[[|] l']|] eqn:E; try discriminate.
  destruct (sscan sgraphic l') as [g'|] eqn:E1; try discriminate.
  destruct (sscan sentry l') as [e'|] eqn:E2; try discriminate.
  destruct (sscan stable l') as [t''|] eqn:E3; try discriminate.
  intros H. injection H as <- <- <-.
  destruct (svis_ok ev _ _ _ _ _ (le_n _) Hp E) as [Hp' Hv].
  exists (expand ev l'). split; [exact Hv|]. split; [|split].
  - apply (sscan_ok ev graphic_at sgraphic (expand ev)); try assumption.
    + intros. apply sgraphic_ok; assumption.
    + apply graphic_ordinary.
  - apply (sscan_ok ev entry_at sentry (entry_text ev)); try assumption.
    + intros. apply sentry_ok; assumption.
    + apply entry_ordinary.
  - apply (sscan_ok ev table_at stable (table_text ev)); try assumption.
    + intros. apply stable_ok; assumption.
    + apply table_ordinary.
Qed.

