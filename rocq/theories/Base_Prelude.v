(** Error monad, Python exceptions as values, insertion-ordered dictionaries.
    Nothing here is specific to emva1288. *)
From Coq Require Import List Bool Arith ZArith Permutation.
Import ListNotations.

(** Python exception classes that the modelled functions can raise. *)
Inductive exn : Type :=
| SyntaxError | ValueError | KeyError | IndexError | IOError
| ZeroDivisionError | AttributeError | TypeError | NameError | FileExistsError
| OverflowError.

Inductive res (A : Type) : Type :=
| Ok (a : A)
| Err (e : exn).
Arguments Ok {A} a.
Arguments Err {A} e.

Definition bind {A B} (m : res A) (f : A -> res B) : res B :=
  match m with Ok a => f a | Err e => Err e end.

Declare Scope res_scope.
Delimit Scope res_scope with res.
Notation "x <- m ;; f" := (bind m (fun x => f))
  (at level 61, m at next level, right associativity) : res_scope.
Notation "' p <- m ;; f" := (bind m (fun x => let p := x in f))
  (at level 61, p pattern, m at next level, right associativity) : res_scope.
Open Scope res_scope.

Definition is_ok {A} (m : res A) : bool :=
  match m with Ok _ => true | Err _ => false end.

(** [map] whose function may raise; stops at the first exception. *)
Fixpoint mapM {A B} (f : A -> res B) (l : list A) : res (list B) :=
  match l with
  | [] => Ok []
  | a :: l' => b <- f a ;; bs <- mapM f l' ;; Ok (b :: bs)
  end.

(** Left fold whose step may raise. *)
Fixpoint foldM {A S} (f : S -> A -> res S) (l : list A) (s : S) : res S :=
  match l with
  | [] => Ok s
  | a :: l' => s' <- f s a ;; foldM f l' s'
  end.

Definition of_option {A} (e : exn) (o : option A) : res A :=
  match o with Some a => Ok a | None => Err e end.

(** Python dictionaries: insertion-ordered association lists, keys compared with
    a boolean equality given by the caller. *)
Definition dict (K V : Type) := list (K * V).

Section Dict.
  Context {K V : Type} (keq : K -> K -> bool).

  Fixpoint dget (k : K) (d : dict K V) : option V :=
    match d with
    | [] => None
    | (k', v) :: d' => if keq k k' then Some v else dget k d'
    end.

  Definition dmem (k : K) (d : dict K V) : bool :=
    existsb (fun kv => keq k (fst kv)) d.

  (** [d[k] = v]: replaces the value of an existing key (keeping its position),
      appends otherwise. *)
  Fixpoint dset (k : K) (v : V) (d : dict K V) : dict K V :=
    match d with
    | [] => [(k, v)]
    | (k', v') :: d' =>
        if keq k k' then (k', v) :: d' else (k', v') :: dset k v d'
    end.

  Definition dkeys (d : dict K V) : list K := map fst d.
End Dict.

Lemma bind_ok {A B} (m : res A) (f : A -> res B) b :
  bind m f = Ok b <-> exists a, m = Ok a /\ f a = Ok b.
Proof.
  destruct m; simpl; split; intro H.
  - eauto.
  - destruct H as (a' & E & F). injection E as <-. exact F.
  - discriminate.
  - destruct H as (a & E & _). discriminate.
Qed.

Lemma mapM_ok {A B} (f : A -> res B) l bs :
  mapM f l = Ok bs <-> Forall2 (fun a b => f a = Ok b) l bs.
Proof.
  revert bs; induction l as [|a l IH]; intros bs; simpl.
  - split; intro H.
    + injection H as <-. constructor.
    + inversion H. reflexivity.
  - rewrite bind_ok. split.
    + intros (b & Hb & H). rewrite bind_ok in H. destruct H as (bs' & H1 & H2).
      injection H2 as <-. constructor; auto. apply IH; auto.
    + intro H. inversion H; subst. exists y. split; auto.
      rewrite bind_ok. exists l'. split; auto. apply IH; auto.
Qed.

Lemma mapM_is_ok {A B} (f : A -> res B) l :
  (exists bs, mapM f l = Ok bs) <-> Forall (fun a => exists b, f a = Ok b) l.
Proof.
  induction l as [|a l IH]; simpl.
  - split; eauto.
  - split.
    + intros (bs & H). apply bind_ok in H. destruct H as (b & Hb & H).
      apply bind_ok in H. destruct H as (bs' & H1 & _).
      constructor; eauto. apply IH; eauto.
    + intro H. inversion H as [|? ? (b & Hb) Hl]; subst.
      apply IH in Hl. destruct Hl as (bs & Hbs). exists (b :: bs).
      rewrite Hb; simpl. rewrite Hbs. reflexivity.
Qed.
