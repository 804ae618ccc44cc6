(** What the user of a report expects, independent of how it is made. *)
From Coq Require Import Ascii String List Bool Arith ZArith QArith Qabs.
From Verif Require Import Base_Prelude Base_Str Base_Num Spec_Num Model_Report.
Import ListNotations.

(** [t] is the number [q] written with [k] decimals: a minus sign or nothing, at
    least one digit, and, when [k] is not 0, a point and exactly [k] digits; the
    written number is within half a unit of the last digit of [q]. *)
Definition written_with (k : nat) (q : Q) (t : str) : Prop :=
  exists (minus : bool) s ds f fs,
    t = (if minus then ["-"%char] else []) ++ s ++ match k with O => [] | _ => "."%char :: f end /\
    s <> [] /\ Forall2 digit s ds /\
    length f = k /\ Forall2 digit f fs /\
    (Qabs (q - inject_Z ((if minus then -1 else 1) * value (ds ++ fs)) / inject_Z (10 ^ Z.of_nat k))
     <= (1 # 2) / inject_Z (10 ^ Z.of_nat k))%Q.

(** "OP1", "OP2", ...: [s] is OP followed by the decimal digits of [n]. *)
Definition op_label (n : nat) (s : str) : Prop :=
  exists t ds, s = lit "OP" ++ t /\ t <> [] /\ Forall2 digit t ds /\ value ds = Z.of_nat n /\
               (hd 1%Z ds <> 0%Z \/ n = O).

(** A call that cannot fail for a point whose dictionary is [d]. *)
Definition works {R} (d : op R) (k : call R) : Prop :=
  (exists v, dget str_eqb (lit "name") d = Some v) /\
  (exists r, k_results k = Ok r) /\
  (k_mkdir k = Ok tt \/ k_mkdir k = Err FileExistsError) /\
  (forall c, In c plot_names -> exists u, k_draw k c = Ok u).

(** A name that is None or empty is not a name. *)
Definition unnamed {R} (v : oval R) : Prop := v = ONone \/ v = OText [].

(** How a point with the label [id] appears in the report, [d0] being the caller's
    dictionary and [r] the results. *)
Definition presented {R} (id : str) (d0 : op R) (r : R) (d : op R) : Prop :=
  dget str_eqb (lit "id") d = Some (OText id) /\
  (forall v, dget str_eqb (lit "name") d0 = Some v -> unnamed v ->
     dget str_eqb (lit "name") d = Some (OText id)) /\
  (forall c s, dget str_eqb (lit "name") d0 = Some (OText (c :: s)) ->
     dget str_eqb (lit "name") d = Some (OText (c :: s))) /\
  dget str_eqb (lit "results") d = Some (OResults r) /\
  (exists ps, dget str_eqb (lit "plots") d = Some (OPlots ps) /\
     map fst ps = plot_names /\
     forall c p, dget str_eqb c ps = Some p -> p = id ++ lit "/" ++ c ++ lit ".pdf") /\
  (forall key, key <> lit "id" -> key <> lit "name" -> key <> lit "results" -> key <> lit "plots" ->
     dget str_eqb key d = dget str_eqb key d0).

(** The directory [dir] with a name in it. *)
Definition inside (dir name : str) : str :=
  match rev dir with
  | [] => name
  | c :: _ => if chr_eqb c "/" then dir ++ name else dir ++ "/"%char :: name
  end.

(** [kept P l l']: [l'] are the elements of [l] with [P], in the same order. *)
Inductive kept {A} (P : A -> Prop) : list A -> list A -> Prop :=
| kept_nil : kept P [] []
| kept_yes x l l' : P x -> kept P l l' -> kept P (x :: l) (x :: l')
| kept_no x l l' : ~ P x -> kept P l l' -> kept P (x :: l) l'.

(** ** Files handed to a report *)

(** The last name of a path. *)
Definition file_name (p : str) : str := last (split_on "/" p) [].

(** Paths that end in a proper file name. *)
Definition proper (p : str) : Prop :=
  file_name p <> [] /\ file_name p <> lit "." /\ file_name p <> lit "..".

(** The file given, if any; None and the empty string mean there is none. *)
Definition given (o : option str) : list str :=
  match o with Some (c :: s) => [c :: s] | _ => [] end.

(** [v], the entry of the report, leads from the report's directory to the given
    file's content, or to the default file. *)
Definition leads_to {C} (cwd outdir : str) (before after : disk C) (o : option str) (default : str)
    (v : str) : Prop :=
  match given o with
  | f :: _ => v = lit "upload/" ++ file_name f /\ after (inside outdir v) = before (abspath cwd f)
  | [] => v = lit "files/" ++ default /\ after (inside outdir v) = before (inside outdir v)
  end.
