(** Results as a user sees them, and what comparing two files should say. *)
From Coq Require Import Ascii String List Bool Arith ZArith QArith Qabs.
From Verif Require Import Base_Prelude Base_Str Base_Num Model_Info Model_Xml.
Import ListNotations.
Open Scope nat_scope.

(** ** Results *)

(** A result has a name, some texts describing it, and a value (a number or
    None) or named arrays. *)
Inductive content : Type :=
| Value (v : option pnum)
| Arrays (a : list (str * list pnum)).

Record result := mkResult { r_name : str; r_texts : list (str * str); r_content : content }.

Definition content_obj (c : content) : str * pobj :=
  match c with
  | Value None => (lit "value", ONone)
  | Value (Some x) => (lit "value", ONum x)
  | Arrays a => (lit "data", ODict (map (fun p => (fst p, OArr (snd p))) a))
  end.

Definition result_obj (r : result) : str * pobj :=
  (r_name r, ODict (map (fun p => (fst p, OStr (snd p))) (r_texts r) ++ [content_obj (r_content r)])).

(** The dictionary of results, by section. *)
Definition results_obj (rs : list (str * list result)) : list (str * pobj) :=
  map (fun s => (fst s, ODict (map result_obj (snd s)))) rs.

(** The same results with names in lower case and every number a float. *)
Definition as_float (x : pnum) : pnum :=
  match x with NI n => NF (rnd64 (inject_Z n)) | NF y => NF y end.
Definition lower_result (r : result) : result :=
  mkResult (lower (r_name r)) (map (fun p => (lower (fst p), snd p)) (r_texts r))
    (match r_content r with
     | Value v => Value (option_map as_float v)
     | Arrays a => Arrays (map (fun p => (lower (fst p), map as_float (snd p))) a)
     end).
Definition lower_results (rs : list (str * list result)) : list (str * list result) :=
  map (fun s => (lower (fst s), map lower_result (snd s))) rs.

(** ** Well-formed results *)

(** Letters, digits and underscores, not starting with a digit. *)
Definition letter (c : ascii) : Prop :=
  (65 <= nat_of_ascii c <= 90) \/ (97 <= nat_of_ascii c <= 122) \/ nat_of_ascii c = 95.
Definition decimal (c : ascii) : Prop := 48 <= nat_of_ascii c <= 57.
Definition identifier (s : str) : Prop :=
  match s with
  | [] => False
  | c :: s' => letter c /\ Forall (fun x => letter x \/ decimal x) s'
  end.

(** Non-empty, without control characters. *)
Definition printable (s : str) : Prop := s <> [] /\ Forall (fun c => 32 <= nat_of_ascii c) s.

(** A number a Python or NumPy float can hold (or an integer). *)
Definition machine_number (x : pnum) : Prop :=
  match x with NF (FFin q) => rnd64 q = FFin q | _ => True end.

Definition distinct_names {V} (l : list (str * V)) : Prop := NoDup (map (fun p => lower (fst p)) l).

Definition good_content (c : content) : Prop :=
  match c with
  | Value None => True
  | Value (Some x) => machine_number x
  | Arrays a => a <> [] /\ distinct_names a /\
      Forall (fun p => identifier (fst p) /\ snd p <> [] /\ Forall machine_number (snd p)) a
  end.

Definition good_result (r : result) : Prop :=
  identifier (r_name r) /\ good_content (r_content r) /\
  distinct_names (r_texts r) /\
  Forall (fun p => identifier (fst p) /\ printable (snd p) /\
                   lower (fst p) <> lit "value" /\ lower (fst p) <> lit "data") (r_texts r).

Definition good_results (rs : list (str * list result)) : Prop :=
  distinct_names rs /\
  Forall (fun s => identifier (fst s) /\ snd s <> [] /\
                   NoDup (map (fun r => lower (r_name r)) (snd s)) /\
                   Forall good_result (snd s)) rs.

(** ** Comparison *)

(** The same line, the two files exchanged. *)
Definition exchanged (l : report_line) : report_line :=
  match l with
  | LPresent c a b => LPresent c b a
  | LMethod c m ok => LMethod c m ok
  end.

(** Entry [m] of section [c] of a loaded file. *)
Definition entry (f : list (str * pobj)) (c m : str) : option pobj :=
  match oget c f with
  | Some (ODict s) => oget m s
  | _ => None
  end.

(** A number that can be rounded to seven significant digits: a finite one, and
    unless it is zero this NumPy must still have [np.int] and the rounding must
    succeed. *)
Definition roundable (E : numenv) (np : bool) (x : pyfloat) : Prop :=
  exists q, x = FFin q /\
  ((q == 0)%Q \/ ne_np_int E = true /\
                 exists r, (if np then ne_np_round E else ne_round E) q
                              (6 - ne_log10 E q)%Z = Ok (FFin r)).

(** What can be compared at all: a numeric value, or, in the absence of any
    value, some arrays, none empty, of numbers. *)
Definition comparable (E : numenv) (o : pobj) : Prop :=
  exists d, o = ODict d /\
  ((exists x, oget (lit "value") d = Some (ONum x) /\ roundable E false (num_float x)) \/
   ((oget (lit "value") d = None \/ oget (lit "value") d = Some ONone) /\
    exists a, oget (lit "data") d = Some (ODict a) /\ a <> [] /\
      forall k v, oget k a = Some v ->
      exists xs, v = OArr xs /\ xs <> [] /\ Forall (fun x => roundable E true (num_float x)) xs)).

(** The rounding is good to one unit of the seventh digit. *)
Definition rounds_well (E : numenv) : Prop :=
  forall q, ~ (q == 0)%Q ->
  (Qpower 10 (ne_log10 E q) <= Qabs q)%Q /\
  (forall k r, ne_round E q k = Ok (FFin r) -> (Qabs (r - q) <= Qpower 10 (- k))%Q) /\
  (forall k r, ne_np_round E q k = Ok (FFin r) -> (Qabs (r - q) <= Qpower 10 (- k))%Q).

(** Equal up to two parts in a million. *)
Definition close (x y : pnum) : Prop :=
  exists p q, num_float x = FFin p /\ num_float y = FFin q /\
  ((Qabs (p - q) <= (2 # 1000000) * Qabs p)%Q \/ (Qabs (p - q) <= (2 # 1000000) * Qabs q)%Q).

Definition close_arrays (xs ys : list pnum) : Prop :=
  (length xs = length ys \/ length xs = 1 \/ length ys = 1) /\
  forall i j x y, nth_error xs i = Some x -> nth_error ys j = Some y ->
  i = j \/ length xs = 1 \/ length ys = 1 -> close x y.

Definition close_results (o1 o2 : pobj) : Prop :=
  exists d1 d2, o1 = ODict d1 /\ o2 = ODict d2 /\
  ((exists x y, oget (lit "value") d1 = Some (ONum x) /\ oget (lit "value") d2 = Some (ONum y) /\
                close x y) \/
   (exists a1 a2, oget (lit "data") d1 = Some (ODict a1) /\ oget (lit "data") d2 = Some (ODict a2) /\
    (forall k, In k (map fst a1) <-> In k (map fst a2)) /\
    forall k v1 v2, oget k a1 = Some v1 -> oget k a2 = Some v2 ->
    exists xs ys, v1 = OArr xs /\ v2 = OArr ys /\ close_arrays xs ys)).
