(** The part of the jinja2 template language that the report uses, with the delimiters
    of src/emva1288/report/report.py:232-239.  Definitions only.

    A template is text with %{{ expression %}}, %{ statement %} and %{# comment %#};
    a minus sign next to a delimiter removes the white space on that side.  Statements:
    if/elif/else/endif, for/endfor, include.  Expressions: names, strings, numbers,
    a.b, a.b(), a|filter, a|filter(x), a % b, a == b, not a.  Anything else is a
    syntax error here. *)
From Coq Require Import Ascii String List Bool Arith ZArith QArith.
From Verif Require Import Base_Prelude Base_Str Base_Num Base_Repr Model_Report.
Import ListNotations.
Open Scope nat_scope.

(** ** Tokens *)

Inductive tok : Type :=
| TName (s : str)
| TStr (s : str)
| TNum (n : nat)
| TOp (s : str).

Definition chr_in (c : ascii) (s : string) : bool := existsb (chr_eqb c) (lit s).
Definition is_digit (c : ascii) : bool := chr_in c "0123456789".
Definition is_word (c : ascii) : bool :=
  chr_in c "abcdefghijklmnopqrstuvwxyzABCDEFGHIJKLMNOPQRSTUVWXYZ_0123456789".

(** The longest prefix with [p], and the rest. *)
Fixpoint span (p : ascii -> bool) (s : str) : str * str :=
  match s with
  | c :: s' => if p c then let '(a, b) := span p s' in (c :: a, b) else ([], s)
  | [] => ([], [])
  end.

Definition nat_of_digits (s : str) : nat :=
  fold_left (fun n c => 10 * n + (nat_of_ascii c - 48)) s 0.

(** [s] without the prefix [p]. *)
Fixpoint drop_prefix (p s : str) : option str :=
  match p, s with
  | [], _ => Some s
  | a :: p', b :: s' => if chr_eqb a b then drop_prefix p' s' else None
  | _ :: _, [] => None
  end.

(** Inside a tag that is closed by [close]: its tokens, whether white space after it
    is removed, and the text after it. *)
Fixpoint lex_tag (fuel : nat) (close s : str) : option (list tok * bool * str) :=
  match fuel with
  | O => None
  | S k =>
      let put t s := match lex_tag k close s with
                     | Some (ts, b, r) => Some (t :: ts, b, r)
                     | None => None
                     end in
      match drop_prefix ("-"%char :: close) s with
      | Some r => Some ([], true, r)
      | None =>
      match drop_prefix close s with
      | Some r => Some ([], false, r)
      | None =>
      match s with
      | [] => None
      | c :: s' =>
          if is_space c then lex_tag k close s'
          else if is_digit c then let '(a, b) := span is_digit s in put (TNum (nat_of_digits a)) b
          else if is_word c then let '(a, b) := span is_word s in put (TName a) b
          else if chr_in c "'""" then
            let '(a, b) := span (fun x => negb (chr_eqb x c)) s' in
            match b with
            | _ :: b' => put (TStr a) b'
            | [] => None
            end
          else match drop_prefix (lit "==") s with
               | Some r => put (TOp (lit "==")) r
               | None => if chr_in c ".|(),%" then put (TOp [c]) s' else None
               end
      end end end
  end.

(** ** Segments *)

Inductive seg : Type :=
| GText (s : str)
| GVar (ts : list tok)
| GBlock (ts : list tok).

(** The characters in reverse order. *)
Definition reversed (s : str) : str := rev_append s [].

Definition text_seg (cut_after cut_before : bool) (s : str) : list seg :=
  let s := if cut_after then lstrip s else s in
  let s := if cut_before then rstrip s else s in
  match s with [] => [] | _ => [GText s] end.

(** After a comment: skip to its end. *)
Fixpoint skip_comment (s : str) : option str :=
  match drop_prefix (lit "%#}") s with
  | Some r => Some r
  | None => match s with [] => None | _ :: s' => skip_comment s' end
  end.

(** [acc]: the text read, reversed; [cut]: white space before it is to be removed. *)
Fixpoint lex (fuel : nat) (cut : bool) (acc s : str) : option (list seg) :=
  match fuel with
  | O => None
  | S k =>
      let tag (close : string) (mk : list tok -> seg) (r : str) :=
        let '(before, r) := match r with
                            | c :: r' => if chr_eqb c "-" then (true, r') else (false, r)
                            | [] => (false, r)
                            end in
        match lex_tag (S (length r)) (lit close) r with
        | Some (ts, after, rest) =>
            match lex k after [] rest with
            | Some gs => Some (text_seg cut before (reversed acc) ++ mk ts :: gs)
            | None => None
            end
        | None => None
        end in
      match drop_prefix (lit "%{{") s with
      | Some r => tag "%}}"%string GVar r
      | None =>
      match drop_prefix (lit "%{#") s with
      | Some r => match skip_comment r with Some r' => lex k cut acc r' | None => None end
      | None =>
      match drop_prefix (lit "%{") s with
      | Some r => tag "%}"%string GBlock r
      | None =>
      match s with
      | [] => Some (text_seg cut false (reversed acc))
      | c :: s' => lex k cut (c :: acc) s'
      end end end end
  end.

(** One newline at the end of a template is dropped. *)
Definition drop_last_newline (s : str) : str :=
  match reversed s with c :: r => if chr_eqb c NL then reversed r else s | [] => s end.

Definition segments (src : str) : option (list seg) :=
  let s := drop_last_newline src in lex (S (length s)) false [] s.

(** ** Expressions *)

Inductive expr : Type :=
| EVar (n : str)
| EStr (s : str)
| ENum (n : nat)
| EAttr (e : expr) (n : str)
| ECall (e : expr)
| EFilter (f : str) (e : expr) (arg : option expr)
| EMod (a b : expr)
| EEq (a b : expr)
| ENot (e : expr).

Definition is_op (o : string) (s : str) : bool := str_eqb s (lit o).

(** Attributes, calls and filters after [e]. *)
Fixpoint p_postfix (fuel : nat) (e : expr) (ts : list tok) : option (expr * list tok) :=
  match fuel with
  | O => None
  | S k =>
      match ts with
      | TOp o :: TName n :: r =>
          if is_op "." o then p_postfix k (EAttr e n) r
          else if is_op "|" o then
            match r with
            | TOp p :: r' =>
                if is_op "(" p then
                  match r' with
                  | TName x :: r'' =>
                      match p_postfix k (EVar x) r'' with
                      | Some (a, TOp q :: r3) =>
                          if is_op ")" q then p_postfix k (EFilter n e (Some a)) r3 else None
                      | _ => None
                      end
                  | TNum x :: TOp q :: r'' =>
                      if is_op ")" q then p_postfix k (EFilter n e (Some (ENum x))) r'' else None
                  | TStr x :: TOp q :: r'' =>
                      if is_op ")" q then p_postfix k (EFilter n e (Some (EStr x))) r'' else None
                  | _ => None
                  end
                else p_postfix k (EFilter n e None) r
            | _ => p_postfix k (EFilter n e None) r
            end
          else Some (e, ts)
      | TOp o :: TOp p :: r =>
          if is_op "(" o && is_op ")" p then p_postfix k (ECall e) r else Some (e, ts)
      | _ => Some (e, ts)
      end
  end.

Definition p_unary (fuel : nat) (ts : list tok) : option (expr * list tok) :=
  match ts with
  | TName n :: r => p_postfix fuel (EVar n) r
  | TStr s :: r => p_postfix fuel (EStr s) r
  | TNum n :: r => p_postfix fuel (ENum n) r
  | _ => None
  end.

(** a % b, a == b *)
Definition p_binary (fuel : nat) (ts : list tok) : option (expr * list tok) :=
  match p_unary fuel ts with
  | Some (a, TOp o :: r) =>
      if is_op "%" o
      then match p_unary fuel r with Some (b, r') => Some (EMod a b, r') | None => None end
      else if is_op "==" o
      then match p_unary fuel r with Some (b, r') => Some (EEq a b, r') | None => None end
      else Some (a, TOp o :: r)
  | x => x
  end.

(** A whole expression. *)
Definition p_expr (ts : list tok) : option expr :=
  let '(neg, ts) := match ts with
                    | TName n :: r => if str_eqb n (lit "not") then (true, r) else (false, ts)
                    | _ => (false, ts)
                    end in
  match p_binary (S (length ts)) ts with
  | Some (e, []) => Some (if neg then ENot e else e)
  | _ => None
  end.

(** ** Statements *)

Inductive node : Type :=
| NText (s : str)
| NOut (e : expr)
| NIf (c : expr) (a b : list node)
| NFor (targets : list str) (e : expr) (body : list node)
| NInclude (name : str).

Definition kw (k : string) (ts : list tok) : option (list tok) :=
  match ts with
  | TName n :: r => if str_eqb n (lit k) then Some r else None
  | _ => None
  end.

(** The names before "in". *)
Definition p_targets (ts : list tok) : option (list str * list tok) :=
  match ts with
  | TName a :: r =>
      match kw "in" r with
      | Some r' => Some ([a], r')
      | None =>
          match r with
          | TOp o :: TName b :: r' =>
              if is_op "," o
              then match kw "in" r' with Some r'' => Some ([a; b], r'') | None => None end
              else None
          | _ => None
          end
      end
  | _ => None
  end.

(** Nodes up to an endif, elif, else or endfor (or the end), which stays in the rest. *)
Fixpoint p_nodes (fuel : nat) (gs : list seg) : option (list node * list seg) :=
  match fuel with
  | O => None
  | S k =>
      let cons n r := match p_nodes k r with
                      | Some (ns, r') => Some (n :: ns, r')
                      | None => None
                      end in
      match gs with
      | [] => Some ([], [])
      | GText s :: r => cons (NText s) r
      | GVar ts :: r => match p_expr ts with Some e => cons (NOut e) r | None => None end
      | GBlock ts :: r =>
          match kw "if" ts with
          | Some cond =>
              match p_if k cond r with Some (n, r') => cons n r' | None => None end
          | None =>
          match kw "for" ts with
          | Some t =>
              match p_targets t with
              | Some (xs, et) =>
                  match p_expr et, p_nodes k r with
                  | Some e, Some (body, GBlock ts' :: r') =>
                      match kw "endfor" ts' with
                      | Some [] => cons (NFor xs e body) r'
                      | _ => None
                      end
                  | _, _ => None
                  end
              | None => None
              end
          | None =>
          match kw "include" ts with
          | Some [TStr name] => cons (NInclude name) r
          | Some _ => None
          | None =>
              match kw "endif" ts, kw "elif" ts, kw "else" ts, kw "endfor" ts with
              | None, None, None, None => None
              | _, _, _, _ => Some ([], gs)
              end
          end end end
      end
  end
(** After "if cond" or "elif cond". *)
with p_if (fuel : nat) (cond : list tok) (gs : list seg) : option (node * list seg) :=
  match fuel with
  | O => None
  | S k =>
      match p_expr cond, p_nodes k gs with
      | Some c, Some (a, GBlock ts :: r) =>
          match kw "endif" ts with
          | Some [] => Some (NIf c a [], r)
          | _ =>
          match kw "elif" ts with
          | Some cond' =>
              match p_if k cond' r with
              | Some (n, r') => Some (NIf c a [n], r')
              | None => None
              end
          | None =>
          match kw "else" ts with
          | Some [] =>
              match p_nodes k r with
              | Some (b, GBlock ts' :: r') =>
                  match kw "endif" ts' with
                  | Some [] => Some (NIf c a b, r')
                  | _ => None
                  end
              | _ => None
              end
          | _ => None
          end end end
      | _, _ => None
      end
  end.

Definition parse (src : str) : option (list node) :=
  match segments src with
  | Some gs => match p_nodes (2 * S (length gs)) gs with
               | Some (ns, []) => Some ns
               | _ => None
               end
  | None => None
  end.

(** ** Values *)

(** [JFloat x true] is the object np.nan itself; [JItems]: the bound method items;
    [JObj]: any other object, its str() and its truth value. *)
Inductive jval : Type :=
| JUndef
| JNone
| JBool (b : bool)
| JStr (s : str)
| JInt (n : Z)
| JFloat (x : pyfloat) (np_nan : bool)
| JList (l : list jval)
| JDict (d : list (str * jval))
| JItems (d : list (str * jval))
| JObj (s : str) (t : bool).

Definition jget (k : str) (d : list (str * jval)) : option jval := dget str_eqb k d.

Definition dict_methods : list str := map lit
  ["clear"; "copy"; "fromkeys"; "get"; "items"; "keys"; "move_to_end"; "pop"; "popitem";
   "setdefault"; "update"; "values"]%string.

(** a.b: the attribute, else the item, else undefined; an attribute of an undefined
    value is an UndefinedError (modelled as AttributeError).  Only dictionaries have
    attributes here; names with two underscores are left out. *)
Definition getattr (v : jval) (n : str) : res jval :=
  match v with
  | JUndef => Err AttributeError
  | JDict d =>
      if str_eqb n (lit "items") then Ok (JItems d)
      else if existsb (str_eqb n) dict_methods then Ok (JObj (lit "<built-in method>") true)
      else Ok (match jget n d with Some x => x | None => JUndef end)
  | _ => Ok JUndef
  end.

(** Calling items. *)
Definition jcall (v : jval) : res jval :=
  match v with
  | JItems d => Ok (JList (map (fun kv => JList [JStr (fst kv); snd kv]) d))
  | _ => Err TypeError
  end.

Definition truth (v : jval) : bool :=
  match v with
  | JUndef | JNone => false
  | JBool b => b
  | JStr s => match s with [] => false | _ => true end
  | JInt n => negb (n =? 0)%Z
  | JFloat (FFin q) _ => negb (Qnum q =? 0)%Z
  | JFloat _ _ => true
  | JList l => match l with [] => false | _ => true end
  | JDict d => match d with [] => false | _ => true end
  | JItems _ => true
  | JObj _ b => b
  end.

(** str(v); of containers it is not modelled. *)
Definition show (v : jval) : res str :=
  match v with
  | JUndef => Ok []
  | JNone => Ok (lit "None")
  | JBool b => Ok (lit (if b then "True" else "False"))
  | JStr s => Ok s
  | JInt n => Ok (fmt_int n)
  | JFloat x _ => Ok (py_repr x)
  | JObj s _ => Ok s
  | JList _ | JDict _ | JItems _ => Err ValueError
  end.

(** The value as the argument of a filter of [Model_Report]. *)
Definition as_fval (v : jval) : option fval :=
  match v with
  | JNone => Some VNone
  | JInt n => Some (VInt n)
  | JFloat x b => Some (VFloat x b)
  | JStr s => Some (VText s)
  | _ => None
  end.

(** report.py:241-252; an undefined value is neither None nor np.nan and has no
    numeric format. *)
Definition apply_filter (f : str) (v : jval) (arg : option jval) : res jval :=
  if str_eqb f (lit "missing") then
    let default := match arg with Some d => d | None => JStr (lit "-") end in
    match as_fval v with
    | Some fv => Ok (if in_missing fv then default else v)
    | None => Ok v
    end
  else if str_eqb f (lit "missingnumber") then
    match arg, as_fval v with
    | Some (JInt k), Some fv => s <- missingnumber (Z.to_nat k) fv ;; Ok (JStr s)
    | _, _ => Err TypeError
    end
  else Err SyntaxError.

(** The k of '%.kf'. *)
Definition format_places (f : str) : option nat :=
  match drop_prefix (lit "%.") f with
  | Some r => match span is_digit r with
              | (d :: ds, c :: []) =>
                  if chr_eqb c "f" then Some (nat_of_digits (d :: ds)) else None
              | _ => None
              end
  | None => None
  end.

(** '%.kf' % v; other uses of % are not modelled. *)
Definition percent (a b : jval) : res jval :=
  match a with
  | JStr f =>
      match format_places f with
      | Some k =>
          match b with
          | JFloat x _ => Ok (JStr (fmt_prec k x))
          | JInt n => s <- missingnumber k (VInt n) ;; Ok (JStr s)
          | JBool b => s <- missingnumber k (VInt (if b then 1 else 0)) ;; Ok (JStr s)
          | JUndef => Err AttributeError
          | _ => Err TypeError
          end
      | None => Err ValueError
      end
  | _ => Err TypeError
  end.

(** a == b where b is a string. *)
Definition equals (a b : jval) : res jval :=
  match b with
  | JStr t => Ok (JBool (match a with JStr s => str_eqb s t | _ => false end))
  | _ => Err ValueError
  end.

Definition scope := list (str * jval).

Fixpoint eval (env : scope) (e : expr) : res jval :=
  match e with
  | EVar n => Ok (match jget n env with Some v => v | None => JUndef end)
  | EStr s => Ok (JStr s)
  | ENum n => Ok (JInt (Z.of_nat n))
  | EAttr e n => v <- eval env e ;; getattr v n
  | ECall e => v <- eval env e ;; jcall v
  | EFilter f e None => v <- eval env e ;; apply_filter f v None
  | EFilter f e (Some a) => v <- eval env e ;; x <- eval env a ;; apply_filter f v (Some x)
  | EMod a b => x <- eval env a ;; y <- eval env b ;; percent x y
  | EEq a b => x <- eval env a ;; y <- eval env b ;; equals x y
  | ENot e => v <- eval env e ;; Ok (JBool (negb (truth v)))
  end.

(** The scope inside one round of a loop. *)
Definition bind_targets (xs : list str) (v : jval) (env : scope) : res scope :=
  match xs, v with
  | [x], _ => Ok ((x, v) :: env)
  | [x; y], JList [a; b] => Ok ((x, a) :: (y, b) :: env)
  | _, _ => Err ValueError
  end.

Definition iterate (v : jval) : res (list jval) :=
  match v with
  | JList l => Ok l
  | JDict d => Ok (map (fun kv => JStr (fst kv)) d)
  | JUndef => Ok []
  | _ => Err TypeError
  end.

(** [fuel] bounds the nesting of statements and includes. *)
Fixpoint render_node (fuel : nat) (files : dict str str) (env : scope) (n : node) : res str :=
  match fuel with
  | O => Err ValueError
  | S k =>
      let all env ns := ss <- mapM (render_node k files env) ns ;; Ok (concat ss) in
      match n with
      | NText s => Ok s
      | NOut e => v <- eval env e ;; show v
      | NIf c a b => v <- eval env c ;; if truth v then all env a else all env b
      | NFor xs e body =>
          v <- eval env e ;;
          l <- iterate v ;;
          ss <- mapM (fun x => env' <- bind_targets xs x env ;; all env' body) l ;;
          Ok (concat ss)
      | NInclude name =>
          src <- of_option IOError (dget str_eqb name files) ;;
          ns <- of_option SyntaxError (parse src) ;;
          all env ns
      end
  end.

Definition render_nodes (fuel : nat) (files : dict str str) (env : scope) (ns : list node) : res str :=
  ss <- mapM (render_node fuel files env) ns ;; Ok (concat ss).

(** renderer.get_template(name).render(...) *)
Definition render (fuel : nat) (files : dict str str) (name : str) (env : scope) : res str :=
  src <- of_option IOError (dget str_eqb name files) ;;
  ns <- of_option SyntaxError (parse src) ;;
  render_nodes fuel files env ns.
