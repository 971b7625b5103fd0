(** Model of the scope analysis (unpythonic/syntax/scopeanalyzer.py) as used by the let macros to
    find the identifiers that refer to their variables (unpythonic/syntax/letdo.py 418-486,
    516-624).

    Simplifications: classes, match statements, imports and try/except with their special cases
    (scopeanalyzer.py 231-240, 343-379) are left out.  All the blocks of a compound statement are
    one list, in the order of the text: the analysis treats them alike. *)
From Coq Require Import String List Bool Arith.
Import ListNotations.
Open Scope string_scope.
Open Scope list_scope.

(** Expressions.  [Op l]: any expression with the operands l.  [Lam ps ds b]: a lambda with
    parameters ps, default values ds.  [Comp l ts it r]: a comprehension with elements l, targets ts
    (of all its clauses), the first iterable it; r are the other iterables and the conditions.
    [EnvGet x] and [EnvSet x v] are e.x and e.set("x", v), made by the macro. *)
Inductive ex :=
| Name (x : string)
| Op (l : list ex)
| Lam (ps : list string) (ds : list ex) (b : ex)
| Comp (l : list ex) (ts : list string) (it : ex) (r : list ex)
| Walrus (x : string) (v : ex)
| EnvGet (x : string)
| EnvSet (x : string) (v : ex).

(** Statements.  [Simple ts l] binds the names ts and has the expressions l: an assignment, a
    return, an expression.  [Decl ts]: global or nonlocal.  [Block ts l b]: a compound
    statement (if, while, for, with) that evaluates l, then binds ts, and has the statements b. *)
Inductive st :=
| Simple (ts : list string) (l : list ex)
| Delete (ts : list string)
| Decl (ts : list string)
| Block (ts : list string) (l : list ex) (b : list st)
| Def (f : string) (decos : list ex) (ps : list string) (ds : list ex) (b : list st).

(** Membership in a list of names (no code in /repo). *)
Definition mem (x : string) (l : list string) : bool := existsb (String.eqb x) l.

(** get_names_in_store_context: scopeanalyzer.py 288-395 *)
Fixpoint stored_e (e : ex) : list string :=
  match e with
  | Name _ | EnvGet _ => []
  | Op l => flat_map stored_e l
  | Lam _ _ _ | Comp _ _ _ _ => []
  | Walrus x v => x :: stored_e v
  | EnvSet _ v => stored_e v
  end.
(** scopeanalyzer.py 288-395: the names that a statement binds, for the statements of the model. *)
Fixpoint stored (s : st) : list string :=
  match s with
  | Simple ts l => ts ++ flat_map stored_e l
  | Delete _ | Decl _ => []
  | Block ts l b => ts ++ flat_map stored_e l ++ flat_map stored b
  | Def f _ _ _ _ => [f]
  end.
(** get_names_in_del_context: scopeanalyzer.py 397-417 *)
Fixpoint deleted (s : st) : list string :=
  match s with
  | Delete ts => ts
  | Block _ _ b => flat_map deleted b
  | _ => []
  end.
(** collect_nonlocals and collect_globals: scopeanalyzer.py 437-468 *)
Fixpoint declared (s : st) : list string :=
  match s with
  | Decl ts => ts
  | Block _ _ b => flat_map declared b
  | _ => []
  end.

(** scoped_transform with the callbacks of _transform_envassignment and _transform_name:
    scopeanalyzer.py 113-164, letdo.py 441-486.  [L]: the names of the let.  [a], [l], [n]: args,
    localvars, nonlocals. *)
Inductive pass := Assign | Names.
Section Transform.
  Variable L : list string.
  (** The name is one of the let's, and not shadowed, as cited at [pass]. *)
  Definition ours (a l n : list string) (x : string) : bool :=
    mem x L && negb (mem x (a ++ l ++ n)).
  (** The pass over expressions, as cited at [pass]. *)
  Fixpoint tr_e (p : pass) (a l n : list string) (e : ex) : ex :=
    match e with
    | Name x =>
        match p with
        | Names => if ours a l n x then EnvGet x else Name x
        | Assign => Name x
        end
    | Op es => Op (map (tr_e p a l n) es)
    | Lam ps ds b => Lam ps (map (tr_e p (a ++ ps) l n) ds) (tr_e p (a ++ ps) l n b)
    | Comp es ts it r =>
        Comp (map (tr_e p (a ++ ts) l n) es) ts (tr_e p (a ++ ts) l n it)
             (map (tr_e p (a ++ ts) l n) r)
    | Walrus x v =>
        match p with
        | Assign => if ours a l n x then EnvSet x (tr_e p a l n v) else Walrus x (tr_e p a l n v)
        | Names => Walrus x (tr_e p a l n v)
        end
    | EnvGet x => EnvGet x
    | EnvSet x v => EnvSet x (tr_e p a l n v)
    end.
  (** The local variables after a statement: scopeanalyzer.py 147-156 *)
  Definition minus (l m : list string) : list string := filter (fun x => negb (mem x m)) l.
  (** The local variables after a statement: scopeanalyzer.py 138-156 *)
  Definition after (n l : list string) (s : st) : list string :=
    minus (l ++ minus (stored s) n) (minus (deleted s) n).
  (** The statements of a function body: scopeanalyzer.py 138-156 *)
  Definition body (f : list string -> st -> st) (n : list string) :=
    fix go (l : list string) (b : list st) : list st :=
      match b with
      | [] => []
      | s :: b' => f l s :: go (after n l (f l s)) b'
      end.
  (** A statement in one pass: scopeanalyzer.py 98-164 *)
  Fixpoint tr_s (p : pass) (a n l : list string) (s : st) {struct s} : st :=
    match s with
    | Simple ts es => Simple ts (map (tr_e p a l n) es)
    | Delete ts => Delete ts
    | Decl ts => Decl ts
    | Block ts es b => Block ts (map (tr_e p a l n) es) (map (tr_s p a n l) b)
    | Def f decos ps ds b =>
        let a' := a ++ f :: ps in
        let n' := flat_map declared b in
        Def f (map (tr_e p a l n) decos) ps (map (tr_e p a' l n) ds)
            (body (tr_s p a' n') n' l b)
    end.
  (** _letlike_transform: letdo.py 418-439 *)
  Definition letlike_e (e : ex) : ex := tr_e Names [] [] [] (tr_e Assign [] [] [] e).
  (** Both passes one after the other: letdo.py 418-439 *)
  Definition letlike (s : st) : st := tr_s Names [] [] [] (tr_s Assign [] [] [] s).
End Transform.

(** The function that @dlet or @dletrec decorates: letdo.py 516-557.  (The parameter and the decorator
    added at the end are left out.) *)
Definition dlet (L : list string) (s : st) : st := letlike L s.
(** The function that @dletseq decorates, for one binding: letdo.py 591-613.  [tmp] is the name from
    gensym. *)
Definition dletseq1 (tmp x : string) (s : st) : st :=
  match s with
  | Def f decos ps ds b =>
      match dlet [x] (Def tmp decos [] [] b) with
      | Def _ decos' _ _ b' => Def f decos' ps ds b'
      | s' => s'
      end
  | _ => s
  end.
