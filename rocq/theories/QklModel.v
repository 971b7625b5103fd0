(** Model of `with quicklambda` (unpythonic/syntax/lambdatools.py 168-212), with the macro fn (128-164, 422-442),
    on trees of any syntax, in which other macros may be used. *)
From Coq Require Import String List Bool Arith.
From Verif Require Import Base.
Import ListNotations.
Open Scope string_scope.
Open Scope list_scope.
Open Scope nat_scope.

(** lambdatools.py 432-433: names in the program, and names from gensym *)
Inductive nm := User (x : string) | Gen (i : nat).
(** Syntax trees (no code in /repo): [TNode k l]: a node of any kind, whose fields, in the order of the ast module,
    contain [l].  [TSub x i] is x[i], with a bare name before the bracket: taking an item, or using a macro. *)
Inductive tree :=
| TName (x : nm)
| TNode (k : nat) (l : list tree)
| TSub (x : nm) (i : tree)
| TLam (ps : list nm) (b : tree)
| TCap (k : nat).                             (* lambdatools.py 425: a captured value of the macro expander *)

(** lambdatools.py 161, 211: extract_bindings (of mcpyrate) gives the names that are bound to the macro fn.
    A macro is known by its number; [fnm] is that of fn. *)
Definition extract_bindings (fnm : nat) (bindings : list (string * nat)) : list string :=
  map fst (filter (fun b => Nat.eqb (snd b) fnm) bindings).
(** lambdatools.py 430: is this name one of [mynames]? *)
Definition mine (mynames : list string) (x : nm) : bool :=
  match x with User x => existsb (String.eqb x) mynames | Gen _ => false end.
(** lambdatools.py 432-435: a name *)
Definition transform_name (n : nat) (x : nm) : nm * nat :=
  match x with
  | User "_" => (Gen n, S n)
  | x => (x, n)
  end.
(** lambdatools.py 423-436.  [n]: the next name from gensym; the names that are collected are [Gen n],
    [Gen (n+1)], ... *)
Fixpoint transform (mynames : list string) (n : nat) (t : tree) {struct t} : tree * nat :=
  match t with
  | TCap k => (TCap k, n)                                             (* 425-426 *)
  | TName x => let (x, n) := transform_name n x in (TName x, n)
  | TSub x i =>
      if mine mynames x then (TSub x i, n)                            (* 430-431 *)
      else let (x, n) := transform_name n x in
           let (i, n) := transform mynames n i in (TSub x i, n)
  | TNode k l =>
      let (l, n) := (fix trs (n : nat) (l : list tree) : list tree * nat :=
                       match l with
                       | [] => ([], n)
                       | t :: l => let (t, n) := transform mynames n t in let (l, n) := trs n l in (t :: l, n)
                       end) n l in
      (TNode k l, n)
  | TLam ps b => let (b, n) := transform mynames n b in (TLam ps b, n)
  end.
(** lambdatools.py 422-442: _fn *)
Definition fn_ (mynames : list string) (n : nat) (tree : tree) : QklModel.tree * nat :=
  let (b, n') := transform mynames n tree in
  (TLam (map Gen (seq n (n' - n))) b, n').
(** MacroExpander(bindings).visit (of mcpyrate), with only the macro fn among the bindings: outside in; it goes on
    with what a macro gave.  [None]: [k] was too low. *)
Fixpoint visit (mynames : list string) (k n : nat) (t : tree) : option (tree * nat) :=
  match k with
  | 0 => None
  | S k =>
      match t with
      | TName _ | TCap _ => Some (t, n)
      | TSub x i =>
          if mine mynames x then let (t, n) := fn_ mynames n i in visit mynames k n t
          else match visit mynames k n i with Some (i, n) => Some (TSub x i, n) | None => None end
      | TNode j l =>
          match (fix vs (n : nat) (l : list tree) : option (list tree * nat) :=
                   match l with
                   | [] => Some ([], n)
                   | t :: l =>
                       match visit mynames k n t with
                       | Some (t, n) => match vs n l with Some (l, n) => Some (t :: l, n) | None => None end
                       | None => None
                       end
                   end) n l with
          | Some (l, n) => Some (TNode j l, n)
          | None => None
          end
      | TLam ps b => match visit mynames k n b with Some (b, n) => Some (TLam ps b, n) | None => None end
      end
  end.
(** lambdatools.py 211-212: quicklambda, for the bindings of the expander that is at work *)
Definition quicklambda (fnm : nat) (bindings : list (string * nat)) (k n : nat) (t : tree) : option (tree * nat) :=
  visit (extract_bindings fnm bindings) k n t.
