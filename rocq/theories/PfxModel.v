(** Model of the macro `prefix` (unpythonic/syntax/prefix.py 149-252) on expressions. *)
From Coq Require Import String List ZArith Bool Arith.
From Verif Require Import Base.
Import ListNotations.
Open Scope string_scope.
Open Scope list_scope.
Open Scope nat_scope.

(** let and do have not been expanded when prefix runs.  Tuples that are assigned to (not in load context) are
    not tuples here but EOther, whose parts are visited too. *)
Inductive ex :=
| EName (x : string)
| EConst (z : Z)
| ETuple (l : list ex)
| ECall (f : ex) (args : list ex) (kws : list (option string * ex))     (* None: **value *)
| ESub (v : ex) (tup : bool) (l : list ex)                              (* v[e], or v[e1, ...] if tup *)
| ELet (bs : list (ex * ex)) (body : ex)                                (* let[(name, value), ...][body] *)
| EDo (l : list ex)                                                     (* do[e1, ...] *)
| EOther (kind : string) (l : list ex).

(** prefix.py 152-154 *)
Definition isname (s : string) (e : ex) : bool := match e with EName x => String.eqb x s | _ => false end.
(** q: prefix.py 152-154 *)
Definition isquote := isname "q".
(** u: prefix.py 152-154 *)
Definition isunquote := isname "u".
(** kw(...): prefix.py 152-154 *)
Definition iskwargs (e : ex) : bool := match e with ECall f _ _ => isname "kw" f | _ => false end.

(** Map with exceptions, left to right (no code in /repo). *)
Definition mapO {A B} (f : A -> outcome B) : list A -> outcome (list B) :=
  fix go (l : list A) : outcome (list B) :=
  match l with
  | [] => Ok []
  | a :: l => obind (f a) (fun b => obind (go l) (fun l => Ok (b :: l)))
  end.

(** it.py: uniqify, with a key; prefix.py 245: list(rev(uniqify(rev(kwargs), key=...))) *)
Definition same_key (a b : option string) : bool :=
  match a, b with Some x, Some y => String.eqb x y | None, None => true | _, _ => false end.
(** uniqify with the names as keys: it.py 225-248 *)
Fixpoint uniqify {A} (seen : list (option string)) (l : list (option string * A)) : list (option string * A) :=
  match l with
  | [] => []
  | kv :: l => if existsb (same_key (fst kv)) seen then uniqify seen l else kv :: uniqify (fst kv :: seen) l
  end.
(** Of several named arguments with one name, the last one: prefix.py 245 *)
Definition latest {A} (l : list (option string * A)) : list (option string * A) := rev (uniqify [] (rev l)).

(** What there is to know about an item of a tuple: the tree, and what the visit does with it, or, if it is
    kw(...), with its named arguments, at a quote level. *)
Definition item := (ex * (nat -> outcome ex) * (nat -> outcome (list (option string * ex))))%type.
(** The tree of an item. *)
Definition tree (i : item) : ex := fst (fst i).
(** prefix.py 215-229.  ValueError: `op, *data = []`. *)
Fixpoint operators (lvl : nat) (op : item) (data : list item) : outcome (nat * list item) :=
  let next lvl :=
    match data with
    | [] => Raise SyntaxError
    | op :: data => operators lvl op data
    end in
  if isunquote (tree op) then
    match lvl with O => Raise SyntaxError | S lvl => next lvl end
  else if isquote (tree op) then next (S lvl)
  else Ok (lvl, op :: data).
(** prefix.py 237-248: the named arguments of the kw(...)s, visited *)
Definition positional (e : ex) : bool := match e with ECall _ (_ :: _) _ => true | _ => false end.
(** prefix.py 156-248 *)
Fixpoint pfx (e : ex) (lvl : nat) {struct e} : outcome ex :=
  let all (l : list ex) := mapO (fun e => pfx e lvl) l in
  match e with
  | EName _ | EConst _ => Ok e
  | ELet bs b =>
      obind (mapO (fun nv => obind (pfx (snd nv) lvl) (fun v => Ok (fst nv, v))) bs) (fun bs =>
      obind (pfx b lvl) (fun b => Ok (ELet bs b)))
  | EDo l => obind (all l) (fun l => Ok (EDo l))
  | ESub v t l => obind (all l) (fun l => obind (pfx v lvl) (fun v => Ok (ESub v t l)))
  | EOther k l => obind (all l) (fun l => Ok (EOther k l))
  | ECall f a ks =>
      obind (pfx f lvl) (fun f => obind (all a) (fun a =>
      obind (mapO (fun kv => obind (pfx (snd kv) lvl) (fun v => Ok (fst kv, v))) ks) (fun ks =>
      Ok (ECall f a ks))))
  | ETuple l =>
      let items : list item := map (fun e => (e, pfx e,
        match e with
        | ECall _ _ ks => fun lvl => mapO (fun kv => obind (pfx (snd kv) lvl) (fun v => Ok (fst kv, v))) ks
        | _ => fun _ => Ok []
        end)) l in
      match items with
      | [] => Raise ValueError
      | op :: data =>
          obind (operators lvl op data) (fun r =>
          let '(lvl, its) := r in
          if 0 <? lvl then
            if existsb (fun i => iskwargs (tree i)) its then Raise SyntaxError
            else obind (mapO (fun i => snd (fst i) lvl) its) (fun l => Ok (ETuple l))
          else
            match its with
            | [] => Raise ValueError
            | op :: data =>
                let posargs := filter (fun i => negb (iskwargs (tree i))) data in
                let kwargs_calls := filter (fun i => iskwargs (tree i)) data in
                if existsb (fun i => positional (tree i)) kwargs_calls then Raise SyntaxError else
                obind (snd (fst op) lvl) (fun f =>
                obind (mapO (fun i => snd (fst i) lvl) posargs) (fun a =>
                obind (mapO (fun i => snd i lvl) kwargs_calls) (fun ks =>
                Ok (ECall f a (latest (concat ks))))))
            end)
      end
  end.

(** Python evaluates the expression that comes out.  [D]: what an expression does; [other], [letd], [dod]
    combine what the parts do. *)
Section Eval.
Variables (V W : Type).
(** Meanings of expressions (language model, no code in /repo). *)
Definition D := W -> outcome V * W.
Variable tuple : list V -> V.
Variable const : Z -> V.
Variable name : string -> D.
Variable call : V -> list V -> list (option string * V) -> D.
Variable item_of : V -> V -> D.
Variable letd : list (ex * D) -> D -> D.
Variable dod : list D -> D.
Variable other : string -> list D -> D.
(** One meaning after another (language model). *)
Definition dbind {A} (m : W -> outcome A * W) (k : A -> D) : D := fun w =>
  match m w with (Ok a, w) => k a w | (Raise e, w) => (Raise e, w) end.
(** Arguments, left to right (language model). *)
Fixpoint dseq (l : list D) (w : W) : outcome (list V) * W :=
  match l with
  | [] => (Ok [], w)
  | d :: l =>
      match d w with
      | (Ok v, w) => match dseq l w with (Ok l, w) => (Ok (v :: l), w) | (Raise e, w) => (Raise e, w) end
      | (Raise e, w) => (Raise e, w)
      end
  end.
(** Python's call (no code in /repo). *)
Definition apply_d (f : D) (args : list D) (ks : list (option string * D)) : D :=
  dbind f (fun f => dbind (dseq args) (fun a => dbind (dseq (map snd ks)) (fun v => call f a (combine (map fst ks) v)))).
(** Python's subscript (no code in /repo). *)
Definition sub_d (v : D) (tup : bool) (l : list D) : D :=
  dbind v (fun v => dbind (dseq l) (fun l =>
    match tup, l with false, [i] => item_of v i | _, _ => item_of v (tuple l) end)).
(** Python's own evaluation of expressions (no code in /repo). *)
Fixpoint eval (e : ex) : D :=
  match e with
  | EName x => name x
  | EConst z => fun w => (Ok (const z), w)
  | ETuple l => dbind (dseq (map eval l)) (fun l w => (Ok (tuple l), w))
  | ECall f a ks => apply_d (eval f) (map eval a) (map (fun kv => (fst kv, eval (snd kv))) ks)
  | ESub v t l => sub_d (eval v) t (map eval l)
  | ELet bs b => letd (map (fun nv => (fst nv, eval (snd nv))) bs) (eval b)
  | EDo l => dod (map eval l)
  | EOther k l => other k (map eval l)
  end.
End Eval.
