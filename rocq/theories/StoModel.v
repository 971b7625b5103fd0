(** Model of the collectors of unpythonic/syntax/scopeanalyzer.py (70-94, 166-468): which names a statement
    binds, deletes or declares, and which names are in scope in a scope of a program. *)
From Coq Require Import String List Bool Arith.
From Verif Require Import Base.
Import ListNotations.
Open Scope string_scope.
Open Scope list_scope.

(** Syntax trees.  The fields of the nodes that make a scope of their own (scopeanalyzer.py 89-94) are grouped by where they
    are evaluated: [outer] (decorators, default values, annotations, keyword arguments of a class) and
    [first] (the iterable of the first clause of a comprehension) in the scope around them, the rest
    inside.  A lambda or a function is the same whether async or not; so are the four kinds of
    comprehensions.  All other nodes ([Node]) have their subtrees in the order of the fields. *)
Inductive ctx := Load | Store | Del.
(** ast.arguments, names only *)
Record arguments := mkargs { posonly : list string; plain : list string; vararg : option string; kwonly : list string; kwarg : option string }.
(** The kinds of other nodes that the collectors look at.  [KImport]: the names, each with its asname, of an
    import statement ([from] true for from ... import).  [KTry]: the names of its handlers.  [KWalrus] and
    [KTuple] are not special for the collectors of this file, but for Python and for
    get_lexical_variables. *)
Inductive kind :=
| KName (c : ctx) (x : string)
| KImport (from : bool) (names : list (string * option string))
| KTry (handlers : list (option string))
| KMatchAs (name : option string)
| KMatchStar (name : option string)
| KMatchMapping (rest : option string)
| KMatchClass
| KGlobal (names : list string)
| KNonlocal (names : list string)
| KWalrus
| KTuple
| KOther.
(** Syntax trees (no code in /repo). *)
Inductive tree :=
| Node (k : kind) (l : list tree)
| Lam (a : arguments) (outer : list tree) (b : tree)
| Def (f : string) (a : arguments) (outer : list tree) (b : list tree)
| Class (c : string) (bases outer : list tree) (b : list tree)
| Comp (targets : list tree) (first : tree) (rest : list tree).

(** collecting in order; an exception ends it *)
Definition gather {A} (f : tree -> outcome (list A)) :=
  fix go (l : list tree) : outcome (list A) :=
    match l with
    | [] => Ok []
    | t :: l =>
        match f t with
        | Ok a => match go l with Ok b => Ok (a ++ b) | Raise e => Raise e end
        | Raise e => Raise e
        end
    end.

(** scopeanalyzer.py 335-392.  364-379: the constructor of mcpyrate's visitors takes named arguments only, and visit
    takes the tree, so that MatchCapturesCollector(tree.patterns) raises TypeError. *)
Definition stored_here (k : kind) : outcome (list (option string)) :=
  match k with
  | KName Store x => Ok [Some x]
  | KImport _ names => Ok (map (fun n => Some match snd n with Some a => a | None => fst n end) names)
  | KTry handlers => Ok handlers
  | KMatchAs (Some x) | KMatchStar (Some x) => Ok [Some x]
  | KMatchMapping _ | KMatchClass => Raise TypeError
  | _ => Ok []
  end.
(** get_names_in_store_context: scopeanalyzer.py 288-395.  None is among the names for a handler without one. *)
Fixpoint stored (t : tree) : outcome (list (option string)) :=
  match t with
  | Node k l =>
      match stored_here k with
      | Raise e => Raise e
      | Ok a => match gather stored l with Ok b => Ok (a ++ b) | Raise e => Raise e end
      end
  | Def f _ _ _ => Ok [Some f]
  | Class c _ _ _ => Ok [Some c]
  | Lam _ _ _ | Comp _ _ _ => Ok []
  end.
(** get_names_in_del_context: scopeanalyzer.py 397-417 *)
Fixpoint deleted (t : tree) : list string :=
  match t with
  | Node k l => match k with KName Del x => [x] | _ => [] end ++ flat_map deleted l
  | _ => []
  end.
(** collect_globals: scopeanalyzer.py 437-451 *)
Fixpoint globals (t : tree) : list string :=
  match t with
  | Node k l => match k with KGlobal xs => xs | _ => [] end ++ flat_map globals l
  | _ => []
  end.
(** collect_nonlocals: scopeanalyzer.py 453-467 *)
Fixpoint nonlocals (t : tree) : list string :=
  match t with
  | Node k l => match k with KNonlocal xs => xs | _ => [] end ++ flat_map nonlocals l
  | _ => []
  end.
(** extract_args: scopeanalyzer.py 419-435 *)
Definition opt (o : option string) : list string := match o with Some x => [x] | None => [] end.
(** extract_args: scopeanalyzer.py 419-435 *)
Definition extract_args (a : arguments) : list string :=
  plain a ++ kwonly a ++ posonly a ++ opt (vararg a) ++ opt (kwarg a).
(** uniqify (it.py): the first occurrences *)
Fixpoint uniqify {A} (eqb : A -> A -> bool) (seen l : list A) : list A :=
  match l with
  | [] => []
  | x :: l => if existsb (eqb x) seen then uniqify eqb seen l else x :: uniqify eqb (x :: seen) l
  end.
(** Equality of names, None being one. *)
Definition oeqb (a b : option string) : bool :=
  match a, b with Some x, Some y => String.eqb x y | None, None => true | _, _ => false end.
(** scopeanalyzer.py 273-280: all the names in a tuple *)
Fixpoint all_names (t : tree) : list string :=
  match t with
  | Node k l => match k with KName _ x => [x] | _ => [] end ++ flat_map all_names l
  | Lam _ o b => flat_map all_names o ++ all_names b
  | Def _ _ o b => flat_map all_names o ++ flat_map all_names b
  | Class _ bs o b => flat_map all_names bs ++ flat_map all_names o ++ flat_map all_names b
  | Comp ts f r => flat_map all_names ts ++ all_names f ++ flat_map all_names r
  end.
(** scopeanalyzer.py 266-282.  Simplification: no Done nodes. *)
Definition target_names (t : tree) : outcome (list (option string)) :=
  match t with
  | Node (KName _ x) _ => Ok [Some x]
  | Node KTuple _ => Ok (map Some (all_names t))
  | _ => Raise SyntaxError
  end.
(** get_lexical_variables: scopeanalyzer.py 215-286 *)
Definition get_lexical_variables (t : tree) (collect_locals : bool) : outcome (list (option string) * list string) :=
  match t with
  | Node _ _ => Raise TypeError
  | Lam a _ _ => Ok (uniqify oeqb [] (map Some (extract_args a)), [])
  | Def f a _ b =>
      match (if collect_locals then gather stored b else Ok []) with
      | Raise e => Raise e
      | Ok locals =>
          Ok (uniqify oeqb [] (Some f :: map Some (extract_args a) ++ uniqify oeqb [] locals),
              uniqify String.eqb [] (flat_map nonlocals b ++ flat_map globals b))
      end
  | Class c bases _ _ =>
      Ok (uniqify oeqb [] (map Some (c :: flat_map (fun b => match b with Node (KName _ x) _ => [x] | _ => [] end) bases)), [])
  | Comp targets _ _ =>
      match gather target_names targets with Ok l => Ok (uniqify oeqb [] l, []) | Raise e => Raise e end
  end.
