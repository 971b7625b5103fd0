(** Model of unpythonic/typecheck.py: isoftype (28-374), for Python 3.9 or later. *)
From Coq Require Import List Bool.
From Verif Require Import Base.
Import ListNotations.
Open Scope list_scope.

(** Classes: the ones the code treats specially, some other builtins, and user classes. *)
Inductive cls :=
| CObject | CInt | CFloat | CNone | CStr | CBytes | CByteArray | CTuple | CList | CSet | CFrozenSet | CDeque | CDict
| CKeysView | CValuesView | CItemsView | CMappingView | CMapping | CMutableMapping | CAbstractSet
| CMutableSet | CSequence | CMutableSequence | CByteString | CCallable | CType | CFunction
| CIterator | CIterable | CContainer | CCollection | CHashable | CSized
| CUser (n : nat).
(** Equality of classes. *)
Definition cls_eq_dec (a b : cls) : {a = b} + {a <> b}.
Proof. decide equality. decide equality. Defined.
(** The same, as a boolean. *)
Definition ceqb (a b : cls) : bool := if cls_eq_dec a b then true else false.

(** issubclass among Python's own classes, as far as this module asks; the second component of
    each line lists the superclasses other than object *)
Definition coll := [CIterable; CContainer; CCollection; CSized].
(** The other classes that a class derives from or is registered with (Python's own). *)
Definition supers (c : cls) : list cls :=
  match c with
  | CInt | CFloat | CNone => [CHashable]
  | CStr => CSequence :: CHashable :: coll
  | CBytes => CByteString :: CSequence :: CHashable :: coll
  | CByteArray => CByteString :: CMutableSequence :: CSequence :: coll
  | CTuple => CSequence :: CHashable :: coll
  | CList => CMutableSequence :: CSequence :: coll
  | CDeque => CMutableSequence :: CSequence :: coll
  | CSet => CMutableSet :: CAbstractSet :: coll
  | CFrozenSet => CAbstractSet :: CHashable :: coll
  | CDict => CMutableMapping :: CMapping :: coll
  | CKeysView => CMappingView :: CAbstractSet :: coll
  | CItemsView => CMappingView :: CAbstractSet :: coll
  | CValuesView => CMappingView :: coll
  | CMappingView => [CSized]
  | CMapping => coll
  | CMutableMapping => CMapping :: coll
  | CAbstractSet => coll
  | CMutableSet => CAbstractSet :: coll
  | CSequence => coll
  | CMutableSequence => CSequence :: coll
  | CByteString => CSequence :: coll
  | CCallable => []
  | CType => [CCallable; CHashable]
  | CFunction => [CCallable; CHashable]
  | CIterator => [CIterable]
  | CCollection => [CIterable; CContainer; CSized]
  | _ => []
  end.

(** A value: its class, what iterating over it yields, and, for a mapping or an items view, the
    value that goes with each key (an items view is given by its keys and values).  Coinductive:
    the elements of a one-character string contain the string, and a list may contain itself.
    A value is false exactly when it is empty; a user-defined __bool__ is not modelled. *)
CoInductive value := Obj (c : cls) (elts : list value) (vals : list value).
(** [type(v)]. *)
Definition class_of (v : value) : cls := match v with Obj c _ _ => c end.
(** What iterating over it yields. *)
Definition elts (v : value) : list value := match v with Obj _ l _ => l end.
(** [v.items()] of a mapping. *)
Definition items (v : value) : list (value * value) := match v with Obj _ l m => combine l m end.

(** Type specifications *)
Inductive typ :=
| TAny
| TVar (constraints : list typ)
| TUnion (args : list typ)
| TUnionBare
| TNewType (super : cls)
| TPony (c : cls)                      (* typing.Iterator, ..., typing.Sized, bare: 201-208 *)
| TReversible
| TSupports (c : cls)                  (* 217-225: typing.SupportsInt etc., a class of its own *)
| TTupleOf (u : typ)                   (* Tuple[u, ...] *)
| TTuple (args : list typ)             (* Tuple[a, b, ...], at least one *)
| TAlias1 (origin : cls) (u : typ)     (* List[u], Sequence[u], ... *)
| TAlias2 (origin : cls) (k v : typ)   (* Dict[k, v], ItemsView[k, v], ... *)
| TCallable                            (* Callable[..., ...] *)
| TBare (origin : cls)                 (* typing.List, typing.Dict, ... without arguments *)
| TClass (c : cls)                     (* a class *)
| TOther.                              (* any other feature of typing *)

(** any(...), all(...) over calls that may raise *)
Definition any_of {X} (f : X -> outcome bool) : list X -> outcome bool :=
  fix go l := match l with
              | [] => Ok false
              | x :: l => do b <- f x; if b then Ok true else go l
              end.
(** [all(...)] over calls that may raise. *)
Definition all_of {X} (f : X -> outcome bool) : list X -> outcome bool :=
  fix go l := match l with
              | [] => Ok true
              | x :: l => do b <- f x; if b then go l else Ok false
              end.
(** all(isoftype(elt, U) for elt, U in zip(value, args)) *)
Definition all_zip {X Y} (f : X -> Y -> outcome bool) : list X -> list Y -> outcome bool :=
  fix go l m := match l, m with
                | x :: l, y :: m => do b <- f x y; if b then go l m else Ok false
                | _, _ => Ok true
                end.
(** [a and b]. *)
Definition both (a : outcome bool) (b : outcome bool) : outcome bool := do x <- a; if x then b else Ok false.

(** typecheck.py 267-269; 318-332 *)
Definition mappings := [CDict; CMutableMapping; CMapping].
(** The generic collections that the loop goes through: typecheck.py 28-374 *)
Definition collections := [CList; CFrozenSet; CSet; CDeque; CByteString; CMutableSet; CKeysView; CValuesView;
  CMappingView; CAbstractSet; CMutableSequence; CMappingView; CSequence].
(** [c in l]. *)
Definition cin (c : cls) (l : list cls) : bool := existsb (ceqb c) l.
(** [not l]. *)
Definition is_empty {X} (l : list X) : bool := match l with [] => true | _ => false end.

Section IsOfType.
(** issubclass for user classes; hasattr(value, "__reversed__") *)
Variable usub : nat -> cls -> bool.
Variable has_reversed : cls -> bool.
Definition issub (c d : cls) : bool :=
  match c with
  | CUser n => match d with CObject => true | _ => usub n d end
  | _ => ceqb c d || match d with CObject => true | _ => cin d (supers c) end
  end.
(** [isinstance(v, c)]. *)
Definition isinst (v : value) (c : cls) : bool := issub (class_of v) c.

(** typecheck.py 254-266 *)
Definition ismapping (rt : cls) (k w : value -> outcome bool) (v : value) : outcome bool :=
  if negb (isinst v rt) then Ok false
  else if is_empty (elts v) then Ok false
  else all_of (fun kv => both (k (fst kv)) (w (snd kv))) (items v).
(** typecheck.py 295-317 *)
Definition iscollection (rt : cls) (u : value -> outcome bool) (v : value) : outcome bool :=
  if negb (isinst v rt) then Ok false
  else if is_empty (elts v) then Ok false
  else all_of u (elts v).
(** an unconstrained TypeVar: 259, 280, 310 *)
Definition anything (v : value) : outcome bool := Ok true.

(** A class, or a generic of [typing] without arguments: typecheck.py 229-374.  safeissubclass(T, typing.X) is
    issubclass(T, x), x being the class that typing.X stands for.  The element type of a ByteString
    is int (302), for which isoftype is isinstance. *)
Definition isoftype_class (real : bool) (c : cls) (v : value) : outcome bool :=
  if issub c CStr then Ok (isinst v CStr)
  else if issub c CTuple then Ok (isinst v CTuple)
  else match find (issub c) mappings with
  | Some rt => ismapping rt anything anything v
  | None =>
      if issub c CItemsView then ismapping CItemsView anything anything v
      else match (if ceqb c CStr || ceqb c CBytes then None else find (issub c) collections) with
      | Some rt => iscollection rt (if ceqb rt CByteString then (fun e => Ok (isinst e CInt)) else anything) v
      | None =>
          if issub c CCallable then Ok (isinst v CCallable)       (* callable(value) *)
          else if real then Ok (isinst v c)
          else Raise NotImplementedError
      end
  end.

(** isoftype: typecheck.py 28-374 *)
Fixpoint isoftype (T : typ) (v : value) : outcome bool :=
  match T with
  | TAny => Ok true                                              (* 91 *)
  | TVar [] => Ok true                                           (* 97 *)
  | TVar cs => any_of (fun U => isoftype U v) cs                 (* 99 *)
  | TUnion ts => any_of (fun U => isoftype U v) ts               (* 174-179 *)
  | TUnionBare => Ok false                                       (* 182 *)
  | TNewType c => Ok (isinst v c)                                (* 198 *)
  | TPony c => Ok (isinst v c)                                   (* 208 *)
  | TReversible => Ok (has_reversed (class_of v))                (* 214 *)
  | TSupports c => Ok (isinst v c)                               (* 225 *)
  | TTupleOf U =>                                                (* 233-247 *)
      if negb (isinst v CTuple) then Ok false
      else if is_empty (elts v) then Ok false
      else all_of (isoftype U) (elts v)
  | TTuple ts =>                                                 (* 233-239, 249-251 *)
      if negb (isinst v CTuple) then Ok false
      else if negb (Nat.eqb (length (elts v)) (length ts)) then Ok false
      else all_zip (fun U => isoftype U) ts (elts v)
  | TAlias1 c U =>                                               (* 318-334 *)
      if cin c collections then iscollection c (isoftype U) v
      else Raise NotImplementedError
  | TAlias2 c K V =>                                             (* 267-287 *)
      if cin c mappings || ceqb c CItemsView then ismapping c (isoftype K) (isoftype V) v
      else Raise NotImplementedError
  | TCallable => Ok (isinst v CCallable)                         (* 336-339 *)
  | TBare c => isoftype_class false c v
  | TClass c => isoftype_class true c v
  | TOther => Raise NotImplementedError                          (* 367-369 *)
  end.
End IsOfType.
