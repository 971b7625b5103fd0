(** Model of [dyn] as a mapping, and of its views (unpythonic/dynassign.py 50-79, 156-266, 294-296).
    The scopes of the current thread are those of DynModel. *)
From Coq Require Import String List Bool Arith.
From Verif Require Import Base CollModel DynModel.
Import ListNotations.
Open Scope nat_scope.

Section Dmp.
Context {V : Type}.
Variable veqb : V -> V -> bool.              (* [==] of values *)
Notation scope := (dict string V).
Notation dst := (@dst string V).
Notation seqb := String.eqb.

(** What the class has: attribute lookup finds these before it calls __getattr__.  First the names defined in _Dyn, then
    those of Singleton and object. *)
Definition class_attributes : list string := [
  "let"; "update"; "asdict"; "items"; "keys"; "values"; "get"; "_resolve";
  "__getattr__"; "__setattr__"; "__contains__"; "__iter__"; "__eq__"; "__len__"; "__getitem__"; "__setitem__"; "__repr__";
  "__doc__"; "__module__"; "__hash__"; "__new__"; "__dict__"; "__weakref__"; "__class__"; "__delattr__"; "__dir__"; "__format__"; "__ge__";
  "__getattribute__"; "__gt__"; "__init__"; "__init_subclass__"; "__le__"; "__lt__"; "__ne__"; "__reduce__"; "__reduce_ex__";
  "__sizeof__"; "__str__"; "__subclasshook__"]%string.
(** Whether attribute lookup finds the name on the class of dyn (dynassign.py 78-252). *)
Definition is_class_attribute (n : string) : bool := existsb (seqb n) class_attributes.
(** What an attribute access gives: a dynamic variable, or an attribute of the class. *)
Inductive attr := Var (v : V) | Attr (n : string).     (* the value of a dynamic variable; an attribute of the class *)

(** [getattr(dyn, n)]; dynassign.py 156-159 *)
Definition dyn_getattr (d : dst) (n : string) : outcome attr :=
  if is_class_attribute n then Ok (Attr n) else (do v <- dyn_get seqb d n; Ok (Var v)).
(** dynassign.py 218-223 *)
Definition dyn_contains (d : dst) (n : string) : outcome bool :=
  match dyn_getattr d n with
  | Ok _ => Ok true
  | Raise AttributeError => Ok false
  | Raise x => Raise x
  end.
(** dynassign.py 256-257 *)
Definition dyn_getitem (d : dst) (n : string) : outcome attr := dyn_getattr d n.
(** dynassign.py 246-247; [None]: the default was returned *)
Definition dyn_get_default (d : dst) (n : string) : outcome (option attr) :=
  do b <- dyn_contains d n; if b then (do a <- dyn_getitem d n; Ok (Some a)) else Ok None.

(** ** Views: collections.ChainMap *)
(** dynassign.py 78-79 *)
Definition maps (d : dst) : list scope := stack d ++ [globals d].
(** ChainMap.__getitem__ *)
Fixpoint chain_getitem (ms : list scope) (n : string) : outcome V :=
  match ms with
  | [] => Raise KeyError
  | m :: ms => match dict_get seqb m n with Some v => Ok v | None => chain_getitem ms n end
  end.
(** ChainMap.__iter__: [d = {}; for m in reversed(maps): d.update(dict.fromkeys(m))] *)
Definition add_key (ks : list string) (k : string) : list string := if existsb (seqb k) ks then ks else ks ++ [k].
(** [ChainMap.__iter__] (collections, standard library). *)
Definition chain_iter (ms : list scope) : list string :=
  fold_left (fun ks m => fold_left add_key (map fst m) ks) (rev ms) [].
(** ChainMap.__len__: [len(set().union(...))] *)
Definition chain_len (ms : list scope) : nat :=
  length (nodup string_dec (concat (map (map fst) ms))).
(** ItemsView.__iter__ *)
Fixpoint mapM {A B} (f : A -> outcome B) (l : list A) : outcome (list B) :=
  match l with [] => Ok [] | a :: l => do b <- f a; do bs <- mapM f l; Ok (b :: bs) end.
(** [ChainMap.items()] (collections, standard library). *)
Definition chain_items (ms : list scope) : outcome (list (string * V)) :=
  mapM (fun k => do v <- chain_getitem ms k; Ok (k, v)) (chain_iter ms).
(** Mapping.__eq__ with a dict *)
Definition chain_eq (ms : list scope) (other : scope) : outcome bool :=
  do its <- chain_items ms; Ok (dict_eq seqb veqb its other).
(** ChainMap.__setitem__: [self.maps[0][key] = value] *)
Definition view_setitem (d : dst) (n : string) (v : V) : dst :=
  match stack d with
  | s :: ss => mkdst (dict_set seqb s n v :: ss) (globals d)
  | [] => mkdst [] (dict_set seqb (globals d) n v)
  end.

(** dynassign.py 226-244, 248-252 *)
Definition dyn_iter (d : dst) : list string := chain_iter (maps d).
(** dyn.items(): dynassign.py 240-242 *)
Definition dyn_items (d : dst) : outcome (list (string * V)) := chain_items (maps d).
(** len(dyn): dynassign.py 252-253 *)
Definition dyn_len (d : dst) : nat := chain_len (maps d).
(** [dyn == other]: dynassign.py 249-250 *)
Definition dyn_eq (d : dst) (other : scope) : outcome bool := chain_eq (maps d) other.
End Dmp.
