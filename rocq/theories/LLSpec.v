(** Specification vocabulary for linked lists (C14, C15). *)
From Verif Require Import Base LLModel.
From Coq Require Import List Bool.
Import ListNotations.

(** The proper list with the given items, and the chain of cells ending in [t]. *)
Fixpoint chain {A} (l : list (val A)) (t : val A) : val A :=
  match l with [] => t | x :: l' => Cons x (chain l' t) end.
Definition lst {A} (l : list (val A)) : val A := chain l Nil.
(** Same shape, equal atoms. *)
Inductive same {A} (aeqb : A -> A -> bool) : val A -> val A -> Prop :=
| same_atom x y : aeqb x y = true -> same aeqb (Atom x) (Atom y)
| same_nil : same aeqb Nil Nil
| same_cons a a' d d' : same aeqb a a' -> same aeqb d d' -> same aeqb (Cons a d) (Cons a' d').
(** The leaves, left to right; and those that are not a nil in the cdr half. *)
Fixpoint leaves {A} (v : val A) : list (val A) :=
  match v with Cons a d => leaves a ++ leaves d | _ => [v] end.
Fixpoint leaves_but_nil_cdr {A} (v : val A) : list (val A) :=
  match v with
  | Cons a d => leaves_but_nil_cdr a ++ match d with Nil => [] | _ => leaves_but_nil_cdr d end
  | _ => [v]
  end.
(** Follow a path of "a"s and "d"s, first letter first. *)
Fixpoint follow {A} (path : list bool) (v : val A) : option (val A) :=
  match path with
  | [] => Some v
  | b :: path' => match v with Cons a d => follow path' (if b then a else d) | _ => None end
  end.
(** No cell has a cons on the left and a leaf on the right. *)
Fixpoint right_deep {A} (v : val A) : Prop :=
  match v with
  | Cons a d => right_deep a /\ right_deep d /\ (is_cons a = true -> is_cons d = true)
  | _ => True
  end.
Fixpoint nodes {A} (v : val A) : nat := match v with Cons a d => S (nodes a + nodes d) | _ => 1 end.
