(** Specification for C134: a container with everything in it, as a tree. *)
From Coq Require Import List Arith Bool.
From Verif Require Import Base MgxModel.
Import ListNotations.

Section Spec.
Context {A K : Type}.
Notation xval := (xval A K).
(** A node is an immutable container, or a mutable one with its identity. *)
Inductive what := Imm (k : kind K) | Mut (r : nat) (m : mkind K).
Inductive tree := Leaf (a : A) | Node (w : what) (l : list tree).

(** The atoms, from left to right. *)
Fixpoint leaves (t : tree) : list A :=
  match t with Leaf a => [a] | Node _ l => flat_map leaves l end.
(** The identities of the mutable containers, one per occurrence. *)
Fixpoint refs (t : tree) : list nat :=
  match t with
  | Leaf _ => []
  | Node w l => match w with Mut r _ => [r] | Imm _ => [] end ++ flat_map refs l
  end.
(** Nesting depth. *)
Fixpoint depth (t : tree) : nat :=
  match t with Leaf _ => 1 | Node _ l => S (list_max (map depth l)) end.
(** [sub i u t]: [u] is a part of [t], and [i] atoms of [t] are to the left of it. *)
Inductive sub : nat -> tree -> tree -> Prop :=
| sub_self t : sub 0 t t
| sub_in i u w l1 t l2 : sub i u t -> sub (length (flat_map leaves l1) + i) u (Node w (l1 ++ t :: l2)).

(** The value whose contents the tree shows. *)
Fixpoint value (t : tree) : xval :=
  match t with
  | Leaf a => XAtom a
  | Node (Imm k) l => XImm k (map value l)
  | Node (Mut r _) _ => XRef r
  end.
(** The mutable containers of the tree hold what the tree says. *)
Definition holds (h : nat -> option (cell A K)) (u : tree) : Prop :=
  match u with Node (Mut r m) l => h r = Some (m, map value l) | _ => True end.
Definition in_heap (h : nat -> option (cell A K)) (t : tree) : Prop := forall i u, sub i u t -> holds h u.

(** Values as they occur: a cons cell has two items, and so on; the items of a set are hashable,
    so there is nothing mutable in them. *)
Definition shape (u : tree) : Prop :=
  match u with
  | Leaf _ => True
  | Node (Imm KNil) l => l = []
  | Node (Imm KCons) l => length l = 2
  | Node (Imm KSome) l | Node (Mut _ MBox) l => length l = 1
  | Node (Imm KValues) l =>
      exists rets ks kwrets, l = [Node (Imm KTuple) rets; Node (Imm (KFrozendict ks)) kwrets]
  | Node (Imm KFrozenset) l | Node (Mut _ MSet) l => flat_map refs l = []
  | _ => True
  end.
Definition well_formed (t : tree) : Prop := forall i u, sub i u t -> shape u.

(** Every atom replaced; every container, key and identity kept; the items of a set once each. *)
Variable same : xval -> xval -> bool.
Fixpoint once (seen l : list tree) : list tree :=
  match l with
  | [] => []
  | t :: l' => if existsb (fun u => same (value t) (value u)) seen then once seen l'
               else t :: once (seen ++ [t]) l'
  end.
Definition remade (w : what) (l : list tree) : list tree :=
  match w with Imm KFrozenset | Mut _ MSet => once [] l | _ => l end.
Fixpoint replace (g : A -> A) (t : tree) : tree :=
  match t with Leaf a => Leaf (g a) | Node w l => Node w (remade w (map (replace g) l)) end.

(** The identity of a mutable container. *)
Definition ident (u : tree) : option nat := match u with Node (Mut r _) _ => Some r | _ => None end.
(** [u], with [i] atoms to the left of it, was finished when [n] atoms had been replaced. *)
Definition finished (i : nat) (u : tree) (n : nat) : Prop := i + length (leaves u) <= n.
(** The atom number [n] is somewhere inside a tuple. *)
Definition in_tuple (n : nat) (t : tree) : Prop :=
  exists i l, sub i (Node (Imm KTuple) l) t /\ i <= n < i + length (flat_map leaves l).
(** What the user sees when the function raises [e] for atom number [n]. *)
Definition seen_as (n : nat) (t : tree) (e e' : exn) : Prop :=
  (e <> StopIterationE -> e' = e) /\
  (e = StopIterationE -> in_tuple n t -> e' = RuntimeError) /\
  (e = StopIterationE -> ~ in_tuple n t -> e' = StopIterationE).
End Spec.
Arguments what : clear implicits.
Arguments tree : clear implicits.
