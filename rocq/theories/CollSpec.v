(** What collections.py promises, in terms of plain lists, functions and trees. *)
From Verif Require Import Base CollModel.
From Coq Require Import List Bool ZArith Arith.
Import ListNotations.
Open Scope nat_scope.

(** ** frozendict *)
Section Dict.
Context {K V : Type}.
Variable keqb : K -> K -> bool.
(** Of all the (key, value) pairs of the sources, one after the other, the last one for [k]. *)
Definition last_for (k : K) (pairs : list (K * V)) : option V :=
  match filter (fun kv => keqb (fst kv) k) (rev pairs) with
  | [] => None
  | kv :: _ => Some (snd kv)
  end.
(** The keys, each where it first occurs. *)
Fixpoint firsts (ks : list K) : list K :=
  match ks with
  | [] => []
  | k :: ks' => k :: filter (fun k' => negb (keqb k k')) (firsts ks')
  end.
End Dict.

(** ** ThreadLocalBox *)
Section Box.
Context {V : Type}.
(** What thread [t] sees after the history [h] (most recent event first): its own last
    write unless it cleared the box since; otherwise the last default set by anyone. *)
Fixpoint own (h : list (nat * tlop V)) (t : nat) : option V :=
  match h with
  | [] => None
  | (t', TSet x) :: h' => if Nat.eqb t' t then Some x else own h' t
  | (t', TClear) :: h' => if Nat.eqb t' t then None else own h' t
  | (_, TSetDefault _) :: h' => own h' t
  end.
Fixpoint default (h : list (nat * tlop V)) (x0 : V) : V :=
  match h with
  | [] => x0
  | (_, TSetDefault x) :: _ => x
  | _ :: h' => default h' x0
  end.
Definition seen (h : list (nat * tlop V)) (x0 : V) (t : nat) : V :=
  match own h t with Some x => x | None => default h x0 end.
End Box.

(** ** mogrify: values as trees.  A mutable container shows its identity [r]. *)
Section Tree.
Context {A K : Type}.
Inductive tree :=
| TAtom (a : A)
| TTuple (l : list tree)
| TFrozendict (l : list (K * tree))
| TFrozenset (l : list A)
| TNil
| TCons (a d : tree)
| TSome (x : tree)
| TList (r : nat) (l : list tree)
| TDict (r : nat) (l : list (K * tree))
| TMSet (r : nat) (l : list A)
| TBox (r : nat) (x : tree).

(** [unfolds h v t]: in the heap [h], the value [v] is the tree [t]. *)
Inductive unfolds (h : mheap A K) : mval A K -> tree -> Prop :=
| u_atom a : unfolds h (MAtom a) (TAtom a)
| u_tuple l ts : Forall2 (unfolds h) l ts -> unfolds h (MTuple l) (TTuple ts)
| u_frozendict l ts : Forall2 (fun a b => fst a = fst b /\ unfolds h (snd a) (snd b)) l ts ->
    unfolds h (MFrozendict l) (TFrozendict ts)
| u_frozenset l : unfolds h (MFrozenset l) (TFrozenset l)
| u_nil : unfolds h MNil TNil
| u_cons a d ta td : unfolds h a ta -> unfolds h d td -> unfolds h (MCons a d) (TCons ta td)
| u_some x t : unfolds h x t -> unfolds h (MSome x) (TSome t)
| u_list r l ts : h r = Some (CList l) -> Forall2 (unfolds h) l ts -> unfolds h (MRef r) (TList r ts)
| u_dict r l ts : h r = Some (CDict l) -> Forall2 (fun a b => fst a = fst b /\ unfolds h (snd a) (snd b)) l ts ->
    unfolds h (MRef r) (TDict r ts)
| u_mset r l : h r = Some (CSet l) -> unfolds h (MRef r) (TMSet r l)
| u_box r x t : h r = Some (CBox x) -> unfolds h x t -> unfolds h (MRef r) (TBox r t).

(** The identities of the mutable containers, one per occurrence. *)
Fixpoint refs (t : tree) : list nat :=
  match t with
  | TAtom _ | TFrozenset _ | TNil => []
  | TTuple l => flat_map refs l
  | TFrozendict l => flat_map (fun kv => refs (snd kv)) l
  | TCons a d => refs a ++ refs d
  | TSome x => refs x
  | TList r l => r :: flat_map refs l
  | TDict r l => r :: flat_map (fun kv => refs (snd kv)) l
  | TMSet r _ => [r]
  | TBox r x => r :: refs x
  end.
(** The atoms, from left to right. *)
Fixpoint leaves (t : tree) : list A :=
  match t with
  | TAtom a => [a]
  | TNil => []
  | TTuple l | TList _ l => flat_map leaves l
  | TFrozendict l | TDict _ l => flat_map (fun kv => leaves (snd kv)) l
  | TFrozenset l | TMSet _ l => l
  | TCons a d => leaves a ++ leaves d
  | TSome x | TBox _ x => leaves x
  end.
(** The same function on every atom; every container, key and identity kept.  The elements
    of a set form a set again: [mkset]. *)
Fixpoint tmap (mkset : list A -> list A) (f : A -> A) (t : tree) : tree :=
  match t with
  | TAtom a => TAtom (f a)
  | TTuple l => TTuple (map (tmap mkset f) l)
  | TFrozendict l => TFrozendict (map (fun kv => (fst kv, tmap mkset f (snd kv))) l)
  | TFrozenset l => TFrozenset (mkset (map f l))
  | TNil => TNil
  | TCons a d => TCons (tmap mkset f a) (tmap mkset f d)
  | TSome x => TSome (tmap mkset f x)
  | TList r l => TList r (map (tmap mkset f) l)
  | TDict r l => TDict r (map (fun kv => (fst kv, tmap mkset f (snd kv))) l)
  | TMSet r l => TMSet r (mkset (map f l))
  | TBox r x => TBox r (tmap mkset f x)
  end.
(** Nesting depth *)
Fixpoint depth (t : tree) : nat :=
  match t with
  | TAtom _ | TFrozenset _ | TNil | TMSet _ _ => 1
  | TTuple l | TList _ l => S (list_max (map depth l))
  | TFrozendict l | TDict _ l => S (list_max (map (fun kv => depth (snd kv)) l))
  | TCons a d => S (Nat.max (depth a) (depth d))
  | TSome x | TBox _ x => S (depth x)
  end.
(** Sets are sets. *)
Fixpoint sets_ok (t : tree) : Prop :=
  match t with
  | TAtom _ | TNil => True
  | TTuple l | TList _ l => fold_right (fun t P => sets_ok t /\ P) True l
  | TFrozendict l | TDict _ l => fold_right (fun kv P => sets_ok (snd kv) /\ P) True l
  | TFrozenset l | TMSet _ l => NoDup l
  | TCons a d => sets_ok a /\ sets_ok d
  | TSome x | TBox _ x => sets_ok x
  end.
(** No sets inside. *)
Fixpoint no_sets (t : tree) : Prop :=
  match t with
  | TAtom _ | TNil => True
  | TTuple l | TList _ l => fold_right (fun t P => no_sets t /\ P) True l
  | TFrozendict l | TDict _ l => fold_right (fun kv P => no_sets (snd kv) /\ P) True l
  | TFrozenset _ | TMSet _ _ => False
  | TCons a d => no_sets a /\ no_sets d
  | TSome x | TBox _ x => no_sets x
  end.
End Tree.
Arguments tree : clear implicits.
