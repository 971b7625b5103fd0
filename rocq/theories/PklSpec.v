(** What a copy of an object graph is. *)
From Coq Require Import String List Bool Arith ZArith.
From Verif Require Import Base PklModel.
Import ListNotations.
Open Scope string_scope.
Open Scope list_scope.
Open Scope nat_scope.

(** ** The processes *)
(** the object a is the one with the identity k: the symbol of this name, the gensym with this uid, the instance of
    this singleton class, the empty frozendict *)
Definition has_identity (p : proc) (a : nat) (k : key) : Prop :=
  match k with
  | KSym n => exists d, nth_error (heap p) a = Some (Inst Sym d) /\ get d "name" = Some n
  | KGsym u => exists d, nth_error (heap p) a = Some (Inst Gsym d) /\ get d "uid" = Some u
  | KSingle c => exists d, nth_error (heap p) a = Some (Inst (Single c) d)
  | KEmpty => reg p KEmpty = Some a
  end.
Definition class_of (k : key) : class :=
  match k with KSym _ => Sym | KGsym _ => Gsym | KSingle c => Single c | KEmpty => Fdict end.
Definition prim (v : value) : Prop := match v with Ref _ => False | _ => True end.
Definition simple_key (p : proc) (v : value) : Prop :=
  match v with
  | Ref a => exists c d, nth_error (heap p) a = Some (Inst c d) /\ match c with Sym | Gsym | Single _ => True | _ => False end
  | _ => True
  end.
(** the objects are as their constructors and methods leave them *)
Definition well_made (p : proc) (o : object) : Prop :=
  (forall a, In (Ref a) (children o) -> a < length (heap p)) /\
  match o with
  | Inst c d =>
      NoDup (map fst d) /\
      match c with
      | Sym => exists n, get d "name" = Some n /\ prim n
      | Gsym => exists u l, get d "uid" = Some u /\ get d "label" = Some l /\ prim u /\ prim l
      | Env => forall n, get d n <> None <-> n = "_env" \/ n = "_finalized"
      | _ => True
      end
  | Lst _ => True
  | Dct l => NoDup (map fst l) /\ forall k v, In (k, v) l -> simple_key p k
  end.
(** the process that pickles: the interned objects are interned (C58, C59) *)
Definition good (p : proc) : Prop :=
  (forall a k, has_identity p a k -> reg p k = Some a) /\
  (forall a, reg p KEmpty = Some a -> exists d, nth_error (heap p) a = Some (Inst Fdict d)) /\
  (forall a o, nth_error (heap p) a = Some o -> well_made p o).
(** the process that unpickles: its registries have objects of the right class, each once *)
Definition sound (p : proc) : Prop :=
  (forall k a, reg p k = Some a -> exists d, nth_error (heap p) a = Some (Inst (class_of k) d)) /\
  (forall k l a, reg p k = Some a -> reg p l = Some a -> k = l).

(** the objects that can be come by from a value *)
Inductive reach (p : proc) : value -> nat -> Prop :=
| reach_here a : reach p (Ref a) a
| reach_in a o v b : nth_error (heap p) a = Some o -> In v (children o) -> reach p v b -> reach p (Ref a) b.
Definition supported (o : object) : Prop := match o with Inst (Shim | Local) _ => False | _ => True end.

(** ** Copies: [m] is the list of the objects with their copies *)
Definition vrel (m : list (nat * nat)) (v w : value) : Prop :=
  match v, w with Ref a, Ref b => In (a, b) m | Ref _, _ | _, Ref _ => False | v, w => v = w end.
(** the same class, and the same contents but for the objects in it being the copies *)
Definition orel (m : list (nat * nat)) (o o' : object) : Prop :=
  match o, o' with
  | Lst l, Lst l' => Forall2 (vrel m) l l'
  | Dct l, Dct l' => Forall2 (fun q q' => vrel m (fst q) (fst q') /\ vrel m (snd q) (snd q')) l l'
  | Inst c d, Inst c' d' => c = c' /\ forall n v, get d n = Some v -> exists w, get d' n = Some w /\ vrel m v w
  | _, _ => False
  end.
(** and no attributes that the original does not have *)
Definition no_more (o o' : object) : Prop :=
  match o, o' with
  | Inst c d, Inst c' d' => forall n, get d n = None -> get d' n = None
  | _, _ => True
  end.
(** [p]: the process that pickles v; [q], [q']: the one that unpickles it as w, before and after *)
Record copied (p q q' : proc) (v w : value) (m : list (nat * nat)) : Prop := {
  the_value : vrel m v w;
  one_to_one : forall a b a' b', In (a, b) m -> In (a', b') m -> (a = a' <-> b = b');
  contents : forall a b, In (a, b) m ->
    exists o o', nth_error (heap p) a = Some o /\ nth_error (heap q') b = Some o' /\ orel m o o' /\
      ((forall k, ~ has_identity p a k) -> no_more o o');
  identity : forall a b k, In (a, b) m -> has_identity p a k ->
    reg q' k = Some b /\ (forall c, reg q k = Some c -> b = c);
  fresh : forall a b, In (a, b) m -> (forall k, ~ has_identity p a k) -> length (heap q) <= b;
  the_rest : forall b, b < length (heap q) -> ~ In b (map snd m) -> nth_error (heap q') b = nth_error (heap q) b;
  registered : forall k a, reg q k = Some a -> reg q' k = Some a;
  still_sound : sound q'
}.
