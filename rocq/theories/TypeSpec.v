(** What the type specifications mean (C53), independently of isoftype. *)
From Coq Require Import List.
From Verif Require Import Base TypeModel.
Import ListNotations.
Open Scope list_scope.

Section TypeSpec.
Variable usub : nat -> cls -> bool.
Variable has_reversed : cls -> bool.
Definition instance (v : value) (c : cls) : Prop := issub usub (class_of v) c = true.

(** A collection type without arguments constrains only the container. *)
Inductive of_type : typ -> value -> Prop :=
| OAny v : of_type TAny v
| OVar0 v : of_type (TVar []) v
| OVar ts t v : In t ts -> of_type t v -> of_type (TVar ts) v
| OUnion ts t v : In t ts -> of_type t v -> of_type (TUnion ts) v
| ONewType c v : instance v c -> of_type (TNewType c) v
| OPony c v : instance v c -> of_type (TPony c) v
| OReversible v : has_reversed (class_of v) = true -> of_type TReversible v
| OSupports c v : instance v c -> of_type (TSupports c) v
| OTupleOf t v : instance v CTuple -> elts v <> [] -> Forall (of_type t) (elts v) -> of_type (TTupleOf t) v
| OTuple ts v : instance v CTuple -> Forall2 of_type ts (elts v) -> of_type (TTuple ts) v
| OElements c t v : instance v c -> elts v <> [] -> Forall (of_type t) (elts v) -> of_type (TAlias1 c t) v
| OItems c k w v : instance v c -> elts v <> [] ->
    Forall (fun kv => of_type k (fst kv) /\ of_type w (snd kv)) (items v) -> of_type (TAlias2 c k w) v
| OCallable v : instance v CCallable -> of_type TCallable v
| OBareTuple v : instance v CTuple -> of_type (TBare CTuple) v
| OBareCallable v : instance v CCallable -> of_type (TBare CCallable) v
| OBare c v : In c (CItemsView :: mappings ++ collections) -> c <> CByteString -> instance v c -> elts v <> [] -> of_type (TBare c) v
| OByteString v : instance v CByteString -> elts v <> [] -> Forall (fun e => instance e CInt) (elts v) -> of_type (TBare CByteString) v
| OClass c v : instance v c -> of_type (TClass c) v.

(** Classes that isoftype does not mistake for something else: str and bytes, and classes that are
    not subclasses of str, tuple, a mapping, an items view, a collection or of Callable *)
Definition special := CStr :: CTuple :: CItemsView :: CCallable :: mappings ++ collections.
Definition ordinary (c : cls) : Prop :=
  c = CStr \/ c = CBytes \/ Forall (fun k => issub usub c k = false) special.
(** Specifications within the supported features *)
Inductive supported : typ -> Prop :=
| SAny : supported TAny
| SVar ts : Forall supported ts -> supported (TVar ts)
| SUnion ts : Forall supported ts -> supported (TUnion ts)
| SUnionBare : supported TUnionBare
| SNewType c : supported (TNewType c)
| SPony c : supported (TPony c)
| SReversible : supported TReversible
| SSupports c : supported (TSupports c)
| STupleOf t : supported t -> supported (TTupleOf t)
| STuple ts : Forall supported ts -> supported (TTuple ts)
| SAlias1 c t : In c collections -> supported t -> supported (TAlias1 c t)
| SAlias2 c k w : In c (CItemsView :: mappings) -> supported k -> supported w -> supported (TAlias2 c k w)
| SCallable : supported TCallable
| SBare c : In c (CTuple :: CCallable :: CItemsView :: mappings ++ collections) -> supported (TBare c)
| SClass c : ordinary c -> supported (TClass c).
End TypeSpec.
