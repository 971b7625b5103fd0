(** C53: isoftype. *)
From Coq Require Import List Bool.
From Verif Require Import Base TypeModel TypeSpec TypeProofs.
Import ListNotations.
Open Scope list_scope.

(** On every specification built from the supported features and from classes that are not mistaken
    for something else, isoftype answers, and its answer is the meaning of the specification. *)
Theorem C53_decides : forall usub has_reversed T, supported usub T -> forall v,
  exists b, isoftype usub has_reversed T v = Ok b /\ (b = true <-> of_type usub has_reversed T v).
Proof. exact isoftype_decides. Qed.
Print Assumptions C53_decides.

(** For instance List[Union[int, Tuple[str, ...]]] and Dict[str, Sequence[Any]] *)
Definition no_user : nat -> cls -> bool := fun _ _ => false.
Definition rev_any : cls -> bool := fun _ => true.
Example C53_ex_supported :
  supported no_user (TUnion [TAlias1 CList (TUnion [TClass CInt; TTupleOf (TClass CStr)]); TAlias2 CDict (TClass CStr) (TAlias1 CSequence TAny)]).
Proof.
  assert (I : supported no_user (TClass CInt)) by (apply SClass; right; right; repeat constructor).
  assert (S : supported no_user (TClass CStr)) by (apply SClass; now left).
  constructor. constructor; [|constructor; [|constructor]].
  - constructor; [now left|]. constructor. constructor; [exact I|]. constructor; [|constructor]. constructor. exact S.
  - constructor; [right; now left|exact S|]. constructor; [|constructor]. vm_compute. tauto.
Qed.
Definition int_ : value := Obj CInt [] [].
Definition none_ : value := Obj CNone [] [].
Definition list_ l : value := Obj CList l [].
Definition tuple_ l : value := Obj CTuple l [].
Example C53_ex : isoftype no_user rev_any (TAlias1 CList (TUnion [TClass CInt; TClass CNone])) (list_ [int_; none_]) = Ok true
  /\ isoftype no_user rev_any (TAlias1 CList (TClass CInt)) (list_ [int_; none_]) = Ok false
  /\ isoftype no_user rev_any (TTuple [TClass CInt; TClass CNone]) (tuple_ [int_; none_; none_]) = Ok false
  /\ isoftype no_user rev_any (TAlias1 CList TAny) (list_ []) = Ok false.
Proof. repeat split. Qed.

(** Classes in general: isoftype(value, C) should be isinstance(value, C). *)
(** - an empty list is not a list, an empty dict not a dict; an empty tuple is a tuple *)
Theorem C53_empty_builtin_refuted : forall usub hr,
  isinst usub (list_ []) CList = true /\ isoftype usub hr (TClass CList) (list_ []) = Ok false /\
  isinst usub (Obj CDict [] []) CDict = true /\ isoftype usub hr (TClass CDict) (Obj CDict [] []) = Ok false /\
  isoftype usub hr (TClass CTuple) (tuple_ []) = Ok true.
Proof. intros usub hr. repeat split. Qed.
Print Assumptions C53_empty_builtin_refuted.

(** object is the type of everything, and every class is a subclass of itself and of it *)
Theorem C53_object : forall usub hr v, (forall n, usub n (CUser n) = true) ->
  isoftype usub hr (TClass CObject) v = Ok true /\
  forall c, issub usub c CObject = true /\ issub usub c c = true.
Proof. exact object_type. Qed.
Print Assumptions C53_object.

(** - for a subclass of str any str is accepted *)
Theorem C53_str_subclass_refuted : forall usub hr c v, issub usub c CStr = true ->
  isoftype usub hr (TClass c) v = Ok (isinst usub v CStr).
Proof. exact str_subclass. Qed.
Print Assumptions C53_str_subclass_refuted.

(** - for a subclass of tuple, such as a named tuple, any tuple *)
Theorem C53_tuple_subclass_refuted : forall usub hr c v, issub usub c CStr = false -> issub usub c CTuple = true ->
  isoftype usub hr (TClass c) v = Ok (isinst usub v CTuple).
Proof. exact tuple_subclass. Qed.
Print Assumptions C53_tuple_subclass_refuted.
Definition point : nat -> cls -> bool := fun _ c => cin c (CTuple :: supers CTuple).
Example C53_tuple_subclass_ex : issub point (CUser 1) CStr = false /\ issub point (CUser 1) CTuple = true /\
  isoftype point rev_any (TClass (CUser 1)) (tuple_ []) = Ok true /\ isinst point (tuple_ []) (CUser 1) = false.
Proof. repeat split. Qed.

(** - for a subclass of dict, any nonempty dict; of list, any nonempty list *)
Definition mydict : nat -> cls -> bool := fun _ c => cin c (CDict :: supers CDict).
Theorem C53_dict_subclass_refuted : exists usub hr c v,
  isinst usub v c = false /\ isoftype usub hr (TClass c) v = Ok true /\ issub usub c CDict = true.
Proof. exists mydict, rev_any, (CUser 1), (Obj CDict [int_] [int_]). repeat split. Qed.
Print Assumptions C53_dict_subclass_refuted.

(** - for a class whose instances are callable, or for [type], any callable *)
Definition functor_ : nat -> cls -> bool := fun _ c => cin c [CCallable; CHashable].
Theorem C53_callable_class_refuted : exists usub hr c v,
  class_of v = CFunction /\ isinst usub v c = false /\ isoftype usub hr (TClass c) v = Ok true /\
  isinst usub v CType = false /\ isoftype usub hr (TClass CType) v = Ok true.
Proof. exists functor_, rev_any, (CUser 1), (Obj CFunction [] []). repeat split. Qed.
Print Assumptions C53_callable_class_refuted.

(** Specifications that are not supported raise NotImplementedError, but not always: Union stops at
    the first match. *)
Example C53_ex_other : isoftype no_user rev_any (TUnion [TClass CInt; TOther]) int_ = Ok true
  /\ isoftype no_user rev_any (TUnion [TClass CInt; TOther]) none_ = Raise NotImplementedError
  /\ isoftype no_user rev_any (TAlias1 (CUser 5) TAny) none_ = Raise NotImplementedError.
Proof. repeat split. Qed.
